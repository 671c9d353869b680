(** Vocabulary of the theorems about moving entries, independent of the programs. *)
From Coq Require Import Permutation.
From Verif Require Import Base TensorModel Aby3Model Aby3Spec StoreModel StoreSpec MoveModel.
Local Open Scope nat_scope.

(** [ix] is an index of a tensor of shape [d]. *)
Definition valid (d ix : list nat) : Prop := Forall2 (fun i n => i < n) ix d.
(** Its row-major position, by Horner's rule. *)
Definition pos (d ix : list nat) : nat := fold_left (fun acc p => acc * snd p + fst p) (combine ix d) 0.
(** The entry there. *)
Definition value (w : raw) (ix : list nat) : Z := nth (pos (dims w) ix) (data w) 0%Z.

(** Arithmetic sharings over [n]-bit words and boolean sharings over values of [f]. *)
Inductive kind := KArith (n : Z) | KBool (f : fac).
Definition kty (k : kind) : sty := match k with KArith _ => Arith | KBool _ => Bool_ end.
Definition kfc (k : kind) : fac := match k with KArith n => FI n | KBool f => f end.
Definition shares (k : kind) (x : priv) (v : Z) : Prop := match k with KArith n => arith n x v | KBool f => boolean f x v end.
(** [x] is a well-formed sharing of the tensor [w]. *)
Definition secret (k : kind) (sc : bool) (x : tens) (w : raw) : Prop :=
  tdims x = dims w /\ tsc x = sc /\ tty x = kty k /\ tfc x = kfc k /\ length (data w) = fold_right Nat.mul 1 (dims w) /\
  Forall (fun l => length l = length (data w)) [t00 x; t01 x; t10 x; t11 x; t20 x; t21 x] /\
  forall e, e < length (data w) -> shares k (entry x e) (nth e (data w) 0%Z).
(** [x] is the tensor [w], known to the three servers. *)
Definition known (f : fac) (sc : bool) (x : ptens) (w : raw) : Prop :=
  udims x = dims w /\ usc x = sc /\ ufc x = f /\ length (data w) = fold_right Nat.mul 1 (dims w) /\
  u0 x = data w /\ u1 x = data w /\ u2 x = data w.

(** What the operations mean: [legal o d d'] says that [o] can be applied to tensors of shape [d] and gives shape [d'] ... *)
Inductive legal : op -> list nat -> list nat -> Prop :=
  | l_reshape d s : fold_right Nat.mul 1 s = fold_right Nat.mul 1 d -> legal (Reshape s) d s
  | l_transpose d perm : Permutation perm (seq 0 (length d)) -> legal (Transpose perm) d (map (fun i => nth i d 0) perm)
  | l_expand p q : legal (ExpandDims (length p)) (p ++ q) (p ++ 1 :: q)
  | l_squeeze p q : legal (Squeeze (length p)) (p ++ 1 :: q) (p ++ q)
  | l_gather p n q idx : Forall (fun i => i < n) idx -> legal (Gather idx (length p)) (p ++ n :: q) (p ++ length idx :: q)
  | l_reverse p n q : legal (Reverse (length p)) (p ++ n :: q) (p ++ n :: q)
  | l_slice p n q start count step : (forall j, j < count -> start + j * step < n) -> 0 < count -> 0 < step ->
      legal (Slice (length p) start count step) (p ++ n :: q) (p ++ count :: q)
  | l_tile d ms d' : Forall2 (fun '(m, n) n' => n' = m * n) (combine ms d) d' -> length ms = length d -> legal (Tile ms) d d'.
(** ... and [from o d ix jx] that entry [ix] of the result is entry [jx] of the argument. *)
Inductive from : op -> list nat -> list nat -> list nat -> Prop :=
  | f_reshape d s ix jx : pos s ix = pos d jx -> from (Reshape s) d ix jx
  | f_transpose d perm jx : from (Transpose perm) d (map (fun i => nth i jx 0) perm) jx
  | f_expand d ip iq : from (ExpandDims (length ip)) d (ip ++ 0 :: iq) (ip ++ iq)
  | f_squeeze d ip iq : from (Squeeze (length ip)) d (ip ++ iq) (ip ++ 0 :: iq)
  | f_gather d idx ip j iq : from (Gather idx (length ip)) d (ip ++ j :: iq) (ip ++ nth j idx 0 :: iq)
  | f_reverse p n q ip j j' iq : length ip = length p -> j + j' = n - 1 ->
      from (Reverse (length ip)) (p ++ n :: q) (ip ++ j :: iq) (ip ++ j' :: iq)
  | f_slice d start count step ip j iq :
      from (Slice (length ip) start count step) d (ip ++ j :: iq) (ip ++ start + j * step :: iq)
  | f_tile d ms ix jx : Forall2 (fun '(i, n) j => exists q, i = q * n + j) (combine ix d) jx -> from (Tile ms) d ix jx.

(** Word sizes for which the shares can hold anything. *)
Definition sensible (k : kind) : Prop := match k with KArith n => (0 < n)%Z | KBool (FI n) => (0 < n)%Z | KBool FB => True end.
(** The shape after padding with [ps], the amounts before and after along the first axes. *)
Fixpoint padded (ps : list (nat * nat)) (d : list nat) : list nat :=
  match ps, d with (b, a) :: ps, n :: d => b + n + a :: padded ps d | _, _ => d end.
(** The entry an index of the padded tensor stands for, unless it is one of the zeros. *)
Fixpoint inside (ps : list (nat * nat)) (d ix : list nat) : option (list nat) :=
  match ps, d, ix with
  | (b, _) :: ps, n :: d, i :: ix =>
    if (b <=? i) && (i <? b + n) then match inside ps d ix with Some jx => Some (i - b :: jx) | None => None end else None
  | _, _, _ => Some ix
  end.
