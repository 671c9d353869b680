(** Model of the operations of ABY3 that move entries about without computing: transpose, indexing, reshape, concat, stack,
    expand_dims, squeeze, strided_slice, gather, tile, split, reverse and pad (/repo/tf_encrypted/protocol/aby3/aby3.py
    1370-1425, 1602-1619, 1908-1964, 4349-4381, 4424-4720, 4847-4888, 5394-5431, 5459-5468).  A tensor is its shape and its
    entries in row-major order.  TensorFlow's kernels are described by the entry every position of the result is copied from;
    axes are counted from 0 and shapes are known. *)
From Verif Require Import Base TensorModel Aby3Model.
From Verif Require StoreModel.
Import StoreModel(tens, Tens, tdims, tsc, tty, tfc, t00, t01, t10, t11, t20, t21, volume, same_shape).
Local Open Scope nat_scope.

(** Exceptions: of TensorFlow (InvalidArgument), of [assert] (aby3.py 4425, native.py 212), of [dispatch] (aby3.py 2019), of
    [xs[0]] (4427), of the constructor of public tensors (5430) and of factories without an operation (boolfactory.py 61-300). *)
Inductive exn := InvalidArgument | AssertionError | TypeError | IndexError | AttributeError.
(** Outcomes (aby3.py 2018-2019). *)
Inductive res (A : Type) := Ok (a : A) | Err (e : exn).
Arguments Ok {A} _.
Arguments Err {A} _.
(** Statements one after the other (aby3.py 4355-4359). *)
Definition bind {A B} (m : res A) (k : A -> res B) : res B := match m with Ok a => k a | Err e => Err e end.
Notation "'do' x <- m ; k" := (bind m (fun x => k)) (at level 200, x pattern, m at level 100, k at level 200).

(** The value of a native tensor (native.py 300-310). *)
Record raw := Raw { dims : list nat; data : list Z }.
(** An ABY3PublicTensor (aby3_tensors.py 405-412): the copies of the three servers. *)
Record ptens := PTens { udims : list nat; usc : bool; ufc : fac; u0 : list Z; u1 : list Z; u2 : list Z }.
(** An argument: private or public (aby3.py 1387-1393). *)
Inductive any := Pr (x : tens) | Pu (x : ptens).

(** Row-major position of an index, as TensorFlow lays out tensors (native.py 440-518). *)
Fixpoint ravel (d ix : list nat) : nat :=
  match d, ix with _ :: d, i :: ix => i * volume d + ravel d ix | _, _ => 0 end.
(** The index at a position (native.py 440-518). *)
Fixpoint unravel (d : list nat) (e : nat) : list nat :=
  match d with [] => [] | _ :: d => e / volume d :: unravel d (e mod volume d) end.
(** A kernel: from the shapes of its arguments the shape of the result and, for each of its indices, the argument and the
    index there the entry comes from (native.py 206-214, 242-243, 339-340, 439-466, 514-518). *)
Definition kernel := list (list nat) -> res (list nat * (list nat -> nat * list nat)).
(** A kernel run on tensors (native.py 206-214, 242-243, 339-340, 439-466, 514-518). *)
Definition apply (k : kernel) (ts : list raw) : res raw :=
  do (d, src) <- k (map dims ts);
  Ok (Raw d (map (fun e => let '(t, jx) := src (unravel d e) in
                           let x := nth t ts (Raw [] []) in nth (ravel (dims x) jx) (data x) 0%Z) (seq 0 (volume d)))).

(** Entry [a] of a list replaced (tf.gather and the like change one axis; native.py 448). *)
Definition at_axis (a : nat) (f : nat -> nat) (l : list nat) : list nat := firstn a l ++ f (nth a l 0) :: skipn (S a) l.
(** Operations on one tensor.  [Slice a start count step] is a slice of one axis, as indexing and strided_slice take it, with
    its start and its length worked out; [Reverse] takes one axis (aby3.py 1370-1425, 1602-1619, 1963-1964). *)
Inductive op :=
  | Reshape (s : list nat) | Transpose (perm : list nat) | ExpandDims (a : nat) | Squeeze (a : nat)
  | Gather (idx : list nat) (a : nat) | Reverse (a : nat) | Slice (a start count step : nat) | Tile (ms : list nat).
(** Where in the list a number first is (tf.transpose: the axis that goes there; native.py 440). *)
Fixpoint find_at (i : nat) (l : list nat) : nat := match l with [] => 0 | j :: l => if i =? j then 0 else S (find_at i l) end.
(** Two lists entry by entry (tf.tile; native.py 243). *)
Definition zip_with (f : nat -> nat -> nat) (l m : list nat) : list nat := map (fun p => f (fst p) (snd p)) (combine l m).
(** TensorFlow's kernels on a tensor of shape [d] (native.py 243, 340, 440, 443, 448, 461, 465, 515, 518). *)
Definition kernel_of (o : op) (d : list nat) : res (list nat * (list nat -> list nat)) :=
  match o with
  | Reshape s => if volume s =? volume d then Ok (s, fun ix => unravel d (ravel s ix)) else Err InvalidArgument
  | Transpose perm =>
    if (length perm =? length d) && forallb (fun i => existsb (Nat.eqb i) perm) (seq 0 (length d))
    then Ok (map (fun i => nth i d 0) perm, fun ix => map (fun i => nth (find_at i perm) ix 0) (seq 0 (length d)))
    else Err InvalidArgument
  | ExpandDims a =>
    if a <=? length d then Ok (firstn a d ++ 1 :: skipn a d, fun ix => firstn a ix ++ skipn (S a) ix) else Err InvalidArgument
  | Squeeze a =>
    if (a <? length d) && (nth a d 0 =? 1) then Ok (firstn a d ++ skipn (S a) d, fun ix => firstn a ix ++ 0 :: skipn a ix)
    else Err InvalidArgument
  | Gather idx a =>
    if (a <? length d) && forallb (fun i => i <? nth a d 0) idx
    then Ok (at_axis a (fun _ => length idx) d, at_axis a (fun j => nth j idx 0)) else Err InvalidArgument
  | Reverse a => if a <? length d then Ok (d, at_axis a (fun j => nth a d 0 - 1 - j)) else Err InvalidArgument
  | Slice a start count step =>
    if (a <? length d) && (start + count * step <? nth a d 0 + step)
    then Ok (at_axis a (fun _ => count) d, at_axis a (fun j => start + j * step)) else Err InvalidArgument
  | Tile ms => if length ms =? length d then Ok (zip_with Nat.mul ms d, fun ix => zip_with Nat.modulo ix d) else Err InvalidArgument
  end.
(** The same as a kernel (native.py 243, 340, 440-518). *)
Definition one (o : op) : kernel := fun ds =>
  do (d, f) <- kernel_of o (nth 0 ds []); Ok (d, fun ix => (0, f ix)).

(** Which of tensors of these lengths entry [j] of their concatenation is in, and where (tf.concat; native.py 213). *)
Fixpoint locate (ns : list nat) (j t : nat) : nat * nat :=
  match ns with [] => (t, j) | n :: ns => if j <? n then (t, j) else locate ns (j - n) (S t) end.
(** tf.concat (native.py 213): the shapes agree except on the axis. *)
Definition concat_k (a : nat) : kernel := fun ds =>
  let d := nth 0 ds [] in
  if (a <? length d) && forallb (fun e => (a <? length e) && same_shape (at_axis a (fun _ => 0) e) (at_axis a (fun _ => 0) d)) ds
  then let ns := map (fun e => nth a e 0) ds in
       Ok (at_axis a (fun _ => fold_right Nat.add 0 ns) d,
           fun ix => (fst (locate ns (nth a ix 0) 0), at_axis a (fun j => snd (locate ns j 0)) ix))
  else Err InvalidArgument.
(** tf.stack (native.py 208). *)
Definition stack_k (a : nat) : kernel := fun ds =>
  let d := nth 0 ds [] in
  if (a <=? length d) && forallb (fun e => same_shape e d) ds
  then Ok (firstn a d ++ length ds :: skipn a d, fun ix => (nth a ix 0, firstn a ix ++ skipn (S a) ix))
  else Err InvalidArgument.
(** Part [p] of tf.split into [num] equal parts (native.py 451). *)
Definition split_k (num a p : nat) : kernel := fun ds =>
  let d := nth 0 ds [] in let n := nth a d 0 in
  if (a <? length d) && (0 <? num) && (n mod num =? 0)
  then Ok (at_axis a (fun _ => n / num) d, fun ix => (0, at_axis a (fun j => p * (n / num) + j) ix))
  else Err InvalidArgument.

(** The same kernel on each of the six shares, [z[i][j] = ...] (aby3.py 4355-4359, 4455-4465), and the constructor's check of
    the shapes (aby3_tensors.py 563-566).  That every share is made on its own server is part of the representation. *)
Definition on_shares (k : kernel) (xs : list tens) (sc : bool) (ty : sty) (f : fac) : res tens :=
  let run (g : tens -> list Z) := apply k (map (fun x => Raw (tdims x) (g x)) xs) in
  do a <- run t00; do b <- run t01; do c <- run t10; do d <- run t11; do e <- run t20; do h <- run t21;
  if forallb (fun s => same_shape (dims s) (dims a)) [b; c; d; e; h]
  then Ok (Tens (dims a) sc ty f (data a) (data b) (data c) (data d) (data e) (data h)) else Err AssertionError.
(** The same on the three copies of public tensors (aby3.py 4369-4381). *)
Definition on_copies (k : kernel) (xs : list ptens) (sc : bool) (f : fac) : res ptens :=
  let run (g : ptens -> list Z) := apply k (map (fun x => Raw (udims x) (g x)) xs) in
  do a <- run u0; do b <- run u1; do c <- run u2;
  if forallb (fun s => same_shape (dims s) (dims a)) [b; c]
  then Ok (PTens (dims a) sc f (data a) (data b) (data c)) else Err AssertionError.

(** [_transpose_private], [_expand_dims_private], [_squeeze_private], [_strided_slice_private], [_gather_private],
    [_tile_private], [_indexer_private], [_reshape_private], [_reverse_private] and the public ones, found by [dispatch]
    (aby3.py 2003-2021, 4349-4381, 4516-4607, 4624-4635, 4653-4679, 4847-4888, 5459-5468); there is no [_reverse_public]. *)
Definition move (o : op) (x : any) : res any :=
  match x with
  | Pr x => do y <- on_shares (one o) [x] (tsc x) (tty x) (tfc x); Ok (Pr y)
  | Pu x => match o with Reverse _ => Err TypeError | _ => do y <- on_copies (one o) [x] (usc x) (ufc x); Ok (Pu y) end
  end.

(** Equal factories, [isinstance(x, Tensor)] (native.py 207, 212). *)
Definition same_factory (f g : fac) : bool := fac_eqb f g.
(** All or none (aby3.py 4425, 4448, 4471, 4494). *)
Definition all_or_none (l : list bool) : bool := forallb (fun b => b) l || forallb negb l.
(** [_concat_private] and [_stack_private] (aby3.py 4447-4467, 4493-4513): only the scaling flags are compared. *)
Definition join_private (k : kernel) (xs : list tens) : res tens :=
  if all_or_none (map tsc xs)
  then match xs with
       | [] => Err IndexError
       | x :: _ => if forallb (fun y => same_factory (tfc y) (tfc x)) xs
                   then on_shares k xs (tsc x) (tty x) (tfc x) else Err AssertionError
       end
  else Err AssertionError.
(** [_concat_public] and [_stack_public] (aby3.py 4424-4444, 4470-4490). *)
Definition join_public (k : kernel) (xs : list ptens) : res ptens :=
  if all_or_none (map usc xs)
  then match xs with
       | [] => Err IndexError
       | x :: _ => if forallb (fun y => same_factory (ufc y) (ufc x)) xs
                   then on_copies k xs (usc x) (ufc x) else Err AssertionError
       end
  else Err AssertionError.
(** The arguments if all are public (aby3.py 1387, 1399). *)
Fixpoint publics (xs : list any) : option (list ptens) :=
  match xs with
  | [] => Some []
  | Pu x :: xs => match publics xs with Some l => Some (x :: l) | None => None end
  | Pr _ :: _ => None
  end.
(** The arguments if all are private (aby3.py 1390, 1402). *)
Fixpoint privates (xs : list any) : option (list tens) :=
  match xs with
  | [] => Some []
  | Pr x :: xs => match privates xs with Some l => Some (x :: l) | None => None end
  | Pu _ :: _ => None
  end.
(** [concat] and [stack] (aby3.py 1385-1408). *)
Definition join (k : kernel) (xs : list any) : res any :=
  match publics xs with
  | Some l => do y <- join_public k l; Ok (Pu y)
  | None => match privates xs with Some l => do y <- join_private k l; Ok (Pr y) | None => Err TypeError end
  end.
(** [concat] (aby3.py 1385-1393). *)
Definition concat_ (xs : list any) (a : nat) : res any := join (concat_k a) xs.
(** [stack] (aby3.py 1396-1408). *)
Definition stack_ (xs : list any) (a : nat) : res any := join (stack_k a) xs.

(** The parts of [split] (aby3.py 4697-4720), one after the other. *)
Fixpoint parts (mk : nat -> res any) (num p : nat) : res (list any) :=
  match num with O => Ok [] | S num => do y <- mk p; do ys <- parts mk num (S p); Ok (y :: ys) end.
(** [split] into equal parts (aby3.py 1612-1614, 4682-4720); none is an error of TensorFlow. *)
Definition split_ (x : any) (num a : nat) : res (list any) :=
  if num =? 0 then Err InvalidArgument
  else parts (fun p => match x with
                       | Pr x => do y <- on_shares (split_k num a p) [x] (tsc x) (tty x) (tfc x); Ok (Pr y)
                       | Pu x => do y <- on_copies (split_k num a p) [x] (usc x) (ufc x); Ok (Pu y)
                       end) num 0.

(** [_zeros_private] (aby3.py 5394-5415): six zero tensors; [_zeros_public] (5418-5431) gives the constructor of public tensors
    (aby3_tensors.py 405) one argument too many. *)
Definition zeros_like (x : any) (s : list nat) : res any :=
  let z := repeat 0%Z (volume s) in
  match x with Pr x => Ok (Pr (Tens s (tsc x) (tty x) (tfc x) z z z z z z)) | Pu _ => Err TypeError end.
(** The shape of a tensor (aby3.py 1936). *)
Definition shape (x : any) : list nat := match x with Pr x => tdims x | Pu x => udims x end.
(** [padshape] (aby3.py 1934-1937): an axis the tensor does not have changes nothing. *)
Definition padshape (amt a : nat) (d : list nat) : list nat := if a <? length d then at_axis a (fun _ => amt) d else d.
(** [append_zeros] (aby3.py 1941-1953). *)
Definition append_zeros (x : any) (amt a : nat) : res any :=
  if amt =? 0 then Ok x else do z <- zeros_like x (padshape amt a (shape x)); concat_ [x; z] a.
(** [prepend_zeros] (aby3.py 1927-1939). *)
Definition prepend_zeros (x : any) (amt a : nat) : res any :=
  if amt =? 0 then Ok x else do z <- zeros_like x (padshape amt a (shape x)); concat_ [z; x] a.
(** The loop of [pad] (aby3.py 1955-1960). *)
Fixpoint pad_from (a : nat) (ps : list (nat * nat)) (x : any) : res any :=
  match ps with
  | [] => Ok x
  | (before, after) :: ps => do x <- append_zeros x after a; do x <- prepend_zeros x before a; pad_from (S a) ps x
  end.
(** [pad] (aby3.py 1908-1960). *)
Definition pad (x : any) (ps : list (nat * nat)) : res any := pad_from 0 ps x.

(** tf.gather by a tensor of indices, here with one axis (native.py 445-448); negative indices are out of range. *)
Definition index_k (idx : list Z) (a : nat) : kernel := fun ds =>
  if forallb (fun v => 0 <=? v)%Z idx then one (Gather (map Z.to_nat idx) a) ds else Err InvalidArgument.
(** [_gather_private_public] and [_gather_public_public] (aby3.py 4610-4621, 4638-4650): each server uses its own copy of the
    words of the indices, scaled or not. *)
Definition gather_by (x : any) (idx : ptens) (a : nat) : res any :=
  match x with
  | Pr x =>
    let run (g : tens -> list Z) (i : list Z) := apply (index_k i a) [Raw (tdims x) (g x)] in
    do r <- run t00 (u0 idx); do s <- run t01 (u0 idx); do t <- run t10 (u1 idx);
    do u <- run t11 (u1 idx); do v <- run t20 (u2 idx); do w <- run t21 (u2 idx);
    if forallb (fun z => same_shape (dims z) (dims r)) [s; t; u; v; w]
    then Ok (Pr (Tens (dims r) (tsc x) (tty x) (tfc x) (data r) (data s) (data t) (data u) (data v) (data w)))
    else Err AssertionError
  | Pu x =>
    let run (g : ptens -> list Z) (i : list Z) := apply (index_k i a) [Raw (udims x) (g x)] in
    do r <- run u0 (u0 idx); do s <- run u1 (u1 idx); do t <- run u2 (u2 idx);
    if forallb (fun z => same_shape (dims z) (dims r)) [s; t]
    then Ok (Pu (PTens (dims r) (usc x) (ufc x) (data r) (data s) (data t)))
    else Err AssertionError
  end.
