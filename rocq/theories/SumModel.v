(** Model of [reduce_sum] and [scatter_nd] on ABY3 tensors of any shape (/repo/tf_encrypted/protocol/aby3/aby3.py
    1428-1430, 1607-1609, 4388-4416, 5754-5780).  The indices of scatter_nd select entries of the first axis; shapes are known. *)
From Verif Require Import Base TensorModel Aby3Model.
From Verif Require StoreModel MoveModel.
Import StoreModel(tens, Tens, tdims, tsc, tty, tfc, t00, t01, t10, t11, t20, t21, volume, same_shape, limbs).
Import MoveModel(ptens, PTens, udims, usc, ufc, u0, u1, u2, res, Ok, Err, InvalidArgument, AssertionError, AttributeError, raw, Raw, dims, data, ravel, unravel, at_axis, bind).
Local Open Scope nat_scope.
Local Notation "'do' x <- m ; k" := (MoveModel.bind m (fun x => k)) (at level 200, x pattern, m at level 100, k at level 200).

(** A kernel that adds: from the shape of its argument the shape of the result and, for each of its indices, the entries that
    are added up (native.py 245-248, 473-477; int128.py 224-230, 490-493). *)
Definition adder := list nat -> res (list nat * (list nat -> list (list nat))).
(** tf.reduce_sum over one axis or all (native.py 474). *)
Definition reduce_k (axis : option nat) (keepdims : bool) : adder := fun d =>
  match axis with
  | None => Ok (if keepdims then repeat 1 (length d) else [], fun _ => map (unravel d) (seq 0 (volume d)))
  | Some a =>
    if a <? length d
    then Ok (if keepdims then at_axis a (fun _ => 1) d else firstn a d ++ skipn (S a) d,
             fun ix => map (fun j => firstn a ix ++ j :: skipn (if keepdims then S a else a) ix) (seq 0 (nth a d 0)))
    else Err InvalidArgument
  end.
(** tf.scatter_nd with one index for each entry of the first axis, into a tensor whose first axis has length [n]
    (native.py 248). *)
Definition scatter_k (idx : list nat) (n : nat) : adder := fun d =>
  match d with
  | m :: q =>
    if (m =? length idx) && forallb (fun i => i <? n) idx
    then Ok (n :: q, fun ix => map (fun i => i :: tl ix) (filter (fun i => nth i idx 0 =? hd 0 ix) (seq 0 m)))
    else Err InvalidArgument
  | [] => Err InvalidArgument
  end.
(** The sum of words in the ring (native.py 474; tf_i128.reduce_sum, int128.py 492). *)
Definition sum_words (n : Z) (l : list Z) : Z := swrap n (fold_right Z.add 0%Z l).
(** What scatter_nd makes of words with the same index: 128-bit words are added limb by limb (int128.py 228-230), the others
    in the ring (native.py 248). *)
Definition scatter_words (n : Z) (l : list Z) : Z :=
  if (n =? 128)%Z
  then let limb i := swrap 64 (fold_right Z.add 0%Z (map (fun v => nth i (limbs v) 0%Z) l)) in
       (limb 1%nat * 2 ^ 64 + limb 0%nat mod 2 ^ 64)%Z
  else sum_words n l.
(** A kernel run on a tensor, [add] adding the words (native.py 248, 474). *)
Definition run (k : adder) (add : list Z -> Z) (t : raw) : res raw :=
  do (d, src) <- k (dims t);
  Ok (Raw d (map (fun e => add (map (fun jx => nth (ravel (dims t) jx) (data t) 0%Z) (src (unravel d e)))) (seq 0 (volume d)))).
(** The same on each of the six shares (aby3.py 4410-4416, 5756-5763). *)
Definition on_shares (k : adder) (add : list Z -> Z) (x : tens) : res tens :=
  let go (g : tens -> list Z) := run k add (Raw (tdims x) (g x)) in
  do a <- go t00; do b <- go t01; do c <- go t10; do d <- go t11; do e <- go t20; do h <- go t21;
  if forallb (fun s => same_shape (dims s) (dims a)) [b; c; d; e; h]
  then Ok (Tens (dims a) (tsc x) (tty x) (tfc x) (data a) (data b) (data c) (data d) (data e) (data h)) else Err AssertionError.
(** [_reduce_sum_private] (aby3.py 4406-4416): the share type is not looked at; single-bit tensors have no reduce_sum
    (boolfactory.py 61-300). *)
Definition reduce_sum (x : tens) (axis : option nat) (keepdims : bool) : res tens :=
  match tfc x with FB => Err AttributeError | FI n => on_shares (reduce_k axis keepdims) (sum_words n) x end.
(** [_scatter_nd_private] (aby3.py 5754-5763), likewise. *)
Definition scatter_nd (idx : list nat) (x : tens) (n : nat) : res tens :=
  match tfc x with FB => Err AttributeError | FI w => on_shares (scatter_k idx n) (scatter_words w) x end.
(** [_reduce_sum_public] (aby3.py 4388-4403): the same on the copies of the three servers. *)
Definition reduce_sum_public (x : ptens) (axis : option nat) (keepdims : bool) : res ptens :=
  match ufc x with
  | FB => Err AttributeError
  | FI n =>
    let go (g : ptens -> list Z) := run (reduce_k axis keepdims) (sum_words n) (Raw (udims x) (g x)) in
    do a <- go u0; do b <- go u1; do c <- go u2;
    if forallb (fun s => same_shape (dims s) (dims a)) [b; c]
    then Ok (PTens (dims a) (usc x) (ufc x) (data a) (data b) (data c)) else Err AssertionError
  end.
(** scatter_nd by a tensor of words with one column; negative indices are out of range (native.py 245-248). *)
Definition words_k (d : list nat) (idx : list Z) (n : nat) : adder := fun d' =>
  match d with
  | [_; 1] => if forallb (fun v => 0 <=? v)%Z idx then scatter_k (map Z.to_nat idx) n d' else Err InvalidArgument
  | _ => Err InvalidArgument
  end.
(** [_scatter_nd_public_private] (aby3.py 5766-5780): each server uses its own copy of the words of the indices, scaled or not.
    Only for indices and updates of the 64-bit factory (native.py 246-248); the other pairs are left out and count as errors. *)
Definition scatter_by (idx : ptens) (x : tens) (n : nat) : res tens :=
  match ufc idx, tfc x with
  | FI 64, FI 64 =>
    let go (g : tens -> list Z) (i : list Z) := run (words_k (udims idx) i n) (scatter_words 64) (Raw (tdims x) (g x)) in
    do a <- go t00 (u0 idx); do b <- go t01 (u0 idx); do c <- go t10 (u1 idx);
    do d <- go t11 (u1 idx); do e <- go t20 (u2 idx); do h <- go t21 (u2 idx);
    if forallb (fun s => same_shape (dims s) (dims a)) [b; c; d; e; h]
    then Ok (Tens (dims a) (tsc x) (tty x) (tfc x) (data a) (data b) (data c) (data d) (data e) (data h)) else Err AssertionError
  | _, _ => Err InvalidArgument
  end.
