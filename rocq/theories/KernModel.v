(** The 128-bit ring on two 64-bit limbs and the bit-manipulation kernels:
    /repo/operations/tf_i128/{int128_tensor.h,int128_tensor.cc,int128_kernels.cc},
    /repo/operations/aux/aux_kernels.cc, /repo/tf_encrypted/operations/tf_i128/tf_i128.py
    and /repo/tf_encrypted/tensor/int128.py.

    Tensors are flat lists; broadcasting is done by Eigen and is not modelled.  C++ leaves
    overflow of the signed 128-bit type undefined; the model takes the two's complement
    result that the compilers produce. *)
From Coq Require Import ZArith List Lia Bool.
From Verif Require Import Base Factory.
Import ListNotations.
Local Open Scope Z_scope.

(** ** Limbs *)

(** One element: the last dimension of the int64 tensor, low limb first
    (int128_tensor.h 27 [N_LIMBS], int128.py 102-105 [native_size]). *)
Record limbs := Limbs { lo : Z; hi : Z }.
(** What an int64 tensor can hold. *)
Definition limbs_ok (x : limbs) : Prop := in_s 64 (lo x) /\ in_s 64 (hi x).
(** int128_tensor.cc 53-58: the two limbs read in place as one [i128_t] (little endian). *)
Definition view (x : limbs) : Z := hi x * 2 ^ 64 + uwrap 64 (lo x).
(** Writing an [i128_t] in place. *)
Definition store (v : Z) : limbs := Limbs (swrap 64 v) (swrap 64 (Z.shiftr v 64)).

(** ** Conversions *)

(** [int.to_bytes(n, "little")] (tf_i128.py 77). *)
Fixpoint to_bytes (n : nat) (v : Z) : list Z :=
  match n with O => [] | S n => v mod 256 :: to_bytes n (v / 256) end.
(** [np.frombuffer(..., dtype=np.int64)] on eight bytes (tf_i128.py 77). *)
Definition le_int64 (bs : list Z) : Z :=
  swrap 64 (fold_right (fun b acc => b + 256 * acc) 0 bs).
(** tf_i128.py 61-82 [encode], one entry. *)
Definition encode (z : Z) : limbs :=
  let bs := to_bytes 16 (Z.land z (2 ^ 128 - 1)) in
  Limbs (le_int64 (firstn 8 bs)) (le_int64 (skipn 8 bs)).
(** tf_i128.py 85-110 [decode], one entry, before the division by the scale. *)
Definition decode (x : limbs) : Z := uwrap 64 (lo x) + Z.shiftl (hi x) 64.

(** The float64 nearest to an integer, ties to even, for integers in the range of the type
    (the cast of tf_i128.py 156-168 [to_i128] and the C++ conversion of int128_tensor.cc 816). *)
Definition float64 (z : Z) : Z :=
  let e := Z.max 0 (Z.log2 (Z.abs z) - 52) in
  let q := Z.abs z / 2 ^ e in
  let r := Z.abs z mod 2 ^ e in
  let half := 2 ^ e / 2 in
  let up := if e =? 0 then 0 else if half <? r then 1 else if r =? half then q mod 2 else 0 in
  Z.sgn z * ((q + up) * 2 ^ e).
(** int128.py 63-64 and int128_tensor.cc 778-799 with scale 1: how an integer
    TensorFlow tensor becomes an element of the ring. *)
Definition from_tensor (z : Z) : limbs := store (swrap 128 (float64 z)).
(** int128.py 70-76, tf_i128.py 171-182 and int128_tensor.cc 801-818 with scale 1: [to_native]. *)
Definition to_native (x : limbs) : Z := float64 (view x).

(** ** Arithmetic kernels (int128_tensor.cc 190-277) *)

(** int128_tensor.cc 198-204. *)
Definition k_add (x y : limbs) : limbs := store (swrap 128 (view x + view y)).
(** int128_tensor.cc 206-212. *)
Definition k_sub (x y : limbs) : limbs := store (swrap 128 (view x - view y)).
(** int128_tensor.cc 190-196. *)
Definition k_mul (x y : limbs) : limbs := store (swrap 128 (view x * view y)).
(** int128_tensor.cc 260-265. *)
Definition k_neg (x : limbs) : limbs := store (swrap 128 (- view x)).
(** int128_tensor.cc 267-278. *)
Definition k_abs (x : limbs) : limbs := if view x <? 0 then k_neg x else x.
(** int128_tensor.cc 214-230. *)
Definition k_rshift (x : limbs) (step : Z) : limbs :=
  if step <=? 0 then x
  else if 128 <=? step then store (if view x <? 0 then -1 else 0)
  else store (Z.shiftr (view x) step).
(** int128_tensor.cc 232-244. *)
Definition k_lrshift (x : limbs) (step : Z) : limbs :=
  if step <=? 0 then x
  else if 128 <=? step then store 0
  else store (swrap 128 (Z.shiftr (uwrap 128 (view x)) step)).
(** int128_tensor.cc 246-258. *)
Definition k_lshift (x : limbs) (step : Z) : limbs :=
  if step <=? 0 then x
  else if 128 <=? step then store 0
  else store (swrap 128 (Z.shiftl (view x) step)).
(** int128_tensor.cc 641-653: the entries of one reduction group, added from zero. *)
Definition k_sum (xs : list limbs) : limbs := fold_left k_add xs (store 0).
(** int128_tensor.cc 568-580: one entry of the matrix product. *)
Definition k_dot (xs ys : list limbs) : limbs :=
  fold_left k_add (map (fun p => k_mul (fst p) (snd p)) (combine xs ys)) (store 0).

(** int128.py 529-558: the bitwise operators of TensorFlow on both limbs. *)
Definition k_and (x y : limbs) : limbs := Limbs (Z.land (lo x) (lo y)) (Z.land (hi x) (hi y)).
(** int128.py 529-532. *)
Definition k_or (x y : limbs) : limbs := Limbs (Z.lor (lo x) (lo y)) (Z.lor (hi x) (hi y)).
(** int128.py 537-540. *)
Definition k_xor (x y : limbs) : limbs := Limbs (Z.lxor (lo x) (lo y)) (Z.lxor (hi x) (hi y)).
(** int128.py 556-558. *)
Definition k_not (x : limbs) : limbs := Limbs (Z.lnot (lo x)) (Z.lnot (hi x)).
(** int128.py 174-180. *)
Definition k_one : limbs := Limbs 1 0.
(** int128.py 182-189. *)
Definition k_zero : limbs := Limbs 0 0.

(** Results that may stop the process: a failed [CHECK] aborts (int128_tensor.cc 556-557, 822). *)
Inductive stop (A : Type) := Value (a : A) | Abort.
Arguments Value {A} _.
Arguments Abort {A}.

(** Number of elements of a shape (int128_tensor.h 71-72 [numElements], [isScalar]). *)
Definition volume (s : list nat) : nat := fold_right Nat.mul 1%nat s.
(** Shape equality, as in the [CHECK_EQ] of int128_tensor.cc 556-557. *)
Definition same_shape (a b : list nat) : bool := if list_eq_dec Nat.eq_dec a b then true else false.
(** int128_kernels.cc 241-249 (the output shape) and int128_tensor.cc 544-566, 820-830 [equal]. *)
Definition k_equal (sx sy : list nat) (xs ys : list limbs) : stop (list bool) :=
  let out := if (length sy <? length sx)%nat then sx else sy in
  let eq a b := view a =? view b in
  let scalar s := Nat.eqb (volume s) 1 in
  if scalar sx && scalar sy then Value [eq (hd k_zero xs) (hd k_zero ys)]
  else if scalar sx then
    if same_shape out sy then Value (map (fun b => eq b (hd k_zero xs)) ys) else Abort
  else if scalar sy then
    if same_shape out sx then Value (map (fun a => eq a (hd k_zero ys)) xs) else Abort
  else if same_shape sx sy && same_shape out sx then Value (map (fun p => eq (fst p) (snd p)) (combine xs ys))
  else Abort.

(** ** Bit kernels *)

(** One swap stage of [u32_reverse] (int128_tensor.cc 285-295, aux_kernels.cc 116-126):
    [((v >> s) & mask) | ((v & mask) << s)] on 32-bit words. *)
Definition swap_stage (s mask v : Z) : Z :=
  Z.lor (Z.land (Z.shiftr v s) mask) (uwrap 32 (Z.shiftl (Z.land v mask) s)).
(** [u32_reverse]; the last stage needs no mask. *)
Definition u32_reverse (v : Z) : Z :=
  let v := swap_stage 1 0x55555555 v in
  let v := swap_stage 2 0x33333333 v in
  let v := swap_stage 4 0x0F0F0F0F v in
  let v := swap_stage 8 0x00FF00FF v in
  Z.lor (Z.shiftr v 16) (uwrap 32 (Z.shiftl v 16)).
(** The 32-bit word number [i] of a word (the code reinterprets the address of the word). *)
Definition raw32 (v : Z) (i : Z) : Z := uwrap 32 (Z.shiftr v (32 * i)).
(** Writing the 32-bit words back. *)
Definition unraw32 (ws : list Z) : Z := fold_right (fun x acc => x + 2 ^ 32 * acc) 0 ws.
(** aux_kernels.cc 128-137 on one int64. *)
Definition reverse64 (x : Z) : Z :=
  let v := uwrap 64 x in
  let r0 := u32_reverse (raw32 v 0) in
  let r1 := u32_reverse (raw32 v 1) in
  swrap 64 (unraw32 [r1; r0]).
(** int128_tensor.cc 297-306 on one 128-bit word. *)
Definition reverse128 (x : limbs) : limbs :=
  let v := uwrap 128 (view x) in
  let r0 := u32_reverse (raw32 v 0) in
  let r1 := u32_reverse (raw32 v 1) in
  let r2 := u32_reverse (raw32 v 2) in
  let r3 := u32_reverse (raw32 v 3) in
  store (swrap 128 (unraw32 [r3; r2; r1; r0])).

(** The loop [for (d = start, i = 0; d < bits; d += stride, i++)] of aux_kernels.cc 45-50 and
    83-89 and int128_kernels.cc 319-325; at most [bits] rounds because the stride is positive. *)
Fixpoint gather_loop (fuel : nat) (bits stride d i v ans : Z) : Z :=
  match fuel with
  | O => ans
  | S fuel =>
    if d <? bits then
      gather_loop fuel bits stride (d + stride) (i + 1) v
        (if Z.testbit v d then Z.lor ans (Z.shiftl 1 i) else ans)
    else ans
  end.
(** aux_kernels.cc 24-54 [BitGather] on a [w]-bit word. *)
Definition bit_gather (w start stride x : Z) : Z :=
  swrap w (gather_loop (Z.to_nat w) w stride start 0 (uwrap w x) 0).
(** aux_kernels.cc 56-105 [BitSplitAndGather]: one word per lane, the lanes in the new first
    dimension; the constructor rejects strides that do not divide the width (lines 61-63). *)
Definition bit_split_and_gather (w stride : Z) (xs : list Z) : option (list (list Z)) :=
  if w mod stride =? 0
  then Some (map (fun start => map (fun x => swrap w (gather_loop (Z.to_nat w) w stride (Z.of_nat start) 0 (uwrap w x) 0)) xs)
                 (seq 0 (Z.to_nat stride)))
  else None.
(** The loop of int128_tensor.cc 860-876: the word itself is shifted, and the loop stops when it is zero. *)
Fixpoint gather128_loop (fuel : nat) (stride d i v ans : Z) : Z :=
  match fuel with
  | O => ans
  | S fuel =>
    if (0 <? v) && (d <? 128) then
      gather128_loop fuel stride (d + stride) (i + 1) (Z.shiftr v stride)
        (if Z.odd v then Z.lor ans (Z.shiftl 1 i) else ans)
    else ans
  end.
(** int128_tensor.cc 860-876 [GatherBits]. *)
Definition bit_gather128 (start stride : Z) (x : limbs) : limbs :=
  store (swrap 128 (gather128_loop 128 stride start 0 (Z.shiftr (uwrap 128 (view x)) start) 0)).
(** int128_kernels.cc 291-340 [BitSplitAndGather]. *)
Definition bit_split_and_gather128 (stride : Z) (xs : list limbs) : option (list (list limbs)) :=
  if 128 mod stride =? 0
  then Some (map (fun start => map (fun x => store (swrap 128
                   (gather_loop 128 128 stride (Z.of_nat start) 0 (uwrap 128 (view x)) 0))) xs)
                 (seq 0 (Z.to_nat stride)))
  else None.

(** The loop of aux_kernels.cc 158-163 and int128_tensor.cc 883-888. *)
Fixpoint xor_loop (fuel : nat) (d v ans : Z) : Z :=
  match fuel with
  | O => ans
  | S fuel =>
    if 0 <? v then xor_loop fuel (d + 1) (Z.shiftr v 1) (if Z.odd v then Z.lxor ans d else ans)
    else ans
  end.
(** aux_kernels.cc 145-168 [XorIndices] on an int64. *)
Definition xor_indices64 (x : Z) : Z := swrap 64 (xor_loop 64 0 (uwrap 64 x) 0).
(** int128_tensor.cc 878-892. *)
Definition xor_indices128 (x : limbs) : limbs := store (swrap 128 (xor_loop 128 0 (uwrap 128 (view x)) 0)).

(** ** Methods of the 128-bit tensor *)

(** int128.py 514-524 [cast]: to booleans, and to a [w]-bit native ring (w <= 64). *)
Definition cast_bool (x : limbs) : bool := negb (lo x =? 0) || negb (hi x =? 0).
(** int128.py 523-524. *)
Definition cast_native (w : Z) (x : limbs) : Z := swrap w (lo x).
(** int128.py 499-504 [truncate]: other bases call the missing method [mod]. *)
Definition truncate (x : limbs) (amount base : Z) : option limbs :=
  if base =? 2 then Some (k_rshift x amount) else None.
(** shared.py 8-26 [binarize] on an int64: TensorFlow clamps shift amounts to 63. *)
Definition binarize64 (bitsize : nat) (x : Z) : list Z :=
  map (fun i => Z.land (Z.shiftr x (Z.min (Z.of_nat i) 63)) 1) (seq 0 bitsize).
(** int128.py 289-299 [bits]: a vector of bits, or a vector of pairs when more than 64 are asked for. *)
Definition bits (bitsize : nat) (x : limbs) : list Z + list (Z * Z) :=
  if (bitsize <=? 64)%nat then inl (binarize64 bitsize (lo x))
  else inr (combine (binarize64 bitsize (lo x)) (binarize64 bitsize (hi x))).

(** int128.py 245-259 [_lift_axis]; [None] is the failed assertion. *)
Definition lift_axis (axis dims : Z) : option Z :=
  if axis =? -1 then Some (dims - 1) else if axis <? dims then Some axis else None.
(** How TensorFlow reads the axis given by int128.py 163, 170, 455, 459, 508 on a tensor of the
    given rank; [None] is an error. *)
Definition tf_axis (axis rank : Z) : option Z :=
  if (- rank <=? axis) && (axis <? rank) then Some (if axis <? 0 then axis + rank else axis) else None.
(** int128.py 450-460 [gather], [split], 167-172 [concat]: the axis of the limb tensor that is acted on
    (rank [dims + 1]). *)
Definition acts_on (axis dims : Z) : option Z :=
  match lift_axis axis dims with Some a => tf_axis a (dims + 1) | None => None end.
(** int128.py 160-165 [stack]: where the new axis goes (the result has rank [dims + 2]). *)
Definition stacks_at (axis dims : Z) : option Z :=
  match lift_axis axis dims with Some a => tf_axis a (dims + 2) | None => None end.
(** int128.py 506-508 [expand_dims]. *)
Definition expands_at (axis dims : Z) : option Z :=
  match lift_axis axis (dims + 1) with Some a => tf_axis a (dims + 2) | None => None end.

(** The 128-bit ring as the protocols see it (int128.py 28-260, 349-362, 486-488). *)
Definition int128 : factory :=
  MkFactory limbs (2 ^ 128) limbs_ok (fun x => uwrap 128 (view x)) encode k_add k_sub k_mul k_neg.
