(** Model of tf_encrypted/tensor/helpers.py, fixed.py, native.py, shared.py
    (binarize) and of the encode/decode functions of the protocols. *)
From Coq Require Import QArith.
From Verif Require Import Base Factory.
Local Open Scope Z_scope.

(* ------------------------------------------------------------------ *)
(** * helpers.py *)

(** helpers.py 7-11, [egcd].  Python's recursion is modelled with explicit fuel
    ([None] = out of fuel, proved impossible for the fuel used by [inverse]).
    Python's [%] and [//] are floor modulo/division, i.e. [Z.modulo]/[Z.div]
    (the divisor [a] is non-zero at that point). *)
Fixpoint egcd (fuel : nat) (a b : Z) : option (Z * Z * Z) :=
  match fuel with
  | O => None
  | S fuel' =>
      if a =? 0 then Some (b, 0, 1)
      else match egcd fuel' (b mod a) a with
           | Some (g, y, x) => Some (g, x - (b / a) * y, y)
           | None => None
           end
  end.

(** Number of recursive calls allowed; helpers.py has no bound (Python's recursion
    limit is not modelled). *)
Definition egcd_fuel (a : Z) : nat := S (2 * Z.to_nat (Z.log2_up (a + 1))).

(** helpers.py 14-16, [gcd]. *)
Definition py_gcd (a b : Z) : option Z :=
  match egcd (egcd_fuel a) a b with Some (g, _, _) => Some g | None => None end.

(** helpers.py 19-22, [inverse]; [None] models the failing [assert g == 1]. *)
Definition inverse (a m : Z) : option Z :=
  match egcd (egcd_fuel a) a m with
  | Some (g, b, _) => if g =? 1 then Some (b mod m) else None
  | None => None
  end.

(* ------------------------------------------------------------------ *)
(** * fixed.py and encode/decode *)

(** fixed.py 12-34, [FixedpointConfig.__init__]. *)
Record fpconfig := MkFp {
  scaling_base : Z; nbits : Z; precision_integral : Z; precision_fractional : Z;
  matmul_threshold : Z; truncation_gap : Z; use_noninteractive : bool }.

(** fixed.py 36-39. *)
Definition bound_single c := scaling_base c ^ (precision_integral c + precision_fractional c).
(** fixed.py 41-44. *)
Definition bound_double c := scaling_base c ^ (precision_integral c + 2 * precision_fractional c).
(** fixed.py 46-48. *)
Definition bound_intermediate c := bound_double c * matmul_threshold c.
(** fixed.py 50-52. *)
Definition scaling_factor c := scaling_base c ^ precision_fractional c.

(** fixed.py 55-63. *)
Definition fixed100 := MkFp 2 100 14 16 1024 40 false.
(** fixed.py 65-73. *)
Definition fixed100_ni := MkFp 2 100 14 16 1024 20 true.
(** fixed.py 77-85. *)
Definition fixed64 := MkFp 3 64 7 8 256 20 false.
(** fixed.py 87-95. *)
Definition fixed64_ni := MkFp 2 64 10 13 256 20 true.
(** fixed.py 97-105. *)
Definition fixed64_heuristic := MkFp 2 64 11 16 256 0 false.
(** fixed.py 107-115. *)
Definition fixed128_heuristic := MkFp 2 128 20 32 256 0 false.

(** pond.py 724-778 and aby3.py 793-830, [_encode] with [apply_scaling=True] followed
    by the integer cast: multiply by the scaling factor and truncate toward zero
    (NumPy/TF float to int casts truncate).  Simplified: the input and the product
    are exact rationals instead of float64. *)
Definition encode (s : Z) (q : Q) : Z := Z.quot (Qnum q * s) (Zpos (Qden q)).

(** aby3.py 832-840 [_decode]: signed value divided by the scaling factor.
    Simplified: exact rational division. *)
Definition decode (s : Z) (z : Z) : Q := (inject_Z z / inject_Z s)%Q.

(** pond.py 781-796 [_decode] on a native [w]-bit tensor: add the single-precision
    bound in the ring, read back, subtract the bound (the result is a native int64
    tensor, hence the second wrap), divide. *)
Definition pond_decode_raw (w bound z : Z) : Z := swrap w (swrap w (z + bound) - bound).

(* ------------------------------------------------------------------ *)
(** * native.py *)

(** native.py 30-33: a native factory is a word size and an optional explicit modulus. *)
Record ncfg := MkN { nw : Z; nmodulus : option Z }.

(** native.py 91-95 [modulus]. *)
Definition n_modulus (c : ncfg) : Z :=
  match nmodulus c with Some p => p | None => 2 ^ nw c end.

(** native.py 345-347 and siblings: the word-sized result, reduced by the explicit
    modulus when there is one ([%] is floor modulo on TF integers). *)
Definition n_norm (c : ncfg) (z : Z) : Z :=
  match nmodulus c with Some p => (swrap (nw c) z) mod p | None => swrap (nw c) z end.

(** native.py 342-347 [add] (one element). *)
Definition n_add c x y := n_norm c (x + y).
(** native.py 349-354 [sub]. *)
Definition n_sub c x y := n_norm c (x - y).
(** native.py 356-361 [mul]. *)
Definition n_mul c x y := n_norm c (x * y).
(** native.py 467-471 [negative]. *)
Definition n_neg c x := n_norm c (- x).
(** native.py 254-268 [_lift] of a Python int followed by [_encode] 59-62: the integer is
    cast to the native type (wraps); it is not reduced by the explicit modulus. *)
Definition n_lift c (k : Z) := swrap (nw c) k.
(** native.py 305-307 [__sub__] with an int on the right. *)
Definition n_sub_int c x k := n_sub c x (n_lift c k).
(** native.py 309-311 [__rsub__]: [x, y = _lift(self, other); return y.sub(x)]. *)
Definition n_rsub c x k := n_sub c (n_lift c k) x.

(** native.py 473-477 [reduce_sum] along one axis of any length: word-sized
    accumulation (TF may use any association; all give the same word), then one
    reduction by the explicit modulus. *)
Definition n_reduce_sum c (l : list Z) : Z :=
  let s := fold_left (fun acc x => swrap (nw c) (acc + x)) l 0 in
  match nmodulus c with Some p => s mod p | None => s end.

(** tf.cumsum on one axis, inclusive, word-sized accumulation (used at native.py 480). *)
Fixpoint scan_from (w acc : Z) (l : list Z) : list Z :=
  match l with
  | [] => []
  | x :: l' => let a := swrap w (acc + x) in a :: scan_from w a l'
  end.
(** tf.cumsum exclusive variant (native.py 479-485). *)
Fixpoint scan_ex_from (w acc : Z) (l : list Z) : list Z :=
  match l with
  | [] => []
  | x :: l' => acc :: scan_ex_from w (swrap w (acc + x)) l'
  end.
(** native.py 479-485 [cumsum(axis, exclusive, reverse)] on one axis. *)
Definition n_cumsum c (exclusive reverse : bool) (l : list Z) : list Z :=
  let l1 := if reverse then rev l else l in
  let s := if exclusive then scan_ex_from (nw c) 0 l1 else scan_from (nw c) 0 l1 in
  let s1 := if reverse then rev s else s in
  map (fun v => match nmodulus c with Some p => v mod p | None => v end) s1.

(** One entry of tf.matmul (native.py 363-368): word-sized products accumulated in
    word size, one reduction by the explicit modulus at the end.  conv2d
    (native.py 418-423, shared.py conv2d) is a matmul of image patches, so its
    entries have the same form. *)
Definition n_dot c (xs ys : list Z) : Z :=
  let s := fold_left (fun acc p => swrap (nw c) (acc + swrap (nw c) (fst p * snd p)))
             (combine xs ys) 0 in
  match nmodulus c with Some p => s mod p | None => s end.

(** Column [j] of a matrix given by rows (auxiliary for matmul, native.py 363-368). *)
Definition col (j : nat) (m : list (list Z)) : list Z := map (fun r => nth j r 0) m.
(** native.py 363-368 [matmul]: entry (i,j) is the product of row i and column j;
    [n] is the number of columns of the right operand. *)
Definition n_matmul c (n : nat) (a b : list (list Z)) : list (list Z) :=
  map (fun r => map (fun j => n_dot c r (col j b)) (seq 0 n)) a.

(** native.py 433-437 [mod]. *)
Definition n_mod c x k := match nmodulus c with Some p => (x mod k) mod p | None => x mod k end.
(** native.py 511-512 [right_shift]: arithmetic shift of a signed word. *)
Definition n_rshift (x k : Z) := Z.shiftr x k.
(** native.py 557-558 [left_shift]. *)
Definition n_lshift w x k := swrap w (Z.shiftl x k).
(** native.py 504-509 [truncate]; [None] when [inverse] raises. *)
Definition n_truncate c (x amount base : Z) : option Z :=
  if base =? 2 then Some (n_rshift x amount)
  else
    let factor := base ^ amount in
    match inverse factor (n_modulus c) with
    | Some finv => Some (n_mul c (n_sub c x (n_mod c x factor)) (n_lift c finv))
    | None => None
    end.
(** native.py 567-588 [logical_rshift]; [None] models ValueError for negative steps. *)
Definition n_logical_rshift w x k : option Z :=
  if k <? 0 then None
  else if k =? 0 then Some x
  else Some (Z.land (Z.shiftr x k) (Z.lnot (Z.shiftl (-1) (w - k)))).
(** native.py 526-552: bitwise operators on signed words. *)
Definition n_and x y := Z.land x y.
(** native.py 526-529. *)
Definition n_or x y := Z.lor x y.
(** native.py 534-537. *)
Definition n_xor x y := Z.lxor x y.
(** native.py 550-552. *)
Definition n_not x := Z.lnot x.

(** shared.py 8-26 [binarize]: entry i is [(x >> i) & 1]. *)
Definition binarize (bitsize : nat) (x : Z) : list Z :=
  map (fun i => Z.land (Z.shiftr x (Z.of_nat i)) 1) (seq 0 bitsize).
(** native.py 284-290 [bits]; with an explicit modulus the value is reduced first. *)
Definition n_bits c (bitsize : nat) (x : Z) : list Z :=
  match nmodulus c with
  | Some p => binarize bitsize (x mod p)
  | None => binarize bitsize x
  end.

(** native.py 216-219 [ones] (one entry). *)
Definition n_ones : Z := 1.
(** native.py 221-224 [zeros] (one entry): the code calls [tf.ones]. *)
Definition n_zeros : Z := 1.
(** native.py 491-495 [equal_zero] (one entry, as 0/1). *)
Definition n_equal_zero (x : Z) : Z := if x =? 0 then 1 else 0.
(** native.py 497-502 [equal]. *)
Definition n_equal (x y : Z) : Z := if x =? y then 1 else 0.

(** native.py 78-89: [min] and [max] of the factory, the default sampling bounds. *)
Definition n_min c := match nmodulus c with Some _ => 0 | None => - 2 ^ (nw c - 1) end.
(** native.py 84-89. *)
Definition n_max c := match nmodulus c with Some p => p | None => 2 ^ (nw c - 1) - 1 end.

(** Representations a native factory can hold (native.py 252-282). *)
Definition n_wf c x :=
  match nmodulus c with Some p => 0 <= x < p | None => in_s (nw c) x end.

(** The native factory as a ring (native.py 30-627). [fof] is [factory.tensor] of an integer
    that is already in the native range; for the explicit modulus we include the
    reduction that every arithmetic operation performs. *)
Definition native (c : ncfg) : factory :=
  MkFactory Z (n_modulus c) (n_wf c) (fun x => x mod n_modulus c)
    (fun z => match nmodulus c with Some p => z mod p | None => swrap (nw c) z end)
    (n_add c) (n_sub c) (n_mul c) (n_neg c).
