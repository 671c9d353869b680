(** Model of division, reciprocal and square root in Pond, /repo/tf_encrypted/protocol/pond/pond.py 1028-1064, 2995-3033,
    4109-4146.  The floating-point arithmetic is a parameter: the integers that the casts return. *)
From Coq Require Import QArith.
From Verif Require Import Base Factory TensorModel CrtModel PondModel ChebModel.
Local Open Scope Z_scope.
Notation "'do' x <- m ; k" := (bind m (fun x => k)) (at level 200, x name, m at level 100, k at level 200).

(** The casts to integers: [f_inv scale y] is [(1.0 / float(y)) * scale] (pond.py 1044-1045, 741-746; without the factor when the
    scale is 1), [f_rcp] and [f_root] are the reciprocal and the root of a decoded value, encoded again (pond.py 3006-3015,
    4121-4130). *)
Record casts := MkCasts { f_inv : Z -> Z -> Z; f_rcp : Z -> Z; f_root : Z -> Z }.
(** What [div] accepts as a divisor (pond.py 1042-1050): Python floats and integers, tensors, anything else. *)
Inductive divisor (F : factory) := DFloat (q : Q) | DInt (y : Z) | DTensor (t : ptensor F) | DOther.
Arguments DFloat {F} _. Arguments DInt {F} _. Arguments DTensor {F} _. Arguments DOther {F}.
(** Python's [1.0 / y] raises ZeroDivisionError before the protocol is involved (pond.py 1043, 1045). *)
Inductive attempt (F : factory) := ZeroDivisionError | Went (m : M F (ptensor F)).
Arguments ZeroDivisionError {F}. Arguments Went {F} _.

Section Pdiv.
Context (F : factory) (X : fixops F) (c : fpconfig) (fl : casts).

(** The signed integer of a ring element (pond.py 781-796 [_decode] before the division; simplified: the conversion of int100 is
    exact only up to the bound of single precision, see CrtProps). *)
Definition centred (e : felt F) : Z := if 2 * fval F e <? fmod F then fval F e else fval F e - fmod F.
(** Decode, apply, encode on both servers (pond.py 3006-3030, 4119-4143). *)
Definition public_local (f : Z -> Z) (t : ptensor F) : M F (ptensor F) :=
  match t with
  | Pub v0 v1 true =>
    let g := map (fun e : felt F => fof F (f (centred e))) in
    do y0 <- op1 Srv0 g v0; do y1 <- op1 Srv1 g v1; mk_pub y0 y1 true
  | Pub _ _ false => raise AssertionError
  | _ => raise TypeError
  end.
(** pond.py 1028-1029 [reciprocal], 2995-3033 [_reciprocal_public]; dispatch raises for other tensors (1464-1468). *)
Definition reciprocal (t : ptensor F) : M F (ptensor F) := public_local (f_rcp fl) t.
(** pond.py 1054-1063 [sqrt], 4109-4146 [_sqrt_public]. *)
Definition sqrt_ (t : ptensor F) : M F (ptensor F) := public_local (f_root fl) t.

(** pond.py 1031-1052 [div].  The branch for floats is an [if] of its own, so that a float falls through to the last [else]. *)
Definition div (r : mulrnd F) (x : ptensor F) (y : divisor F) : attempt F :=
  match y with
  | DFloat q => if Qeq_bool q (0 # 1) then ZeroDivisionError else Went (raise TypeError)
  | DInt y =>
    if y =? 0 then ZeroDivisionError
    else
      let v := vconst F (entries F x) (f_inv fl (if scaled x then scaling_factor c else 1) y) in
      Went (do k0 <- fresh Srv0 v; do k1 <- fresh Srv1 v; do k <- mk_pub k0 k1 (scaled x); mul F BMul X c r x k)
  | DTensor t =>
    Went (match t with Pub _ _ _ => do k <- reciprocal t; mul F BMul X c r x k | _ => raise TypeError end)
  | DOther => Went (raise TypeError)
  end.
End Pdiv.
