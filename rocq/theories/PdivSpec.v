(** Vocabulary of the theorems about Pond's division, independent of the programs. *)
From Coq Require Import Reals.
From Verif Require Import Base Factory TensorModel PondModel PondSpec ChebSpec PdivModel.

(** [v] is [r] cut to an integer. *)
Definition toward_zero (r : R) (v : Z) : Prop :=
  ((0 <= r -> IZR v <= r < IZR v + 1) /\ (r <= 0 -> IZR v - 1 < r <= IZR v))%R.
(** [v] is cut from a floating-point result that is [a] up to a small relative error. *)
Definition computed (a : R) (v : Z) : Prop := exists r, (Rabs (r - a) <= / 2 ^ 40 * Rabs a)%R /\ toward_zero r v.
(** What is assumed of the casts with scaling factor [s]: correct for results that fit into 32 bits. *)
Definition casts_ok (s : Z) (fl : casts) : Prop :=
  (forall S y, S = 1%Z \/ S = s -> y <> 0%Z -> computed (IZR S / IZR y) (f_inv fl S y)) /\
  (forall v, v <> 0%Z -> (Rabs (IZR s * IZR s / IZR v) < 2 ^ 31)%R -> computed (IZR s * IZR s / IZR v) (f_rcp fl v)) /\
  (forall v, (0 <= v)%Z -> (sqrt (IZR s * IZR v) < 2 ^ 31)%R -> computed (sqrt (IZR s * IZR v)) (f_root fl v)).
(** One unit of the fixed-point scale. *)
Definition unit_of (p : precision) : R := worth p 1.
(** [z] is [x / y] up to one unit, one unit of [y]'s inverse and floating point. *)
Definition quotient (p : precision) (x y z : R) : Prop :=
  (Rabs (z - x / y) <= unit_of p * (1 + Rabs x) + / 2 ^ 40 * Rabs (x / y))%R.
(** The outcome of an attempt. *)
Definition division (p : precision) (n : nat) (a : attempt (ring p)) (P : nat -> R -> Prop) : Prop :=
  exists m, a = Went m /\ outcome p n m P.
