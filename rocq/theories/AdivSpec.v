(** Vocabulary of the theorems about ABY3's public division and roots, independent of the programs. *)
From Coq Require Import Reals.
From Verif Require Import Base AdivModel.
From Verif Require PdivSpec.

(** What is assumed of the casts with [k] fractional bits: correct up to a relative error of 2^-40 where the results fit words. *)
Definition casts_ok (k : Z) (fl : casts) : Prop :=
  let s := IZR (2 ^ k) in
  (forall v, v <> 0%Z -> (Rabs (s * s / IZR v) < 2 ^ 62)%R -> PdivSpec.computed (s * s / IZR v) (c_rcp fl v)) /\
  (forall v, (0 <= v)%Z -> (sqrt (s * IZR v) < 2 ^ 62)%R -> PdivSpec.computed (sqrt (s * IZR v)) (c_root fl v)) /\
  (forall v, v <> 0%Z -> (Rabs (s / IZR v) < 2 ^ 62)%R -> PdivSpec.computed (s / IZR v) (c_inv fl v)).
(** The floating-point error. *)
Definition tiny : R := (/ 2 ^ 40)%R.
