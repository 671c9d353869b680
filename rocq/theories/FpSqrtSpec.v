(** Vocabulary of the theorems about ABY3's inverse square root, independent of the programs. *)
From Coq Require Import Reals.
From Verif Require Import Base FpLogSpec FpSqrtModel.

(** Word size [n] and [k] fractional bits: the two factories with an adder, the assertion the code makes, and room for products
    of three scaled values. *)
Definition sqrt_config (n k : Z) : Prop := (n = 64 \/ n = 128) /\ n <= 4 * k /\ 3 * k + 1 < n - 2.
(** The numbers of the program; [esk] is 2 to the power of half of [k - s], for [s = n / 2 - k]. *)
Definition sqcoeffs_for (n k : Z) (c : sqcoeffs) : Prop :=
  let esk := IZR (2 ^ ((2 * k - n / 2) / 2)) in
  encodes k (sq2 c) 4.7979 /\ encodes k (sq1 c) 5.9417 /\ encodes k (sq0 c) 3.1855 /\
  encodes k (sqd c) (esk - esk * sqrt 2) /\ encodes k (sqy c) (esk * sqrt 2).
(** [y] is 1 / sqrt [x] up to the relative error [e], nine units of the scale and four units of the result. *)
Definition inv_sqrt_within (k : Z) (e x y : R) : Prop := (Rabs (y * sqrt x - 1) <= e + 9 * ulp k + 4 * ulp k * sqrt x)%R.
