(** Vocabulary of the theorems about ABY3's sigmoid, independent of the programs. *)
From Coq Require Import Reals QArith Qreals.
From Verif Require Import Base SigModel.

(** The sigmoid of mathematics. *)
Definition sigma (x : R) : R := (1 / (1 + exp (- x)))%R.
(** The encoding of constants between 0 and 1 with [k] fractional bits through single precision: one unit and one rounding of
    the 24-bit significand; 0 and 1/2 are exact. *)
Definition encoder (k : Z) (encode : Q -> Z) : Prop :=
  encode (0 # 1)%Q = 0%Z /\ (forall h, (h == 1 # 2)%Q -> encode h = (2 ^ (k - 1))%Z) /\
  forall q, (0 <= q <= 1)%Q -> (0 <= encode q)%Z /\ (Rabs (IZR (encode q) - Q2R q * IZR (2 ^ k)) <= 1 + IZR (2 ^ k) / 2 ^ 24)%R.
(** The distance to the sigmoid, apart from rounding. *)
Definition worst (a : approx) : R := match a with Three => 0.077 | Five => 0.042 | Unknown => 0 end%R.
(** An encoder of this kind: cut what is below the last bit. *)
Definition cut (k : Z) (q : Q) : Z := (Qnum q * 2 ^ k / Zpos (Qden q))%Z.
