(** Vocabulary of the theorems about ABY3's logarithms, independent of the programs. *)
From Coq Require Import Reals.
From Verif Require Import Base FpLogModel.

(** The raw value [c] encodes the real number [r] with [k] fractional bits, to one unit. *)
Definition encodes (k c : Z) (r : R) : Prop := (Rabs (IZR c - r * IZR (2 ^ k)) <= 1)%R.
(** The numbers of the program for logarithms to base [b]: the published coefficients times 1 / log2 b, which is absent for
    base 2. *)
Definition coeffs_for (k : Z) (b : R) (c : coeffs) : Prop :=
  let a := (ln 2 / ln b)%R in
  encodes k (co2 c) (-0.4326728 * a) /\ encodes k (co1 c) (2.276597 * a) /\ encodes k (co0 c) (-1.843924 * a) /\
  match coadj c with None => b = 2%R | Some w => encodes k w a end.
(** The real number that a raw value stands for. *)
Definition real_of (k v : Z) : R := (IZR v / IZR (2 ^ k))%R.
(** The logarithm to base [b]. *)
Definition log_to (b x : R) : R := (ln x / ln b)%R.
(** One unit of the fixed-point scale. *)
Definition ulp (k : Z) : R := (/ IZR (2 ^ k))%R.
