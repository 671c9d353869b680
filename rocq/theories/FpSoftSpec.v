(** Vocabulary of the theorems about ABY3's softmax, independent of the programs. *)
From Coq Require Import Reals.
From Verif Require Import Base FpLogSpec FpExpSpec.

(** The entry of the softmax of [xs] for the logit [x]. *)
Definition total (xs : list R) : R := fold_right Rplus 0%R (map exp xs).
Definition soft (xs : list R) (x : R) : R := (exp x / total xs)%R.
(** Rows of raw logits: at most 32 fractional bits; below a quarter of the word, as comparisons need; differences below half of
    the scale; and a length that leaves room for the sum, the reciprocal of which is taken with [m] bits. *)
Definition soft_domain (n k m : Z) (vs : list Z) : Prop :=
  k <= 32 /\ (forall v, In v vs -> - 2 ^ (n - 2) < v < 2 ^ (n - 2)) /\
  (forall v w, In v vs -> In w vs -> v - w < (2 ^ (k - 1) - 1) * 2 ^ k) /\
  11 * Z.of_nat (length vs) <= 10 * 2 ^ (m - 1 - k).
(** [y] is [p] up to 2.2 times the error of the exponential, 1e-5, and 45 + 4 l units for rows of [l] entries. *)
Definition soft_within (k : Z) (l : nat) (p y : R) : Prop :=
  (Rabs (y - p) <= 2.2 * pade_error k + 0.00001 + (45 + 4 * INR l) * ulp k)%R.
