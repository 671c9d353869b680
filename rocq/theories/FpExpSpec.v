(** Vocabulary of the theorems about ABY3's exponentials, independent of the programs. *)
From Coq Require Import Reals.
From Verif Require Import Base FpLogSpec FpExpModel.

(** Word size [n] and [k] fractional bits: the two factories with an adder, at least 11 fractional bits, and room for products
    of three scaled values. *)
Definition exp_config (n k : Z) : Prop := (n = 64 \/ n = 128) /\ 11 <= k /\ 3 * k + 1 < n - 2.
(** The published coefficients of 2 to the power of x on [0, 1], after the first one. *)
Definition published : list R :=
  [0.69314; 0.24022; 0.055504; 0.0096183; 0.0013327; 0.0001551; 0.000014197; 0.0000018633]%R.
(** The encoded coefficients of the program. *)
Definition excoeffs_for (k : Z) (cs : list Z) : Prop := Forall2 (encodes k) cs published.
(** The caller's promise about the sign of the raw value [v]. *)
Definition sign_fits (s : esign) (v : Z) : Prop := match s with EPos => 0 <= v | ENeg => v < 0 | EAny => True end.
(** 2 to the power of [x], for a real [x]. *)
Definition pow2 (x : R) : R := Rpower 2 x.
(** Relative error of the polynomial that is evaluated with [k] fractional bits. *)
Definition pade_error (k : Z) : R :=
  (if k <? 13 then 0.00152 else if k <? 17 then 0.000184 else if k <? 20 then 0.000029 else 0.000014)%R.
(** [y] is [p] up to the relative error of the polynomial, [c] units of the scale times [p], and one unit. *)
Definition exp_within (k : Z) (c p y : R) : Prop := (Rabs (y - p) <= (pade_error k + c * ulp k) * p + ulp k)%R.
(** Arguments whose exponential to base 2 is computed: below 32, and not below -32 unless there are at most 32 fractional bits. *)
Definition exp2_domain (k v : Z) : Prop := v < 32 * 2 ^ k /\ (k <= 32 \/ - 32 * 2 ^ k <= v).
(** Arguments whose exponential is computed: at most 22, and not below -22 unless there are at most 32 fractional bits; then the
    lower bound is 1 less than half of the scale. *)
Definition exp_domain (k v : Z) : Prop := v <= 22 * 2 ^ k /\ (- 22 * 2 ^ k <= v \/ k <= 32 /\ - (2 ^ (k - 1) - 1) * 2 ^ k <= v).
(** [y] is the exponential of [x]: the error of [exp_within], and that of the multiplication of [x] by log2 e. *)
Definition natural_within (k : Z) (x y : R) : Prop :=
  let d := ((Rabs x + 1) * ulp k)%R in
  (Rabs (y - exp x) <= ((pade_error k + 16 * ulp k) * (1 + d) + d) * exp x + ulp k)%R.
