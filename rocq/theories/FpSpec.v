(** Vocabulary of the theorems about ABY3's fixed-point reciprocal, independent of the programs. *)
From Verif Require Import Base.

(** Word size [n], [k] fractional bits, [m] fractional and integral bits: the two factories with an
    adder, the assertion the code makes, and room for products of three scaled values. *)
Definition fp_config (n k m : Z) : Prop := (n = 64 \/ n = 128) /\ 0 < k < m /\ m < 2 * k /\ 3 * k + 1 < n - 2.
(** Arguments with [m] bits below the sign; those declared non-negative are so. *)
Definition ranged (m : Z) (nonsigned : bool) (v : Z) : Prop := if nonsigned then 0 <= v <= 2 ^ m else - 2 ^ m <= v < 2 ^ m.

(** [g] / [E] is a normalised form of the raw value [v]: [E] is, up to the sign of [v], the power of
    two that brings [v] between 0.5 and 1, and [g] is the scaled value, to one unit. *)
Definition normal_form (k v g E : Z) : Prop :=
  exists j, 0 <= j /\ 2 ^ j <= Z.abs v < 2 ^ (j + 1) /\ E = Z.sgn v * 2 ^ (2 * k - 1 - j) /\
    Z.abs (g * 2 ^ k - E * v) <= 2 ^ k /\ 2 ^ (k - 1) <= g <= 2 ^ k.

(** [r] is the reciprocal of the raw value [v] up to the relative error 7e-6, three units of the
    scale and two units of the result: |r v - 1| <= 7e-6 + 3 u + 2 |v| u in real numbers, u = 2^-k. *)
Definition recip_error (k v : Z) : Z := 7 * (2 ^ k * 2 ^ k) + 1000000 * (3 * 2 ^ k + 2 * Z.abs v).
Definition recip_within (k v r : Z) : Prop := 1000000 * Z.abs (r * v - 2 ^ k * 2 ^ k) <= recip_error k v.
(** [q] is the quotient [u] / [v] with that relative error and one more unit of the result. *)
Definition quotient_within (k u v q : Z) : Prop :=
  1000000 * 2 ^ k * Z.abs (q * v - u * 2 ^ k) <= Z.abs u * recip_error k v + 1000000 * 2 ^ k * Z.abs v.
