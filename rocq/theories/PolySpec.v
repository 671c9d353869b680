(** Vocabulary of the theorems about ABY3's polynomials, independent of the programs. *)
From Coq Require Import Reals QArith Qreals.
From Verif Require Import Base Aby3Model Aby3Spec Aby3NetModel FpLogSpec.

(** The polynomial of mathematics, coefficients from degree 0 on. *)
Definition value_at (cs : list Q) (x : R) : R := fold_right (fun c s => (Q2R c + x * s)%R) 0%R cs.
(** What the [i]-th power of a number of size at most [B] may be off by, [k] being the fractional bits. *)
Definition power_err (k : Z) (B : R) (i : nat) : R := ((B + ulp k) ^ i - B ^ i - ulp k)%R.
(** What a term of degree [i] may be off by, [d] being the error of encoding a coefficient; products with coefficients for
    which [exact] holds are not rounded. *)
Definition term_err (exact : Q -> bool) (d : R) (k : Z) (B : R) (i : nat) (c : Q) : R :=
  if Qeq_bool c 0 then 0%R
  else (Rabs (Q2R c) * power_err k B i + if exact c then 0 else d * (B + ulp k) ^ i + ulp k)%R.
(** The terms from degree [i] on. *)
Fixpoint terms_err (exact : Q -> bool) (d : R) (k : Z) (B : R) (i : nat) (cs : list Q) : R :=
  match cs with [] => 0%R | c :: cs' => (term_err exact d k B i c + terms_err exact d k B (S i) cs')%R end.
(** The whole numbers among the coefficients. *)
Definition whole (c : Q) : bool := Qeq_bool c (inject_Z (Qround.Qfloor c)).
(** The size the terms from degree [i] on may reach. *)
Fixpoint mass (d : R) (k : Z) (B : R) (i : nat) (cs : list Q) : R :=
  match cs with
  | [] => 0%R
  | c :: cs' => ((if Qeq_bool c 0 then 0 else (Rabs (Q2R c) + d + 1) * (B + ulp k) ^ i) + mass d k B (S i) cs')%R
  end.
(** Products of numbers with [k] fractional bits of this size fit words of [n] bits. *)
Definition roomy (n k : Z) (m : R) : Prop := (IZR (2 ^ k) * IZR (2 ^ k) * m <= IZR (2 ^ (n - 2)))%R.
(** Constants are encoded with an error of at most [d], 0 as 0. *)
Definition encodes (d : R) (k : Z) (encode : Q -> Z) (cs : list Q) : Prop :=
  (forall c, (c == 0)%Q -> encode c = 0%Z) /\ forall c, In c cs -> (Rabs (real_of k (encode c) - Q2R c) <= d)%R.
(** A public or private fixed-point number. *)
Definition holds (n : Z) (t : tens) (v : Z) : Prop :=
  match t with
  | TPub q => vz (q0 q) = v /\ vz (q1 q) = v /\ vz (q2 q) = v /\ qsc q = true
  | TPriv p => arith n p v /\ psc p = true
  end.
(** The size a whole polynomial may reach and what it may be off by. *)
Definition whole_mass (d : R) (k : Z) (B : R) (cs : list Q) : R :=
  match cs with [] => 0%R | c :: cs' => (Rabs (Q2R c) + d + mass d k B 1 cs')%R end.
Definition whole_err (exact : Q -> bool) (d : R) (k : Z) (B : R) (cs : list Q) : R :=
  match cs with [] => 0%R | c :: cs' => (d + terms_err exact d k B 1 cs')%R end.
