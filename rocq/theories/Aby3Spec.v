(** Vocabulary used to state the ABY3 theorems, independent of how the operations are coded:
    what it means for six values on three machines to be a replicated sharing of a number. *)
From Verif Require Import Base TensorModel Aby3Model.

(** Values of a factory: one bit, or an [n]-bit two's complement word. *)
Definition word (f : fac) (v : Z) : Prop :=
  match f with FB => v = 0 \/ v = 1 | FI n => - 2 ^ (n - 1) <= v < 2 ^ (n - 1) end.

(** Server 0 holds p00 and p01, server 1 p10 and p11, server 2 p20 and p21. *)
Definition placed (x : priv) : Prop :=
  vd (p00 x) = S0 /\ vd (p01 x) = S0 /\ vd (p10 x) = S1 /\ vd (p11 x) = S1 /\ vd (p20 x) = S2 /\ vd (p21 x) = S2.
(** Each of the three shares is held by two neighbouring servers. *)
Definition replicated (x : priv) : Prop :=
  vz (p01 x) = vz (p10 x) /\ vz (p11 x) = vz (p20 x) /\ vz (p21 x) = vz (p00 x).

(** The shares of [x] are an arithmetic sharing, over [n]-bit words, of the word [v]. *)
Definition arith_vals (n : Z) (x : priv) (v : Z) : Prop :=
  pty x = Arith /\ pfc x = FI n /\ replicated x /\
  word (FI n) (vz (p00 x)) /\ word (FI n) (vz (p10 x)) /\ word (FI n) (vz (p20 x)) /\ word (FI n) v /\
  (vz (p00 x) + vz (p10 x) + vz (p20 x)) mod 2 ^ n = v mod 2 ^ n.
(** The shares of [x] are a boolean sharing, over values of [f], of [v]. *)
Definition bool_vals (f : fac) (x : priv) (v : Z) : Prop :=
  pty x = Bool_ /\ pfc x = f /\ replicated x /\
  word f (vz (p00 x)) /\ word f (vz (p10 x)) /\ word f (vz (p20 x)) /\
  Z.lxor (Z.lxor (vz (p00 x)) (vz (p10 x))) (vz (p20 x)) = v.
(** The same with every share on the server that owns it. *)
Definition arith (n : Z) (x : priv) (v : Z) : Prop := placed x /\ arith_vals n x v.
Definition boolean (f : fac) (x : priv) (v : Z) : Prop := placed x /\ bool_vals f x v.
(** [x] is the public value [v] known to the three servers. *)
Definition public (f : fac) (x : pub) (v : Z) : Prop :=
  q0 x = MkV S0 v /\ q1 x = MkV S1 v /\ q2 x = MkV S2 v /\ qfc x = f /\ word f v.

(** From every state the program returns a result satisfying [P]. *)
Definition yields {A} (m : state -> state * list ev * res A) (P : A -> Prop) : Prop :=
  forall s, exists a, snd (m s) = Ok a /\ P a.
(** From every state the program raises [e]. *)
Definition raises {A} (m : state -> state * list ev * res A) (e : exn) : Prop :=
  forall s, snd (m s) = Err e.

(** A factory with at least one value. *)
Definition fok (f : fac) : Prop := match f with FB => True | FI n => 0 < n end.
(** Pseudo-random words are words. *)
Definition prf_words (prf : fac -> key -> Z -> nat -> Z) : Prop :=
  forall f k n l, fok f -> word f (prf f k n l).

(** The [n]-bit word congruent to [v]. *)
Definition wrapped (n v r : Z) : Prop := word (FI n) r /\ r mod 2 ^ n = v mod 2 ^ n.
