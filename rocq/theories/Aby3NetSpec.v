(** Vocabulary for the ABY3 operations over many entries. *)
From Verif Require Import Base Aby3Model Aby3Spec Aby3NetModel.

(** [xs] is the list of shared words [vs], all with the scaling flag [sc]. *)
Definition shares (n : Z) (sc : bool) (xs : list priv) (vs : list Z) : Prop :=
  Forall2 (fun x v => arith n x v /\ psc x = sc) xs vs.
(** Any two of the values have a difference that fits a word, so that comparisons are exact. *)
Definition close (n : Z) (vs : list Z) : Prop := forall u v, In u vs -> In v vs -> in_s n (v - u).
(** [m] is the greatest of the values. *)
Definition is_max (vs : list Z) (m : Z) : Prop := In m vs /\ forall v, In v vs -> v <= m.
(** The product of a list of integers. *)
Definition zprod (l : list Z) : Z := fold_right Z.mul 1 l.
(** The value at [u] of the polynomial with these coefficients, the constant term first. *)
Definition peval (cs : list Z) (u : Z) : Z := fold_right (fun c acc => c + u * acc) 0 cs.
(** A public or private word, or bit. *)
Definition tens_arith (n : Z) (sc : bool) (t : tens) (v : Z) : Prop :=
  match t with TPub q => public (FI n) q v /\ qsc q = sc | TPriv p => arith n p v /\ psc p = sc end.
Definition tens_bool (t : tens) (v : Z) : Prop :=
  match t with TPub q => public FB q v /\ qsc q = false | TPriv p => boolean FB p v /\ psc p = false end.
(** A public or private unscaled word; the devices of a public one are left open. *)
Definition tens_val (n : Z) (t : tens) (v : Z) : Prop :=
  match t with
  | TPub q => vz (q0 q) = v /\ vz (q1 q) = v /\ vz (q2 q) = v /\ qsc q = false
  | TPriv p => arith n p v /\ psc p = false
  end.
(** Position [k] holds the greatest value and is the last to do so. *)
Definition last_greatest (vs : list Z) (k : nat) : Prop :=
  (k < length vs)%nat /\ (forall j, (j < length vs)%nat -> nth j vs 0 <= nth k vs 0) /\
  (forall j, (k < j < length vs)%nat -> nth j vs 0 < nth k vs 0).
