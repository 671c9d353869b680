(** Vocabulary of the theorems about compiled functions and loops, independent of how tensors cross into a graph. *)
From Verif Require Import Base TensorModel Aby3Model Aby3Spec LoopModel.

(** A public tensor with each copy on its server. *)
Definition spread (x : pub) : Prop := vd (q0 x) = S0 /\ vd (q1 x) = S1 /\ vd (q2 x) = S2.
(** Every word is on the server it belongs to. *)
Definition at_home (v : lvar) : Prop := match v with LPriv x => placed x | LPub x => spread x | LNat _ => True end.
(** The word sizes of the library. *)
Definition usual (f : fac) : Prop := f = FB \/ f = FI 8 \/ f = FI 16 \/ f = FI 32 \/ f = FI 64 \/ f = FI 128.
Definition usual_size (v : lvar) : Prop := match v with LPriv x => usual (pfc x) | LPub x => usual (qfc x) | LNat _ => True end.
(** Same class, scaling, kind of sharing and word size. *)
Definition same_kind (v w : lvar) : Prop :=
  match v, w with
  | LPriv x, LPriv y => psc x = psc y /\ pty x = pty y /\ pfc x = pfc y
  | LPub x, LPub y => qsc x = qsc y /\ qfc x = qfc y
  | LNat _, LNat _ => True
  | _, _ => False
  end.

(** All the tensors of an argument. *)
Fixpoint all_of (P : lvar -> Prop) (a : arg lvar) : Prop :=
  match a with
  | AOne _ v => P v
  | ASeq _ _ l => (fix go (l : list (arg lvar)) : Prop := match l with [] => True | a :: l => all_of P a /\ go l end) l
  end.
(** The same tensors with lists for tuples. *)
Fixpoint listed (a : arg lvar) : arg lvar :=
  match a with
  | AOne _ v => AOne _ v
  | ASeq _ _ l => ASeq _ false (map listed l)
  end.

(** The loop of mathematics: what [a] becomes if at most [n - 1] steps lead to the end. *)
Fixpoint after {A : Type} (n : nat) (c : A -> bool) (f : A -> A) (a : A) : option A :=
  match n with
  | O => None
  | S n => if c a then after n c f (f a) else Some a
  end.
(** The variables represent the end of the loop, if it ends. *)
Definition ends_in {A : Type} (R : A -> list lvar -> Prop) (o : option A) (r : option (list lvar)) : Prop :=
  match o, r with
  | Some a, Some vs => R a vs
  | None, None => True
  | _, _ => False
  end.
