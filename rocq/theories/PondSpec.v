(** Specification vocabulary for the Pond theorems: when a tensor object stands for a vector of
    integers, what a product of such vectors is, and what a successful call is. *)
From Verif Require Import Base Factory TensorModel CrtModel PondModel.

Section PondSpec.
Context (F : factory).
Notation MM := (fmod F).
Notation ten := (list (felt F)).

(** Residue of entry [i]. *)
Definition tval (x : ten) (i : nat) : Z := fval F (ent i x).

(** A tensor of [n] well-formed entries. *)
Definition okT (n : nat) (x : ten) : Prop := length x = n /\ Forall (fwf F) x.

(** Value read by an optional index. *)
Definition zoi (o : option nat) (v : nat -> Z) : Z := match o with Some i => v i | None => 0 end.

Definition zrow (ps : list nat) (v : nat -> Z) : Z := zsum (map v ps).

Definition zform (ps : list (option nat * option nat)) (u v : nat -> Z) : Z :=
  zsum (map (fun p => zoi (fst p) u * zoi (snd p) v) ps).

(** Entry [j] of a product. *)
Definition bspec (o : bop) (j : nat) (u v : nat -> Z) : Z :=
  match o with
  | BMul => u j * v j
  | BMat tab => zform (nth j tab []) u v
  | BConv tab => zform (nth j tab []) u v
  end.

(** Index in range. *)
Definition in_rng (n : nat) (o : option nat) : Prop := match o with Some i => (i < n)%nat | None => True end.

(** The table addresses tensors of [n] and [m] entries and has [p] outputs. *)
Definition tab_ok (n m p : nat) (tab : list (list (option nat * option nat))) : Prop :=
  length tab = p /\ Forall (Forall (fun q => in_rng n (fst q) /\ in_rng m (snd q))) tab.

Definition bok (o : bop) (n m p : nat) : Prop :=
  match o with
  | BMul => n = p /\ m = p
  | BMat tab => tab_ok n m p tab
  | BConv tab => tab_ok n m p tab
  end.

(** [denotes n t sc v]: [t] is a tensor of [n] entries with encoding flag [sc] on the right
    devices, and its entries stand for [v i] modulo the ring modulus. *)
Definition denotes (n : nat) (t : ptensor F) (sc : bool) (v : nat -> Z) : Prop :=
  match t with
  | Pub v0 v1 s => s = sc /\ pdev v0 = Srv0 /\ pdev v1 = Srv1 /\ okT n (pval v0) /\ okT n (pval v1) /\
      forall i, (i < n)%nat -> eqm MM (tval (pval v0) i) (v i) /\ eqm MM (tval (pval v1) i) (v i)
  | Priv s0 s1 s => s = sc /\ pdev s0 = Srv0 /\ pdev s1 = Srv1 /\ okT n (pval s0) /\ okT n (pval s1) /\
      forall i, (i < n)%nat -> eqm MM (tval (pval s0) i + tval (pval s1) i) (v i)
  | Masked u0 u1 us a a0 a1 al0 al1 s =>
      s = sc /\ us = sc /\ pdev u0 = Srv0 /\ pdev u1 = Srv1 /\ pdev a = Producer /\ pdev a0 = Srv0 /\ pdev a1 = Srv1 /\
      pdev al0 = Srv0 /\ pdev al1 = Srv1 /\
      okT n (pval u0) /\ okT n (pval u1) /\ okT n (pval a) /\ okT n (pval a0) /\ okT n (pval a1) /\
      okT n (pval al0) /\ okT n (pval al1) /\
      pval al0 = pval al1 /\
      (forall i, (i < n)%nat -> eqm MM (tval (pval u0) i + tval (pval u1) i) (v i)) /\
      (forall i, (i < n)%nat -> eqm MM (tval (pval a0) i + tval (pval a1) i) (tval (pval a) i)) /\
      (forall i, (i < n)%nat -> eqm MM (tval (pval al0) i + tval (pval a) i) (v i))
  end.

(** A successful call. *)
Definition yields {A} (m : M F A) (P : A -> Prop) : Prop := exists a, snd m = Ok a /\ P a.

(** Entries of a concatenation. *)
Definition vapp (n : nat) (u v : nat -> Z) (i : nat) : Z := if (i <? n)%nat then u i else v (i - n)%nat.

Definition rnd_ok (r : mulrnd F) (n m p : nat) : Prop :=
  okT n (rx0 F r) /\ okT n (rx1 F r) /\ okT m (ry0 F r) /\ okT m (ry1 F r) /\ okT p (rrho F r) /\ okT p (rtr F r).

(** The product for every operand combination except the ones that raise. *)
Definition supported (o : bop) (x y : ptensor F) : Prop :=
  match o, x, y with
  | BMul, _, _ => True
  | BMat _, Pub _ _ _, _ => True
  | BMat _, _, Pub _ _ _ => False
  | BConv _, Pub _ _ _, Pub _ _ _ => True
  | BConv _, Pub _ _ _, _ | BConv _, _, Pub _ _ _ => False
  | _, _, _ => True
  end.

End PondSpec.
