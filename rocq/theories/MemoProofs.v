(** Proofs about the cache. *)
From Coq Require Import ZArith QArith Qreduction List Bool String NArith Lia Permutation Sorted.
From Coq Require Import Qcanon.
From Verif Require Import Base MemoModel MemoSpec.
Import ListNotations.

(** ** Equality of keys *)

Fixpoint key_rect' (P : key -> Prop) (f0 : P KNone) (f1 : forall q, P (KNum q)) (f2 : forall s, P (KStr s))
  (f3 : forall l, Forall P l -> P (KTup l)) (f4 : forall i, P (KObj i)) (f5 : forall a d l, P (KText a d l)) (k : key) : P k :=
  match k with
  | KNone => f0 | KNum q => f1 q | KStr s => f2 s
  | KTup l => f3 l ((fix go l := match l return Forall P l with
                                 | [] => Forall_nil _
                                 | x :: l => Forall_cons _ (key_rect' P f0 f1 f2 f3 f4 f5 x) (go l) end) l)
  | KObj i => f4 i | KText a d l => f5 a d l
  end.
Lemma key_eqb_eq : forall a b, key_eqb a b = true <-> a = b.
Proof.
  intros a. induction a as [|[n d]|s|l IH|i|a d l] using key_rect'; intros [|[n' d']|s'|l'|i'|a' d' l']; cbn [key_eqb]; try (split; congruence).
  - cbn [Qnum Qden]. rewrite andb_true_iff, Z.eqb_eq, Pos.eqb_eq. split; [intros [-> ->]; reflexivity|intros E; injection E; auto].
  - rewrite String.eqb_eq. split; congruence.
  - assert (G : (fix go l m := match l, m with [], [] => true | x :: l, y :: m => key_eqb x y && go l m | _, _ => false end) l l' = true <-> l = l').
    { revert l'. induction IH as [|x l Hx _ IH]; intros [|y l']; try (split; congruence).
      rewrite andb_true_iff, Hx, IH. split; [intros [-> ->]; reflexivity|intros E; injection E; auto]. }
    rewrite G. split; congruence.
  - rewrite N.eqb_eq. split; congruence.
  - rewrite !andb_true_iff, N.eqb_eq, Bool.eqb_true_iff. destruct (list_eq_dec Z.eq_dec l l') as [->|Ne].
    + split; [intros ((-> & ->) & _); reflexivity|intros E; injection E; auto].
    + split; [intros ((_ & _) & H); discriminate|intros E; injection E; congruence].
Qed.
Lemma node_eqb_eq a b : node_eqb a b = true <-> a = b.
Proof.
  destruct a as [[f x] y], b as [[g u] v]. unfold node_eqb. rewrite !andb_true_iff, String.eqb_eq, !key_eqb_eq.
  split; [intros ((-> & ->) & ->); reflexivity|intros E; injection E; auto].
Qed.

(** ** Sameness of arguments *)

Fixpoint pyval_rect' (P : pyval -> Prop) (a0 : P PNone) (a1 : forall b, P (PBool b)) (a2 : forall z, P (PInt z)) (a3 : forall q, P (PFloat q))
  (a4 : forall s, P (PStr s)) (a5 : forall l, Forall P l -> P (PTuple l)) (a6 : forall l, Forall P l -> P (PList l)) (a7 : forall d, P (PShape d))
  (a8 : forall i, P (PObj i)) (a9 : forall a l, P (PArr a l)) (v : pyval) : P v :=
  let all := (fix go l := match l return Forall P l with
                          | [] => Forall_nil _
                          | x :: l => Forall_cons _ (pyval_rect' P a0 a1 a2 a3 a4 a5 a6 a7 a8 a9 x) (go l) end) in
  match v with
  | PNone => a0 | PBool b => a1 b | PInt z => a2 z | PFloat q => a3 q | PStr s => a4 s
  | PTuple l => a5 l (all l) | PList l => a6 l (all l) | PShape d => a7 d | PObj i => a8 i | PArr a l => a9 a l
  end.

(** The key by cases of the specification. *)
Lemma key_number v q : number_of v = Some q -> make_hashable v = KNum (Qred q).
Proof.
  destruct v as [|[|]|z| | | | | | |]; cbn; intros E; try discriminate; injection E as <-; try reflexivity.
  unfold inject_Z. f_equal. symmetry. apply (Qred_identity (inject_Z z)). cbn. rewrite Z.gcd_1_r. reflexivity.
Qed.
Lemma key_sequence v l : sequence_of v = Some l -> make_hashable v = KTup (map make_hashable l).
Proof.
  destruct v; cbn; intros E; try discriminate; injection E as <-; try reflexivity.
  f_equal. rewrite map_map. apply map_ext. intros [z|]; reflexivity.
Qed.
Lemma firstn_app_exact {A} (l m : list A) : firstn (List.length l) (l ++ m) = l.
Proof. rewrite firstn_app, Nat.sub_diag, firstn_all, firstn_O, app_nil_r. reflexivity. Qed.
Lemma skipn_app_exact {A} (l m : list A) : skipn (List.length l) (l ++ m) = m.
Proof. rewrite skipn_app, Nat.sub_diag, skipn_all. reflexivity. Qed.
Lemma text_same a b l m : text a l = text b m <-> a = b /\ prints_alike l m.
Proof.
  unfold text, prints_alike. destruct (Nat.leb_spec (List.length l) 1000), (Nat.leb_spec (List.length m) 1000).
  - split; [intros E; injection E; auto|]. intros (-> & [[_ ->]|(? & _)]); [reflexivity|lia].
  - split; [discriminate|]. intros (-> & [[_ ->]|(? & _)]); lia.
  - split; [discriminate|]. intros (-> & [[_ ->]|(? & ? & _)]); lia.
  - split.
    + intros E. injection E as -> E. split; [reflexivity|]. right. split; [assumption|]. split; [assumption|].
      assert (L : List.length (firstn 3 l) = List.length (firstn 3 m)) by (rewrite !firstn_length; lia).
      split; [apply (f_equal (firstn (List.length (firstn 3 l)))) in E; rewrite firstn_app_exact in E; rewrite L in E at 1; rewrite firstn_app_exact in E; exact E|].
      apply (f_equal (skipn (List.length (firstn 3 l)))) in E; rewrite skipn_app_exact in E; rewrite L in E at 1; rewrite skipn_app_exact in E; exact E.
    + intros (-> & [[? _]|(_ & _ & E1 & E2)]); [lia|]. rewrite E1, E2. reflexivity.
Qed.

Lemma number_not_sequence v q : number_of v = Some q -> sequence_of v = None.
Proof. destruct v as [|[|]| | | | | | | |]; cbn; congruence. Qed.
Lemma Qred_eq_iff p q : Qred p = Qred q <-> (p == q)%Q.
Proof.
  split; [|apply Qred_complete]. intros E. rewrite <- (Qred_correct p), <- (Qred_correct q), E. reflexivity.
Qed.
Lemma KNum_inj p q : KNum p = KNum q -> p = q.
Proof. congruence. Qed.
Lemma KTup_inj p q : KTup p = KTup q -> p = q.
Proof. congruence. Qed.

Lemma same_key_seq a b l m : sequence_of a = Some l -> sequence_of b = Some m ->
  (forall y, In y l -> forall z, make_hashable y = make_hashable z <-> same_value y z) ->
  make_hashable a = make_hashable b <-> same_value a b.
Proof.
  intros Ha Hb IH. rewrite (key_sequence _ _ Ha), (key_sequence _ _ Hb).
  assert (G : map make_hashable l = map make_hashable m <-> Forall2 same_value l m).
  { clear a b Ha Hb. revert m. induction l as [|x l IHl]; intros [|y m]; cbn [map].
    - split; constructor.
    - split; [discriminate|intros H; inversion H].
    - split; [discriminate|intros H; inversion H].
    - split.
      + intros E. injection E as E1 E2. constructor; [apply IH; [left; reflexivity|exact E1]|].
        apply IHl; [|exact E2]. intros z Hz. apply IH. right. exact Hz.
      + intros H. inversion_clear H. f_equal; [apply IH; [left; reflexivity|assumption]|].
        apply IHl; [|assumption]. intros z Hz. apply IH. right. exact Hz. }
  split; [intros E; apply KTup_inj in E; apply (same_sequence _ _ _ _ Ha Hb), G, E|].
  intros H. f_equal. apply G. destruct H as [|a b p q Hp Hq|s|a b l' m' Hl Hm H|i|x l' m' H]; try discriminate.
  - rewrite (number_not_sequence _ _ Hp) in Ha. discriminate.
  - rewrite Hl in Ha. rewrite Hm in Hb. injection Ha as <-. injection Hb as <-. exact H.
Qed.
Lemma same_key_num a b p q : number_of a = Some p -> number_of b = Some q -> make_hashable a = make_hashable b <-> same_value a b.
Proof.
  intros Ha Hb. rewrite (key_number _ _ Ha), (key_number _ _ Hb). split.
  - intros E. apply KNum_inj in E. apply (same_number _ _ _ _ Ha Hb), Qred_eq_iff, E.
  - intros H. f_equal. apply Qred_eq_iff. destruct H as [|a b p' q' Hp Hq H|s|a b l' m' Hl Hm H|i|x l' m' H]; try discriminate.
    + rewrite Hp in Ha. rewrite Hq in Hb. injection Ha as <-. injection Hb as <-. exact H.
    + rewrite (number_not_sequence _ _ Ha) in Hl. discriminate.
Qed.
(** Values of different classes have different keys and are not the same. *)
Definition class (v : pyval) : nat :=
  match v with PNone => 0 | PBool _ | PInt _ | PFloat _ => 1 | PStr _ => 2 | PTuple _ | PList _ | PShape _ => 3 | PObj _ => 4 | PArr _ _ => 5 end%nat.
Definition kclass (k : key) : nat :=
  match k with KNone => 0 | KNum _ => 1 | KStr _ => 2 | KTup _ => 3 | KObj _ => 4 | KText _ _ _ => 5 end%nat.
Lemma class_key v : kclass (make_hashable v) = class v.
Proof. destruct v; try reflexivity. cbn. unfold text. destruct (Nat.leb _ _); reflexivity. Qed.
Lemma number_class v q : number_of v = Some q -> class v = 1%nat.
Proof. destruct v as [|[|]| | | | | | | |]; cbn; congruence. Qed.
Lemma sequence_class v q : sequence_of v = Some q -> class v = 3%nat.
Proof. destruct v as [|[|]| | | | | | | |]; cbn; congruence. Qed.
Lemma same_class a b : same_value a b -> class a = class b.
Proof.
  intros [|x y p q Hp Hq _|s|x y l m Hl Hm _|i|x l m _]; try reflexivity.
  - rewrite (number_class _ _ Hp), (number_class _ _ Hq). reflexivity.
  - rewrite (sequence_class _ _ Hl), (sequence_class _ _ Hm). reflexivity.
Qed.
Lemma class_number v : class v = 1%nat -> exists q, number_of v = Some q.
Proof. destruct v as [|[|]| | | | | | | |]; cbn; intros E; try discriminate; eexists; reflexivity. Qed.
Lemma class_sequence v : class v = 3%nat -> exists l, sequence_of v = Some l.
Proof. destruct v as [|[|]| | | | | | | |]; cbn; intros E; try discriminate; eexists; reflexivity. Qed.

Lemma same_key : forall a b, make_hashable a = make_hashable b <-> same_value a b.
Proof.
  assert (D : forall a b, class a <> class b -> make_hashable a = make_hashable b <-> same_value a b).
  { intros a b N. split; intros H; exfalso; apply N; [rewrite <- !class_key, H; reflexivity|apply same_class, H]. }
  assert (E1 : forall a b, class a = 1%nat -> make_hashable a = make_hashable b <-> same_value a b).
  { intros a b Ca. destruct (Nat.eq_dec (class b) 1) as [Cb|Cb]; [|apply D; congruence].
    destruct (class_number a Ca) as [p Hp], (class_number b Cb) as [q Hq]. exact (same_key_num a b p q Hp Hq). }
  assert (E3 : forall a b l, sequence_of a = Some l -> Forall (fun y => forall z, make_hashable y = make_hashable z <-> same_value y z) l ->
     make_hashable a = make_hashable b <-> same_value a b).
  { intros a b l Hl F. pose proof (sequence_class _ _ Hl) as Ca. destruct (Nat.eq_dec (class b) 3) as [Cb|Cb]; [|apply D; congruence].
    destruct (class_sequence b Cb) as [m Hm]. apply (same_key_seq a b l m Hl Hm). rewrite Forall_forall in F. exact F. }
  intros a. induction a as [|b|z|q|s|l IH|l IH|d|i|x l] using pyval_rect'; intros v.
  - destruct v; try (apply D; discriminate). split; [constructor|reflexivity].
  - apply E1. reflexivity.
  - apply E1. reflexivity.
  - apply E1. reflexivity.
  - destruct v; try (apply D; discriminate). cbn. split.
    + intros E. injection E as <-. constructor.
    + intros H. inversion H; subst; try discriminate. reflexivity.
  - apply (E3 _ _ l); [reflexivity|exact IH].
  - apply (E3 _ _ l); [reflexivity|exact IH].
  - eapply E3; [reflexivity|]. apply Forall_forall. intros y Hy. apply in_map_iff in Hy. destruct Hy as ([z|] & <- & _).
    + intros v'. apply E1. reflexivity.
    + intros v'. destruct v'; try (apply D; discriminate). split; [constructor|reflexivity].
  - destruct v; try (apply D; discriminate). cbn. split.
    + intros E. injection E as <-. constructor.
    + intros H. inversion H; subst; try discriminate. reflexivity.
  - destruct v as [| | | | | | | | |y m]; try (apply D; discriminate). cbn [make_hashable]. rewrite text_same. split.
    + intros [-> H]. constructor. exact H.
    + intros H. inversion H; subst; try discriminate. split; [reflexivity|assumption].
Qed.

(** ** Sorted keywords *)

Lemma before_total a b : before a b = false -> before b a = true.
Proof. unfold before. rewrite (String.compare_antisym b a). destruct (String.compare a b); cbn; congruence. Qed.
Lemma bound_insert {A} k (p : string * A) l : ~ In (fst p) (map fst l) -> bound k (insert p l) = bound k (p :: l).
Proof.
  destruct p as [n x]. induction l as [|[m y] l IH]; [reflexivity|]. cbn [insert fst map In]. intros N.
  destruct (before n m); [reflexivity|]. cbn [bound]. rewrite IH by tauto. cbn [bound].
  destruct (String.eqb_spec k m), (String.eqb_spec k n); subst; try reflexivity. exfalso. apply N. left. reflexivity.
Qed.
Lemma insert_names {A} (p : string * A) l : Permutation (map fst (insert p l)) (fst p :: map fst l).
Proof.
  induction l as [|q l IH]; [reflexivity|]. cbn [insert]. destruct (before (fst p) (fst q)); [reflexivity|]. cbn [map].
  rewrite IH. apply perm_swap.
Qed.
Lemma sorted_names {A} (l : list (string * A)) : Permutation (map fst (sorted l)) (map fst l).
Proof. induction l as [|p l IH]; [reflexivity|]. cbn [sorted map]. rewrite insert_names, IH. reflexivity. Qed.
Lemma bound_sorted {A} k (l : list (string * A)) : NoDup (map fst l) -> bound k (sorted l) = bound k l.
Proof.
  induction l as [|[n x] l IH]; intros N; [reflexivity|]. inversion_clear N. cbn [sorted]. rewrite bound_insert.
  - cbn [bound]. rewrite IH by assumption. reflexivity.
  - cbn [fst] in *. intros H1. apply H. eapply Permutation_in; [apply sorted_names|exact H1].
Qed.
Definition le_name {A} (p q : string * A) := before (fst p) (fst q) = true.
Lemma ascii_compare_N a b : Ascii.compare a b = N.compare (Ascii.N_of_ascii a) (Ascii.N_of_ascii b).
Proof. reflexivity. Qed.
Lemma ascii_eq a b : N.compare (Ascii.N_of_ascii a) (Ascii.N_of_ascii b) = Eq -> a = b.
Proof.
  intros H. apply N.compare_eq_iff in H. rewrite <- (Ascii.ascii_N_embedding a), <- (Ascii.ascii_N_embedding b), H. reflexivity.
Qed.
Lemma before_refl a : before a a = true.
Proof. unfold before. induction a as [|x a IH]; [reflexivity|]. cbn [String.compare]. rewrite ascii_compare_N, N.compare_refl. exact IH. Qed.
Lemma before_trans : forall a b c, before a b = true -> before b c = true -> before a c = true.
Proof.
  unfold before. induction a as [|x a IH]; intros [|y b] [|z c]; cbn [String.compare]; try congruence.
  rewrite !ascii_compare_N.
  destruct (N.compare_spec (Ascii.N_of_ascii x) (Ascii.N_of_ascii y)) as [E1|E1|E1]; try congruence;
  destruct (N.compare_spec (Ascii.N_of_ascii y) (Ascii.N_of_ascii z)) as [E2|E2|E2]; try congruence;
  destruct (N.compare_spec (Ascii.N_of_ascii x) (Ascii.N_of_ascii z)) as [E3|E3|E3]; try congruence; try (exfalso; lia).
  exact (IH b c).
Qed.
Lemma before_antisym a b : before a b = true -> before b a = true -> a = b.
Proof.
  unfold before. rewrite (String.compare_antisym b a). destruct (String.compare a b) eqn:E; cbn [CompOpp]; try congruence.
  intros _ _. apply String.compare_eq_iff. exact E.
Qed.
Lemma insert_sorted {A} (p : string * A) l : StronglySorted le_name l -> StronglySorted le_name (insert p l).
Proof.
  induction 1 as [|q l S IH F]; [repeat constructor|]. cbn [insert]. destruct (before (fst p) (fst q)) eqn:B.
  - constructor; [constructor; assumption|]. constructor; [exact B|]. eapply Forall_impl; [|exact F]. intros r Hr. exact (before_trans _ _ _ B Hr).
  - constructor; [exact IH|]. apply before_total in B. clear - B F. induction F as [|r l Hr F IH]; cbn [insert]; [repeat constructor; exact B|].
    destruct (before (fst p) (fst r)); constructor; [exact B|constructor; assumption|exact Hr|exact IH].
Qed.
Lemma sorted_sorted {A} (l : list (string * A)) : StronglySorted le_name (sorted l).
Proof. induction l as [|p l IH]; [constructor|]. apply insert_sorted, IH. Qed.
Lemma bound_none {A} k (l : list (string * A)) : bound k l = None <-> ~ In k (map fst l).
Proof.
  induction l as [|[n x] l IH]; cbn [bound map fst In]; [tauto|]. destruct (String.eqb_spec k n) as [->|N]; [split; [discriminate|tauto]|].
  rewrite IH. split; intros H; [intros [E|E]; [congruence|contradiction]|tauto].
Qed.
Lemma bound_in {A} k v (l : list (string * A)) : bound k l = Some v -> In (k, v) l.
Proof.
  induction l as [|[n x] l IH]; cbn [bound In]; [discriminate|]. destruct (String.eqb_spec k n) as [->|N]; [intros E; injection E as <-; left; reflexivity|].
  intros H. right. apply IH, H.
Qed.

(** Two sorted association lists with pointwise related bindings are related entry by entry. *)
Lemma sorted_related {A} (R : A -> A -> Prop) (l m : list (string * A)) :
  StronglySorted le_name l -> StronglySorted le_name m -> NoDup (map fst l) -> NoDup (map fst m) ->
  (forall k, match bound k l, bound k m with Some v, Some u => R v u | None, None => True | _, _ => False end) ->
  Forall2 (fun p q => fst p = fst q /\ R (snd p) (snd q)) l m.
Proof.
  intros Sl. revert m. induction Sl as [|[n x] l Sl IH Fl]; intros m Sm Nl Nm H.
  - destruct m as [|[k y] m]; [constructor|]. specialize (H k). cbn [bound] in H. rewrite String.eqb_refl in H. contradiction.
  - destruct m as [|[k y] m].
    { specialize (H n). cbn [bound] in H. rewrite String.eqb_refl in H. contradiction. }
    inversion_clear Sm as [|? ? Sm' Fm]. inversion_clear Nl as [|? ? Nx Nl']. inversion_clear Nm as [|? ? Ny Nm'].
    assert (E : n = k).
    { apply before_antisym.
      - pose proof (H k) as Hk. cbn [bound] in Hk. rewrite String.eqb_refl in Hk. destruct (String.eqb_spec k n) as [->|Ne].
        + apply before_refl.
        + destruct (bound k l) eqn:B; [|contradiction]. apply bound_in in B. rewrite Forall_forall in Fl. exact (Fl _ B).
      - pose proof (H n) as Hn. cbn [bound] in Hn. rewrite String.eqb_refl in Hn. destruct (String.eqb_spec n k) as [->|Ne].
        + apply before_refl.
        + destruct (bound n m) eqn:B; [|contradiction]. apply bound_in in B. rewrite Forall_forall in Fm. exact (Fm _ B). }
    clear Fl Fm. rewrite <- E in *. clear E k. constructor.
    + split; [reflexivity|]. pose proof (H n) as Hn. cbn [bound snd] in *. rewrite String.eqb_refl in Hn. exact Hn.
    + apply IH; try assumption. intros k. pose proof (H k) as Hk. cbn [bound] in Hk. cbn [fst] in *.
      destruct (String.eqb_spec k n) as [E|Ne]; [|exact Hk]. rewrite E.
      rewrite (proj2 (bound_none n l) Nx), (proj2 (bound_none n m) Ny). exact I.
Qed.
Lemma related_bound {A} (R : A -> A -> Prop) (l m : list (string * A)) k :
  Forall2 (fun p q => fst p = fst q /\ R (snd p) (snd q)) l m ->
  match bound k l, bound k m with Some v, Some u => R v u | None, None => True | _, _ => False end.
Proof.
  induction 1 as [|[n x] [n' y] l m [E Rxy] H IH]; [exact I|]. cbn [fst snd bound] in *. subst n'.
  destruct (String.eqb k n); [exact Rxy|exact IH].
Qed.

Lemma node_key_iff c d : proper c -> proper d -> node_key c = node_key d <-> same_call c d.
Proof.
  intros Pc Pd. unfold node_key, same_call.
  assert (A : map make_hashable (args c) = map make_hashable (args d) <-> Forall2 same_value (args c) (args d)).
  { generalize (args c), (args d). intros l. induction l as [|x l IH]; intros [|y m]; cbn [map].
    - split; constructor.
    - split; [discriminate|intros H; inversion H].
    - split; [discriminate|intros H; inversion H].
    - split; [intros E; injection E as E1 E2; constructor; [apply same_key, E1|apply IH, E2]|].
      intros H. inversion_clear H. f_equal; [apply same_key; assumption|apply IH; assumption]. }
  assert (K : map (fun p => KTup [KStr (fst p); make_hashable (snd p)]) (sorted (kwargs c)) =
              map (fun p => KTup [KStr (fst p); make_hashable (snd p)]) (sorted (kwargs d)) <->
              Forall2 (fun p q => fst p = fst q /\ same_value (snd p) (snd q)) (sorted (kwargs c)) (sorted (kwargs d))).
  { generalize (sorted (kwargs c)), (sorted (kwargs d)). intros l. induction l as [|[n x] l IH]; intros [|[n' y] m]; cbn [map fst snd].
    - split; constructor.
    - split; [discriminate|intros H; inversion H].
    - split; [discriminate|intros H; inversion H].
    - split.
      + intros E. injection E as E1 E2 E3. constructor; [split; [exact E1|apply same_key, E2]|apply IH, E3].
      + intros H. inversion_clear H as [|? ? ? ? [E1 E2] E3]. cbn [fst snd] in *. subst n'.
        apply same_key in E2. rewrite E2. f_equal. apply IH, E3. }
  assert (S : Forall2 (fun p q => fst p = fst q /\ same_value (snd p) (snd q)) (sorted (kwargs c)) (sorted (kwargs d)) <->
              forall k, match bound k (kwargs c), bound k (kwargs d) with Some v, Some u => same_value v u | None, None => True | _, _ => False end).
  { split.
    - intros H k. rewrite <- (bound_sorted k (kwargs c) Pc), <- (bound_sorted k (kwargs d) Pd). apply related_bound, H.
    - intros H. apply sorted_related; try apply sorted_sorted.
      + apply (Permutation_NoDup (Permutation_sym (sorted_names (kwargs c))) Pc).
      + apply (Permutation_NoDup (Permutation_sym (sorted_names (kwargs d))) Pd).
      + intros k. rewrite (bound_sorted k (kwargs c) Pc), (bound_sorted k (kwargs d) Pd). apply H. }
  rewrite <- A, <- S, <- K. split.
  - intros E. injection E as E1 E2 E3. auto.
  - intros (-> & -> & ->). reflexivity.
Qed.

(** ** Transparency *)

Section Transparent.
  Variables (W V : Type) (body : call -> prog W V).
  Hypothesis well : respectful body.
  Hypothesis inner : forall c, proper c -> calls_proper (body c).

  (** Every entry of the cache was returned by some run of a call with that key. *)
  Definition sound (t : cache V) : Prop :=
    forall k v, In (k, Some v) t -> exists c f w w', proper c /\ node_key c = k /\ run W V body f w (body c) = Some (w', Some v).
  Lemma get_in k v t : get V k t = Some v -> In (k, Some v) t.
  Proof.
    induction t as [|[k' r] t IH]; cbn [get In]; [discriminate|]. destruct (node_eqb k k') eqn:E; [|intros H; right; apply IH, H].
    apply node_eqb_eq in E. intros ->. left. rewrite E. reflexivity.
  Qed.
  Lemma mrun_run : forall fuel w t p w' r, calls_proper p -> sound t -> run W V body fuel w p = Some (w', r) ->
    exists t', mrun W V body fuel w t p = Some (w', t', r) /\ sound t'.
  Proof.
    induction fuel as [|fuel IH]; intros w t p w' r Cp St H; [discriminate|]. cbn [run mrun] in *. destruct p as [r0|f|c k].
    - injection H as <- <-. exists t. auto.
    - inversion Cp as [|? Hf|]; subst. specialize (Hf w). destruct (f w) as [w1 p1]. cbn [snd] in Hf. exact (IH w1 t p1 w' r Hf St H).
    - inversion Cp as [| |? ? Pc Hk]; subst. destruct (run W V body fuel w (body c)) as [[w1 r1]|] eqn:R; [|discriminate].
      destruct (get V (node_key c) t) as [v|] eqn:G.
      + apply get_in in G. destruct (St _ _ G) as (c0 & f0 & w0 & w0' & P0 & K0 & R0).
        apply (node_key_iff _ _ P0 Pc) in K0. destruct (well c0 c w0 w f0 fuel w0' w1 v r1 P0 Pc K0 R0 R) as (_ & -> & ->).
        exact (IH w t (k (Some v)) w' r (Hk _) St H).
      + destruct (IH w t (body c) w1 r1 (inner c Pc) St R) as (t1 & -> & S1).
        apply (IH w1 ((node_key c, r1) :: t1) (k r1) w' r (Hk _)); [|exact H].
        intros k0 v [E|E]; [|apply S1, E]. injection E as <- ->. exists c, fuel, w, w1. auto.
  Qed.
  Lemma run_more : forall fuel w p x, run W V body fuel w p = Some x -> run W V body (S fuel) w p = Some x.
  Proof.
    induction fuel as [|fuel IH]; intros w p x H; [discriminate|]. cbn [run] in H. destruct p as [r0|f|c k].
    - exact H.
    - cbn [run]. destruct (f w) as [w1 p1]. apply IH, H.
    - destruct (run W V body fuel w (body c)) as [[w1 r1]|] eqn:R; [|discriminate].
      change (match run W V body (S fuel) w (body c) with Some (w2, r2) => run W V body (S fuel) w2 (k r2) | None => None end = Some x).
      rewrite (IH _ _ _ R). apply IH, H.
  Qed.
  Lemma session_plain : forall l fuel w t w' rs, Forall (fun x => proper (snd x)) l -> sound t ->
    plain body fuel w (map snd l) = Some (w', rs) -> session W V body (S fuel) w t l = Some (w', rs).
  Proof.
    induction l as [|[debug c] l IH]; intros fuel w t w' rs Pl St H; [exact H|]. inversion_clear Pl as [|? ? Pc Pl']. cbn [map snd plain] in *.
    destruct (run W V body fuel w (body c)) as [[w1 r1]|] eqn:R; [|discriminate].
    destruct (plain body fuel w1 (map snd l)) as [[w2 rs2]|] eqn:P; [|discriminate]. injection H as <- <-.
    cbn [session]. destruct debug.
    - rewrite (run_more _ _ _ _ R). rewrite (IH fuel w1 t w2 rs2 Pl' St P). reflexivity.
    - assert (R' : run W V body (S fuel) w (Sub c Ret) = Some (w1, r1)).
      { cbn [run]. rewrite R. destruct fuel; [discriminate|reflexivity]. }
      destruct (mrun_run (S fuel) w t (Sub c Ret) w1 r1) as (t1 & -> & S1); [|exact St|exact R'|].
      + constructor; [exact Pc|]. intros r. constructor.
      + rewrite (IH fuel w1 t1 w2 rs2 Pl' S1 P). reflexivity.
  Qed.
End Transparent.

(** ** Cached zero tensors *)

Lemma same_args_eq a b : same_args a b = true <-> a = b.
Proof.
  destruct a as [[[n s] k] f], b as [[[n' s'] k'] f']. unfold same_args.
  rewrite !andb_true_iff, Nat.eqb_eq, Bool.eqb_true_iff, Z.eqb_eq. destruct k, k'; split; try (intros [[[? ?] ?] ?]; congruence);
    intros E; injection E; intros; subst; auto; try discriminate.
Qed.
Lemma find_zero_in a l o : find_zero a l = Some o -> In (a, o) l.
Proof.
  induction l as [|[b p] l IH]; cbn [find_zero In]; [discriminate|]. destruct (same_args a b) eqn:E; [|intros H; right; apply IH, H].
  apply same_args_eq in E. intros H. injection H as <-. left. rewrite E. reflexivity.
Qed.
Lemma find_zero_none a l : find_zero a l = None -> forall o, ~ In (a, o) l.
Proof.
  induction l as [|[b p] l IH]; cbn [find_zero In]; [tauto|]. destruct (same_args a b) eqn:E; [discriminate|].
  intros H o [Ho|Ho]; [|exact (IH H o Ho)]. injection Ho as -> _. rewrite (proj2 (same_args_eq a a) eq_refl) in E. discriminate.
Qed.
Lemma replace_length {A} (l : list A) o x : List.length (replace l o x) = List.length l.
Proof. revert o. induction l as [|y l IH]; intros [|o]; cbn; auto. Qed.
Lemma replace_nth {A} (l : list A) o p x d : (o < List.length l)%nat ->
  nth p (replace l o x) d = if Nat.eqb p o then x else nth p l d.
Proof.
  revert o p. induction l as [|y l IH]; intros [|o] [|p] H; cbn in *; try lia; try reflexivity. apply IH. lia.
Qed.

(** Entries point to objects that exist, different arguments to different objects. *)
Definition tidy (h : heap) : Prop :=
  (forall a o, In (a, o) (zero_nodes h) -> (o < List.length (objects h))%nat) /\
  (forall a b o, In (a, o) (zero_nodes h) -> In (b, o) (zero_nodes h) -> a = b).
Lemma zeros_facts h n sc k f : tidy h ->
  let '(h', o) := zeros h n sc k f in
  tidy h' /\ (o < List.length (objects h'))%nat /\ find_zero (n, sc, k, f) (zero_nodes h') = Some o /\
  (forall a, a <> (n, sc, k, f) -> find_zero a (zero_nodes h') = find_zero a (zero_nodes h)) /\
  (forall p, (p < List.length (objects h))%nat -> object h' p = object h p) /\
  (find_zero (n, sc, k, f) (zero_nodes h) = None -> object h' o = zero_tensor n sc k) /\
  (forall o', find_zero (n, sc, k, f) (zero_nodes h) = Some o' -> h' = h /\ o = o').
Proof.
  intros [T1 T2]. unfold zeros. destruct (find_zero (n, sc, k, f) (zero_nodes h)) as [o|] eqn:E.
  - split; [split; assumption|]. split; [eapply T1, find_zero_in, E|]. split; [exact E|]. split; [reflexivity|]. split; [reflexivity|].
    split; [discriminate|]. intros o' E'. split; [reflexivity|congruence].
  - cbn [objects zero_nodes]. rewrite app_length. cbn [List.length]. split; [split|].
    + cbn [objects zero_nodes]. intros a o [H|H]; [injection H as <- <-|apply T1 in H]; rewrite app_length; cbn [List.length]; lia.
    + cbn [objects zero_nodes]. intros a b o [Ha|Ha] [Hb|Hb].
      * congruence.
      * injection Ha as <- <-. apply T1 in Hb. lia.
      * injection Hb as <- <-. apply T1 in Ha. lia.
      * exact (T2 a b o Ha Hb).
    + split; [lia|]. split; [cbn [find_zero]; rewrite (proj2 (same_args_eq _ _) eq_refl); reflexivity|]. split; [|split; [|split]].
      * intros a N. cbn [find_zero]. destruct (same_args a (n, sc, k, f)) eqn:S; [apply same_args_eq in S; contradiction|reflexivity].
      * intros p Hp. unfold object. cbn [objects]. apply app_nth1, Hp.
      * intros _. unfold object. cbn [objects]. rewrite app_nth2, Nat.sub_diag by lia. reflexivity.
      * discriminate.
Qed.
Lemma combine3_zero m k n : (0 < m)%Z -> combine3 m k (repeat 0%Z n) (repeat 0%Z n) (repeat 0%Z n) = repeat 0%Z n.
Proof.
  intros Hm. unfold combine3. induction n as [|n IH]; [reflexivity|]. cbn [repeat List.combine map]. f_equal; [|exact IH].
  destruct k; [apply swrap_id; [exact Hm|]|reflexivity]. unfold in_s. pose proof (pow2_pos (m - 1) ltac:(lia)). lia.
Qed.
Lemma combine3_one m k l : (0 < m)%Z -> Forall (in_s m) l -> let z := repeat 0%Z (List.length l) in
  combine3 m k l z z = l /\ combine3 m k z z l = l /\ combine3 m k z l z = l.
Proof.
  intros Hm F z. subst z. induction F as [|x l Hx F (I1 & I2 & I3)]; [auto|]. cbn [List.length repeat].
  unfold combine3 in *. cbn [List.combine map]. rewrite I1, I2, I3.
  assert (E : swrap m (x + 0 + 0) = x /\ swrap m (0 + 0 + x) = x /\ swrap m (0 + x + 0) = x).
  { replace (x + 0 + 0)%Z with x by lia. replace (0 + 0 + x)%Z with x by lia. replace (0 + x + 0)%Z with x by lia.
    rewrite swrap_id by assumption. auto. }
  destruct E as (E1 & E2 & E3). destruct k; [rewrite E1, E2, E3; auto|].
  rewrite !Z.lxor_0_r, !Z.lxor_0_l. auto.
Qed.
Lemma holds_zero m n sc k : (0 < m)%Z -> holds m (zero_tensor n sc k) (repeat 0%Z n).
Proof. intros Hm. unfold holds, readings, zero_tensor. cbn. repeat constructor; apply combine3_zero, Hm. Qed.

(** An object some conversions may have written into: zero but for the shares [to_private] sets. *)
Definition blank (n : nat) (sc : bool) (k : sharing) (t : tensor) : Prop :=
  let z := repeat 0%Z n in t01 t = z /\ t10 t = z /\ t11 t = z /\ t20 t = z /\ kind t = k.
Lemma holds_blank m n sc k t v : (0 < m)%Z -> blank n sc k t -> t00 t = v -> t21 t = v -> List.length v = n -> Forall (in_s m) v -> holds m t v.
Proof.
  intros Hm (E1 & E2 & E3 & E4 & E5) V0 V1 L F. unfold holds, readings. rewrite E1, E2, E3, E4, E5, V0, V1. subst n.
  destruct (combine3_one m k v Hm F) as (C1 & C2 & C3). repeat constructor; assumption.
Qed.
Definition good (h : heap) : Prop :=
  tidy h /\ forall n sc k f o, find_zero (n, sc, k, f) (zero_nodes h) = Some o -> blank n sc k (object h o).
Lemma good_empty : good (Heap [] []).
Proof. split; [split; cbn; tauto|]. intros. discriminate. Qed.
Lemma tidy_find h a b o : tidy h -> find_zero a (zero_nodes h) = Some o -> find_zero b (zero_nodes h) = Some o -> a = b.
Proof. intros [_ T] Ha Hb. exact (T a b o (find_zero_in _ _ _ Ha) (find_zero_in _ _ _ Hb)). Qed.
Lemma args_dec (a b : nat * bool * sharing * Z) : {a = b} + {a <> b}.
Proof. destruct (same_args a b) eqn:E; [left; apply same_args_eq, E|right; intros H; apply same_args_eq in H; congruence]. Qed.
Lemma zeros_good h n sc k f : good h -> good (fst (zeros h n sc k f)).
Proof.
  intros [T B]. pose proof (zeros_facts h n sc k f T) as F. destruct (zeros h n sc k f) as [h' o]. cbn [fst].
  destruct F as (T' & Lo & Fo & Other & Old & New & Same). split; [exact T'|]. intros n' sc' k' f' o' H.
  destruct (args_dec (n', sc', k', f') (n, sc, k, f)) as [E|Ne].
  - injection E as -> -> -> ->. rewrite Fo in H. injection H as <-. destruct (find_zero (n, sc, k, f) (zero_nodes h)) as [o1|] eqn:E1.
    + destruct (Same o1 eq_refl) as [-> ->]. exact (B _ _ _ _ _ E1).
    + rewrite (New eq_refl). unfold blank, zero_tensor. cbn. auto 10.
  - rewrite (Other _ Ne) in H. rewrite Old; [exact (B _ _ _ _ _ H)|]. eapply T, find_zero_in, H.
Qed.
(** Writing into one object keeps the rest. *)
Lemma write_good h n sc k f o t : good h -> find_zero (n, sc, k, f) (zero_nodes h) = Some o -> blank n sc k t ->
  good (Heap (replace (objects h) o t) (zero_nodes h)).
Proof.
  intros [[T1 T2] B] Fo Bt. assert (Lo : (o < List.length (objects h))%nat) by (eapply T1, find_zero_in, Fo). split.
  - split; cbn [objects zero_nodes]; [intros a p Hp; rewrite replace_length; exact (T1 a p Hp)|exact T2].
  - cbn [zero_nodes]. intros n' sc' k' f' o' H. unfold object. cbn [objects]. rewrite replace_nth by exact Lo.
    destruct (Nat.eqb_spec o' o) as [->|Ne]; [|exact (B _ _ _ _ _ H)].
    pose proof (T2 _ _ _ (find_zero_in _ _ _ H) (find_zero_in _ _ _ Fo)) as E. injection E as -> -> -> ->. exact Bt.
Qed.
Lemma object_write h o t p : (o < List.length (objects h))%nat -> object (Heap (replace (objects h) o t) (zero_nodes h)) p = if Nat.eqb p o then t else object h p.
Proof. intros Lo. unfold object. cbn [objects]. apply replace_nth, Lo. Qed.

Lemma to_private_facts h v sc k f : good h ->
  let '(h', o) := to_private h v sc k f in
  good h' /\ (o < List.length (objects h'))%nat /\ find_zero (List.length v, sc, k, f) (zero_nodes h') = Some o /\
  (forall a, a <> (List.length v, sc, k, f) -> find_zero a (zero_nodes h') = find_zero a (zero_nodes h)) /\
  (forall p, (p < List.length (objects h))%nat -> p <> o -> object h' p = object h p) /\
  t00 (object h' o) = v /\ t21 (object h' o) = v /\
  (find_zero (List.length v, sc, k, f) (zero_nodes h) = None -> scaled (object h' o) = sc).
Proof.
  intros G. pose proof (zeros_facts h (List.length v) sc k f (proj1 G)) as F. pose proof (zeros_good h (List.length v) sc k f G) as G1.
  unfold to_private. destruct (zeros h (List.length v) sc k f) as [h1 o]. cbn [fst] in G1.
  destruct F as (T' & Lo & Fo & Other & Old & New & Same). cbv zeta.
  pose proof (proj2 G1 _ _ _ _ _ Fo) as (B1 & B2 & B3 & B4 & B5).
  split; [apply (write_good _ (List.length v) sc k f); [exact G1|exact Fo|]; unfold blank; cbn; auto 10|].
  cbn [objects zero_nodes]. rewrite replace_length. split; [exact Lo|]. split; [exact Fo|]. split; [exact Other|].
  split.
  - intros p Hp Ne. rewrite object_write by exact Lo. destruct (Nat.eqb_spec p o); [contradiction|exact (Old p Hp)].
  - rewrite object_write by exact Lo. rewrite Nat.eqb_refl. cbn. split; [reflexivity|]. split; [reflexivity|].
    intros E. rewrite (New E). reflexivity.
Qed.
Lemma sort_padding_facts h n b k f sc : good h ->
  let '(h', o) := sort_padding h n b k f sc in
  good h' /\ (o < List.length (objects h'))%nat /\ find_zero (n, false, k, f) (zero_nodes h') = Some o /\
  (forall a, a <> (n, false, k, f) -> find_zero a (zero_nodes h') = find_zero a (zero_nodes h)) /\
  (forall p, (p < List.length (objects h))%nat -> p <> o -> object h' p = object h p) /\
  t00 (object h' o) = repeat b n /\ t21 (object h' o) = repeat b n /\ scaled (object h' o) = sc.
Proof.
  intros G. pose proof (to_private_facts h (repeat b n) false k f G) as F. unfold sort_padding.
  destruct (to_private h (repeat b n) false k f) as [h1 o]. rewrite repeat_length in F. cbv zeta.
  destruct F as (G1 & Lo & Fo & Other & Old & V0 & V1 & _). pose proof (proj2 G1 _ _ _ _ _ Fo) as (B1 & B2 & B3 & B4 & B5).
  split; [apply (write_good _ n false k f); [exact G1|exact Fo|]; unfold blank; cbn; auto 10|].
  cbn [objects zero_nodes]. rewrite replace_length. split; [exact Lo|]. split; [exact Fo|]. split; [exact Other|].
  split.
  - intros p Hp Ne. rewrite object_write by exact Lo. destruct (Nat.eqb_spec p o); [contradiction|exact (Old p Hp Ne)].
  - rewrite object_write by exact Lo. rewrite Nat.eqb_refl. cbn. auto.
Qed.
Lemma do_good h o : good h -> good (do h o).
Proof.
  intros G. destruct o as [n sc k f|v sc k f|n b k f sc]; cbn [do].
  - apply zeros_good, G.
  - pose proof (to_private_facts h v sc k f G) as F. destruct (to_private h v sc k f). apply F.
  - pose proof (sort_padding_facts h n b k f sc G) as F. destruct (sort_padding h n b k f sc). apply F.
Qed.
Lemma history_good l : good (history l).
Proof.
  unfold history. generalize good_empty. generalize (Heap [] []). induction l as [|o l IH]; intros h G; [exact G|]. cbn [fold_left]. apply IH, do_good, G.
Qed.
(** An entry nobody wrote into holds the zero tensor. *)
Lemma history_clean n sc k f l : Forall (fun o => ~ writes n sc k f o) l ->
  forall o, find_zero (n, sc, k, f) (zero_nodes (history l)) = Some o -> object (history l) o = zero_tensor n sc k.
Proof.
  unfold history. intros H.
  assert (P : forall h, good h -> (forall o, find_zero (n, sc, k, f) (zero_nodes h) = Some o -> object h o = zero_tensor n sc k) ->
    forall o, find_zero (n, sc, k, f) (zero_nodes (fold_left do l h)) = Some o -> object (fold_left do l h) o = zero_tensor n sc k).
  2:{ apply P; [exact good_empty|discriminate]. }
  induction H as [|x l Hx H IH]; intros h G C; [exact C|]. cbn [fold_left]. apply IH; [apply do_good, G|]. clear IH H.
  intros o Ho. destruct x as [n' sc' k' f'|v sc' k' f'|n' b k' f' sc']; cbn [do writes] in *.
  - pose proof (zeros_facts h n' sc' k' f' (proj1 G)) as F. destruct (zeros h n' sc' k' f') as [h' o1]. cbn [fst] in Ho |- *.
    destruct F as (T' & Lo & Fo & Other & Old & New & Same). destruct (args_dec (n, sc, k, f) (n', sc', k', f')) as [E|Ne].
    + injection E as -> -> -> ->. rewrite Fo in Ho. injection Ho as <-. destruct (find_zero (n', sc', k', f') (zero_nodes h)) as [o2|] eqn:E2.
      * destruct (Same o2 eq_refl) as [-> ->]. exact (C o2 eq_refl).
      * exact (New eq_refl).
    + rewrite (Other _ Ne) in Ho. rewrite Old; [exact (C o Ho)|]. eapply (proj1 (proj1 G)), find_zero_in, Ho.
  - pose proof (to_private_facts h v sc' k' f' G) as F. destruct (to_private h v sc' k' f') as [h' o1]. cbn [fst] in Ho |- *.
    destruct F as (G' & Lo & Fo & Other & Old & _).
    assert (Ne : (n, sc, k, f) <> (List.length v, sc', k', f')) by (intros E; injection E as -> -> -> ->; apply Hx; auto).
    assert (No : o <> o1) by (intros ->; apply Ne; exact (tidy_find _ _ _ _ (proj1 G') Ho Fo)).
    rewrite (Other _ Ne) in Ho. rewrite Old; [exact (C o Ho)| |exact No]. eapply (proj1 (proj1 G)), find_zero_in, Ho.
  - pose proof (sort_padding_facts h n' b k' f' sc' G) as F. destruct (sort_padding h n' b k' f' sc') as [h' o1]. cbn [fst] in Ho |- *.
    destruct F as (G' & Lo & Fo & Other & Old & _).
    assert (Ne : (n, sc, k, f) <> (n', false, k', f')) by (intros E; injection E as -> -> -> ->; apply Hx; auto).
    assert (No : o <> o1) by (intros ->; apply Ne; exact (tidy_find _ _ _ _ (proj1 G') Ho Fo)).
    rewrite (Other _ Ne) in Ho. rewrite Old; [exact (C o Ho)| |exact No]. eapply (proj1 (proj1 G)), find_zero_in, Ho.
Qed.

(** ** Pond's own keys *)

Lemma map_KObj_inj a b : map KObj a = map KObj b -> a = b.
Proof. revert b. induction a as [|x a IH]; intros [|y b] E; try discriminate; [reflexivity|]. injection E as -> E. f_equal. apply IH, E. Qed.
Lemma map_KNum_inj (a b : list Z) : map (fun z => KNum (inject_Z z)) a = map (fun z => KNum (inject_Z z)) b -> a = b.
Proof. revert b. induction a as [|x a IH]; intros [|y b] E; try discriminate; [reflexivity|]. injection E as -> E. f_equal. apply IH, E. Qed.
Lemma pond_key_same o p : pond_key o = pond_key p <-> same_subject o p.
Proof.
  destruct o as [x ?|x ?|xs ?|x pl st d], p as [y ?|y ?|ys ?|y pl' st' d']; cbn [pond_key same_subject]; try (split; [discriminate|contradiction]).
  - split; congruence.
  - split; congruence.
  - split; [intros E; injection E as E; apply map_KObj_inj, E|intros ->; reflexivity].
  - split.
    + intros E. injection E as E1 E2 E3 E4. auto using map_KNum_inj.
    + intros (-> & -> & -> & ->). reflexivity.
Qed.
Lemma pond_get_in {V} k (t : list ((string * key) * V)) :
  match pond_get k t with Some v => In (k, v) t | None => forall v, ~ In (k, v) t end.
Proof.
  induction t as [|[k' u] t IH]; cbn [pond_get]; [intros v []|]. destruct (String.eqb (fst k) (fst k') && key_eqb (snd k) (snd k')) eqn:E.
  - apply andb_prop in E. destruct E as [E1 E2]. apply String.eqb_eq in E1. apply key_eqb_eq in E2. left. destruct k, k'. cbn in *. congruence.
  - destruct (pond_get k t) as [v|]; [right; exact IH|]. intros v [H|H]; [|exact (IH v H)]. injection H as -> _.
    rewrite String.eqb_refl, (proj2 (key_eqb_eq _ _) eq_refl) in E. discriminate.
Qed.
(** The table after the operations of [done]. *)
Definition table_of {V} (compute : pond_op -> V) (done : list pond_op) (t : list ((string * key) * V)) : Prop :=
  (forall k v, In (k, v) t -> exists o, pond_key o = k /\ v = compute o /\ forall p, pond_key p = k -> first_on done p o) /\
  (forall o, In o done -> exists v, In (pond_key o, v) t).
Lemma first_on_app l m p o : first_on l p o -> first_on (l ++ m) p o.
Proof. intros (a & b & -> & H). exists a, (b ++ m). rewrite <- app_assoc. auto. Qed.
Lemma same_subject_trans a b c : same_subject a b -> same_subject b c -> same_subject a c.
Proof. rewrite <- !pond_key_same. congruence. Qed.
Lemma pond_session_first {V} (compute : pond_op -> V) l : forall done t, table_of compute done t ->
  Forall2 (fun p v => exists o, first_on (done ++ l) p o /\ v = compute o) l (pond_session compute t l).
Proof.
  induction l as [|p l IH]; intros done t [T1 T2]; [constructor|]. cbn [pond_session]. unfold pond_call.
  pose proof (pond_get_in (pond_key p) t) as G. destruct (pond_get (pond_key p) t) as [v|].
  - destruct (T1 _ _ G) as (o & Ko & -> & Fo). constructor.
    + exists o. split; [apply first_on_app, Fo; reflexivity|reflexivity].
    + replace (done ++ p :: l) with ((done ++ [p]) ++ l) by (rewrite <- app_assoc; reflexivity). apply IH. split.
      * intros k v H. destruct (T1 _ _ H) as (o' & K' & V' & F'). exists o'. split; [exact K'|]. split; [exact V'|]. intros q Hq. apply first_on_app, F', Hq.
      * intros q Hq. apply in_app_or in Hq. destruct Hq as [Hq|[->|[]]]; [exact (T2 q Hq)|]. exists (compute o). exact G.
  - assert (N : forall q, In q done -> ~ same_subject q p).
    { intros q Hq S. destruct (T2 q Hq) as [v Hv]. apply pond_key_same in S. rewrite S in Hv. exact (G v Hv). }
    assert (Fp : forall q m, pond_key q = pond_key p -> first_on (done ++ p :: m) q p).
    { intros q m Hq. exists done, m. split; [reflexivity|]. split; [apply pond_key_same; congruence|].
      apply Forall_forall. intros r Hr S. apply (N r Hr). apply (same_subject_trans _ q); [exact S|]. apply pond_key_same, Hq. }
    constructor.
    + exists p. split; [apply Fp; reflexivity|reflexivity].
    + replace (done ++ p :: l) with ((done ++ [p]) ++ l) by (rewrite <- app_assoc; reflexivity). apply IH. split.
      * intros k v [H|H].
        -- injection H as <- <-. exists p. split; [reflexivity|]. split; [reflexivity|]. intros q Hq. apply Fp, Hq.
        -- destruct (T1 _ _ H) as (o' & K' & V' & F'). exists o'. split; [exact K'|]. split; [exact V'|]. intros q Hq. apply first_on_app, F', Hq.
      * intros q Hq. apply in_app_or in Hq. destruct Hq as [Hq|[->|[]]]; [|exists (compute q); left; reflexivity].
        destruct (T2 q Hq) as [v Hv]. exists v. right. exact Hv.
Qed.

(** ** The first result stays *)

Section Stays.
  Variables (W V : Type) (body : call -> prog W V).
  Lemma get_cons k k' r (t : cache V) : get V k ((k', r) :: t) = if node_eqb k k' then r else get V k t.
  Proof. reflexivity. Qed.
  Lemma mrun_keeps k v : forall fuel w t p w' t' r, get V k t = Some v ->
    mrun W V body fuel w t p = Some (w', t', r) -> get V k t' = Some v.
  Proof.
    induction fuel as [|fuel IH]; intros w t p w' t' r G H; [discriminate|]. cbn [mrun] in H. destruct p as [r0|f|c q].
    - injection H as <- <- <-. exact G.
    - destruct (f w) as [w1 p1]. exact (IH _ _ _ _ _ _ G H).
    - destruct (get V (node_key c) t) as [u|] eqn:E; [exact (IH _ _ _ _ _ _ G H)|].
      destruct (mrun W V body fuel w t (body c)) as [[[w1 t1] r1]|] eqn:R; [|discriminate].
      refine (IH _ _ _ _ _ _ _ H). rewrite get_cons. destruct (node_eqb k (node_key c)) eqn:N.
      + apply node_eqb_eq in N. rewrite N in G. congruence.
      + exact (IH _ _ _ _ _ _ G R).
  Qed.
  Lemma mrun_call_stores fuel w t c w' t' v : mrun W V body fuel w t (Sub c Ret) = Some (w', t', Some v) ->
    get V (node_key c) t' = Some v /\ exists f, fuel = S (S f).
  Proof.
    destruct fuel as [|[|fuel]]; cbn [mrun]; try discriminate.
    - destruct (get V (node_key c) t); discriminate.
    - intros H. split; [|eauto]. destruct (get V (node_key c) t) as [u|] eqn:E.
      + injection H as <- <- <-. exact E.
      + match type of H with match ?x with _ => _ end = _ => destruct x as [[[w1 t1] r1]|]; [|discriminate] end.
        injection H as <- <- ->. rewrite get_cons, (proj2 (node_eqb_eq _ _) eq_refl). reflexivity.
  Qed.
  Lemma session_hit fuel d v : forall mid w t w1 rs, get V (node_key d) t = Some v ->
    session W V body (S (S fuel)) w t mid = Some (w1, rs) ->
    session W V body (S (S fuel)) w t (mid ++ [(false, d)]) = Some (w1, rs ++ [Some v]).
  Proof.
    induction mid as [|[dbg c] mid IH]; intros w t w1 rs G H.
    - cbn [session] in H. injection H as <- <-. cbn [app session mrun]. rewrite G. reflexivity.
    - cbn [app]. cbn [session] in H |- *.
      match type of H with match ?x with _ => _ end = _ => destruct x as [[[w2 t2] r2]|] eqn:E; [|discriminate] end.
      destruct (session W V body (S (S fuel)) w2 t2 mid) as [[w3 rs3]|] eqn:E3; [|discriminate]. injection H as <- <-.
      rewrite (IH w2 t2 w3 rs3); [reflexivity| |exact E3]. destruct dbg.
      + destruct (run W V body (S (S fuel)) w (body c)) as [[? ?]|]; [|discriminate]. injection E as <- <- <-. exact G.
      + exact (mrun_keeps _ _ _ _ _ _ _ _ _ G E).
  Qed.
  Lemma first_stays fuel w t c d mid w1 v rs : node_key c = node_key d ->
    session W V body fuel w t ((false, c) :: mid) = Some (w1, Some v :: rs) ->
    session W V body fuel w t ((false, c) :: mid ++ [(false, d)]) = Some (w1, Some v :: rs ++ [Some v]).
  Proof.
    intros K H. cbn [session] in *.
    destruct (mrun W V body fuel w t (Sub c Ret)) as [[[w2 t2] r2]|] eqn:E; [|discriminate].
    destruct (session W V body fuel w2 t2 mid) as [[w3 rs3]|] eqn:E3; [|discriminate]. injection H as <- -> <-.
    destruct (mrun_call_stores _ _ _ _ _ _ _ E) as [G [f ->]]. rewrite K in G. rewrite (session_hit f d v mid w2 t2 w3 rs3 G E3). reflexivity.
  Qed.
End Stays.
