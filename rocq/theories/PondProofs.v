(** Lemmas about the Pond model over any lawful ring. *)
From Verif Require Import Base Factory TensorModel TensorProofs CrtModel CrtProofs PondModel PondSpec.

Section PondProofs.
Context (F : factory) (L : lawful F).
Notation MM := (fmod F).
Notation ten := (list (felt F)).
Local Notation tval := (PondSpec.tval F).
Local Notation okT := (PondSpec.okT F).
Local Notation denotes := (PondSpec.denotes F).
Local Notation yields := (PondSpec.yields F).
Local Notation rnd_ok := (PondSpec.rnd_ok F).
Local Notation supported := (PondSpec.supported F).


Lemma okT_len n x : okT n x -> length x = n. Proof. intros [H _]; exact H. Qed.
Lemma f0_wf : fwf F (f0 F). Proof. apply (law_of_wf F L). Qed.
Lemma f0_val : fval F (f0 F) = 0.
Proof. unfold f0. rewrite (law_of F L). apply Z.mod_0_l. pose proof (law_mod F L); lia. Qed.
Lemma okT_ent n x i : okT n x -> fwf F (ent i x).
Proof.
  intros [_ H]. unfold ent. destruct (Nat.lt_ge_cases i (length x)) as [Hi|Hi].
  - rewrite Forall_forall in H. apply H, nth_In; exact Hi.
  - rewrite nth_overflow by exact Hi. apply f0_wf.
Qed.
Lemma tval_range n x i : okT n x -> 0 <= tval x i < MM.
Proof. intros H. apply (law_range F L), (okT_ent n), H. Qed.
Lemma tval_mod n x i : okT n x -> tval x i mod MM = tval x i.
Proof. intros H. apply Z.mod_small, (tval_range n), H. Qed.

Lemma zip2_length {A B C} (f : A -> B -> C) x : forall y, length (zip2 f x y) = Nat.min (length x) (length y).
Proof. induction x as [|a x IH]; intros [|b y]; cbn; auto. Qed.
Lemma zip2_nth {A B C} (f : A -> B -> C) x : forall y i da db dc, (i < length x)%nat -> (i < length y)%nat ->
  nth i (zip2 f x y) dc = f (nth i x da) (nth i y db).
Proof.
  induction x as [|a x IH]; intros [|b y] i da db dc Hx Hy; cbn in *; try lia.
  destruct i; [reflexivity|]. apply IH; lia.
Qed.
Lemma zip2_Forall {A B C} (P : A -> Prop) (Q : B -> Prop) (R : C -> Prop) (f : A -> B -> C) x :
  (forall a b, P a -> Q b -> R (f a b)) -> forall y, Forall P x -> Forall Q y -> Forall R (zip2 f x y).
Proof.
  intros Hf. induction x as [|a x IH]; intros [|b y] Hx Hy; cbn; try constructor.
  - inversion Hx; inversion Hy; subst; auto.
  - inversion Hx; inversion Hy; subst; auto.
Qed.

Lemma okT_zip n (f : felt F -> felt F -> felt F) x y :
  (forall a b, fwf F a -> fwf F b -> fwf F (f a b)) -> okT n x -> okT n y -> okT n (zip2 f x y).
Proof.
  intros Hf [H1 H2] [H3 H4]. split.
  - rewrite zip2_length, H1, H3. apply Nat.min_id.
  - apply (zip2_Forall (fwf F) (fwf F)); assumption.
Qed.
Lemma okT_vadd n x y : okT n x -> okT n y -> okT n (vadd F x y).
Proof. apply okT_zip, (law_add_wf F L). Qed.
Lemma okT_vsub n x y : okT n x -> okT n y -> okT n (vsub F x y).
Proof. apply okT_zip, (law_sub_wf F L). Qed.
Lemma okT_vmul n x y : okT n x -> okT n y -> okT n (vmul F x y).
Proof. apply okT_zip, (law_mul_wf F L). Qed.
Lemma okT_map n (f : felt F -> felt F) x : (forall a, fwf F a -> fwf F (f a)) -> okT n x -> okT n (map f x).
Proof.
  intros Hf [H1 H2]. split; [rewrite map_length; exact H1|]. apply Forall_map.
  eapply Forall_impl; [|exact H2]. exact Hf.
Qed.
Lemma okT_vneg n x : okT n x -> okT n (vneg F x).
Proof. apply okT_map, (law_neg_wf F L). Qed.
Lemma okT_vconst n k : okT n (vconst F n k).
Proof.
  split; [apply repeat_length|]. apply Forall_forall. intros e H. apply repeat_spec in H. subst e.
  apply (law_of_wf F L).
Qed.
Lemma okT_vsel idx n x : okT n x -> okT (length idx) (vsel F idx x).
Proof.
  intros H. split; [apply map_length|]. apply Forall_map, Forall_forall. intros [i|] _.
  - apply (okT_ent n), H.
  - apply f0_wf.
Qed.
Lemma okT_app n m x y : okT n x -> okT m y -> okT (n + m) (x ++ y).
Proof. intros [H1 H2] [H3 H4]. split; [rewrite app_length; lia|apply Forall_app; auto]. Qed.

Lemma ent_zip (f : felt F -> felt F -> felt F) x y n i : okT n x -> okT n y -> (i < n)%nat -> ent i (zip2 f x y) = f (ent i x) (ent i y).
Proof. intros [H1 _] [H2 _] Hi. unfold ent. apply zip2_nth; lia. Qed.

Lemma tval_vadd n x y i : okT n x -> okT n y -> (i < n)%nat ->
  eqm MM (tval (vadd F x y) i) (tval x i + tval y i).
Proof.
  intros Hx Hy Hi. unfold tval, vadd. rewrite (ent_zip _ x y n i Hx Hy Hi).
  rewrite (law_add F L) by (apply (okT_ent n); assumption). apply eqm_mod_l.
Qed.
Lemma tval_vsub n x y i : okT n x -> okT n y -> (i < n)%nat ->
  eqm MM (tval (vsub F x y) i) (tval x i - tval y i).
Proof.
  intros Hx Hy Hi. unfold tval, vsub. rewrite (ent_zip _ x y n i Hx Hy Hi).
  rewrite (law_sub F L) by (apply (okT_ent n); assumption). apply eqm_mod_l.
Qed.
Lemma tval_vmul n x y i : okT n x -> okT n y -> (i < n)%nat ->
  eqm MM (tval (vmul F x y) i) (tval x i * tval y i).
Proof.
  intros Hx Hy Hi. unfold tval, vmul. rewrite (ent_zip _ x y n i Hx Hy Hi).
  rewrite (law_mul F L) by (apply (okT_ent n); assumption). apply eqm_mod_l.
Qed.
Lemma ent_map (f : felt F -> felt F) x n i : okT n x -> (i < n)%nat -> ent i (map f x) = f (ent i x).
Proof.
  intros [H _] Hi. unfold ent. rewrite (nth_indep _ (f0 F) (f (f0 F))) by (rewrite map_length; lia).
  apply map_nth.
Qed.
Lemma tval_vneg n x i : okT n x -> (i < n)%nat -> eqm MM (tval (vneg F x) i) (- tval x i).
Proof.
  intros Hx Hi. unfold tval, vneg. rewrite (ent_map _ x n i Hx Hi).
  rewrite (law_neg F L) by (apply (okT_ent n); assumption). apply eqm_mod_l.
Qed.
Lemma tval_vconst n k i : (i < n)%nat -> eqm MM (tval (vconst F n k) i) k.
Proof.
  intros Hi. unfold tval, ent, vconst. rewrite nth_indep with (d' := fof F k) by (rewrite repeat_length; exact Hi).
  rewrite nth_repeat, (law_of F L). apply eqm_mod_l.
Qed.
Lemma tval_vsel idx n x j : okT n x -> (j < length idx)%nat ->
  tval (vsel F idx x) j = zoi (nth j idx None) (tval x).
Proof.
  intros Hx Hj. unfold tval at 1, ent, vsel.
  set (g := fun o => match o with Some i => ent i x | None => f0 F end).
  rewrite (nth_indep _ (f0 F) (g None)) by (rewrite map_length; exact Hj).
  rewrite map_nth. unfold g. destruct (nth j idx None) as [i|]; [reflexivity|apply f0_val].
Qed.
Lemma tval_app n x y j : okT n x ->
  tval (x ++ y) j = if (j <? n)%nat then tval x j else tval y (j - n).
Proof.
  intros [H _]. unfold tval, ent. destruct (Nat.ltb_spec j n) as [Hj|Hj].
  - rewrite app_nth1 by lia. reflexivity.
  - rewrite app_nth2 by lia. rewrite H. reflexivity.
Qed.

(** Extensionality: well-formed tensors with the same residues are equal. *)
Lemma ten_ext n x y : okT n x -> okT n y -> (forall i, (i < n)%nat -> eqm MM (tval x i) (tval y i)) -> x = y.
Proof.
  intros Hx Hy H. apply (nth_ext x y (f0 F) (f0 F)).
  - rewrite (okT_len _ _ Hx), (okT_len _ _ Hy). reflexivity.
  - intros i Hi. rewrite (okT_len _ _ Hx) in Hi. apply (law_inj F L).
    + apply (okT_ent n x i Hx).
    + apply (okT_ent n y i Hy).
    + apply (eqm_small MM); [apply H; exact Hi|apply (tval_range n x i Hx)|apply (tval_range n y i Hy)].
Qed.

(** ** Sums and bilinear forms *)

Lemma zsum_cons a l : zsum (a :: l) = a + zsum l. Proof. reflexivity. Qed.

Lemma fold_add_ok l : Forall (fwf F) l ->
  fwf F (fold_right (fadd F) (f0 F) l) /\ eqm MM (fval F (fold_right (fadd F) (f0 F) l)) (zsum (map (fval F) l)).
Proof.
  induction 1 as [|e l He Hl [IH1 IH2]]; cbn [fold_right map].
  - split; [apply f0_wf|]. rewrite f0_val. reflexivity.
  - split; [apply (law_add_wf F L); assumption|].
    rewrite (law_add F L) by assumption. rewrite zsum_cons, <- IH2. apply eqm_mod_l.
Qed.
Lemma oent_wf n o x : okT n x -> fwf F (oent F o x).
Proof. intros H. destruct o as [i|]; cbn; [apply (okT_ent n x i H)|apply f0_wf]. Qed.
Lemma oent_val o x : fval F (oent F o x) = zoi o (tval x).
Proof. destruct o; cbn; [reflexivity|apply f0_val]. Qed.

Lemma eqm_zsum m l l' : Forall2 (eqm m) l l' -> eqm m (zsum l) (zsum l').
Proof.
  induction 1 as [|a b l l' H1 H2 IH]; [reflexivity|]. rewrite !zsum_cons, H1, IH. reflexivity.
Qed.
Lemma eqm_zsum_map {A} m (f g : A -> Z) l : (forall x, In x l -> eqm m (f x) (g x)) ->
  eqm m (zsum (map f l)) (zsum (map g l)).
Proof.
  intros H. apply eqm_zsum. induction l as [|a l IH]; cbn; constructor.
  - apply H; left; reflexivity.
  - apply IH. intros x Hx. apply H; right; exact Hx.
Qed.
Lemma zsum_map_add {A} (f g : A -> Z) l : zsum (map (fun x => f x + g x) l) = zsum (map f l) + zsum (map g l).
Proof. induction l as [|a l IH]; [reflexivity|]. cbn [map]. rewrite !zsum_cons, IH. ring. Qed.

Lemma vbil_ok tab n m p x y : okT n x -> okT m y -> tab_ok n m p tab ->
  okT p (vbil F tab x y) /\
  forall j, (j < p)%nat -> eqm MM (tval (vbil F tab x y) j) (zform (nth j tab []) (tval x) (tval y)).
Proof.
  intros Hx Hy [Hp _].
  assert (W : forall ps, Forall (fwf F) (map (fun p => fmul F (oent F (fst p) x) (oent F (snd p) y)) ps)).
  { intros ps. apply Forall_map, Forall_forall. intros q _.
    apply (law_mul_wf F L); [apply (oent_wf n)|apply (oent_wf m)]; assumption. }
  split.
  - split; [unfold vbil; rewrite map_length; exact Hp|]. apply Forall_map, Forall_forall. intros ps _.
    apply fold_add_ok, W.
  - intros j Hj. unfold tval at 1, ent, vbil.
    set (g := fun ps => fold_right (fadd F) (f0 F) (map (fun p => fmul F (oent F (fst p) x) (oent F (snd p) y)) ps)).
    rewrite (nth_indep _ (f0 F) (g [])) by (rewrite map_length; lia). rewrite map_nth. unfold g.
    rewrite (proj2 (fold_add_ok _ (W _))), map_map. unfold zform. apply eqm_zsum_map. intros q _.
    rewrite (law_mul F L) by (solve [apply (oent_wf n); assumption | apply (oent_wf m); assumption]).
    rewrite !oent_val. apply eqm_mod_l.
Qed.
Lemma vlin_ok rows n x : okT n x ->
  okT (length rows) (vlin F rows x) /\
  forall j, (j < length rows)%nat -> eqm MM (tval (vlin F rows x) j) (zrow (nth j rows []) (tval x)).
Proof.
  intros Hx.
  assert (W : forall ps, Forall (fwf F) (map (fun p => ent p x) ps)).
  { intros ps. apply Forall_map, Forall_forall. intros q _. apply (okT_ent n x q Hx). }
  split.
  - split; [apply map_length|]. apply Forall_map, Forall_forall. intros ps _. apply fold_add_ok, W.
  - intros j Hj. unfold tval at 1, ent, vlin.
    set (g := fun ps => fold_right (fadd F) (f0 F) (map (fun p => ent p x) ps)).
    rewrite (nth_indep _ (f0 F) (g [])) by (rewrite map_length; lia). rewrite map_nth. unfold g.
    rewrite (proj2 (fold_add_ok _ (W _))), map_map. reflexivity.
Qed.

Lemma bapply_ok o n m p x y : okT n x -> okT m y -> bok o n m p ->
  okT p (bapply F o x y) /\
  forall j, (j < p)%nat -> eqm MM (tval (bapply F o x y) j) (bspec o j (tval x) (tval y)).
Proof.
  destruct o as [|tab|tab]; cbn [bapply bok bspec]; intros Hx Hy Hb.
  - destruct Hb as [-> ->]. split; [apply okT_vmul; assumption|]. intros j Hj. apply (tval_vmul p); assumption.
  - apply (vbil_ok tab n m); assumption.
  - apply (vbil_ok tab n m); assumption.
Qed.

Lemma zform_eqm ps n m u u' v v' : Forall (fun q => in_rng n (fst q) /\ in_rng m (snd q)) ps ->
  (forall i, (i < n)%nat -> eqm MM (u i) (u' i)) -> (forall i, (i < m)%nat -> eqm MM (v i) (v' i)) ->
  eqm MM (zform ps u v) (zform ps u' v').
Proof.
  intros Hps Hu Hv. apply eqm_zsum_map. intros [a b] Hin. rewrite Forall_forall in Hps.
  destruct (Hps _ Hin) as [Ha Hb]. cbn [fst snd] in *.
  assert (E1 : eqm MM (zoi a u) (zoi a u')) by (destruct a; cbn in *; [apply Hu; exact Ha|reflexivity]).
  assert (E2 : eqm MM (zoi b v) (zoi b v')) by (destruct b; cbn in *; [apply Hv; exact Hb|reflexivity]).
  rewrite E1, E2. reflexivity.
Qed.
Lemma bspec_eqm o n m p u u' v v' j : bok o n m p -> (j < p)%nat ->
  (forall i, (i < n)%nat -> eqm MM (u i) (u' i)) -> (forall i, (i < m)%nat -> eqm MM (v i) (v' i)) ->
  eqm MM (bspec o j u v) (bspec o j u' v').
Proof.
  intros Hb Hj Hu Hv. destruct o as [|tab|tab]; cbn [bspec bok] in *.
  - destruct Hb as [-> ->]. rewrite (Hu j Hj), (Hv j Hj). reflexivity.
  - destruct Hb as [H1 H2]. apply (zform_eqm _ n m); try assumption.
    rewrite Forall_forall in H2. apply H2, nth_In. lia.
  - destruct Hb as [H1 H2]. apply (zform_eqm _ n m); try assumption.
    rewrite Forall_forall in H2. apply H2, nth_In. lia.
Qed.
Lemma zform_add_l ps u u' v : zform ps (fun i => u i + u' i) v = zform ps u v + zform ps u' v.
Proof.
  unfold zform. rewrite <- zsum_map_add. f_equal. apply map_ext. intros [a b]. cbn. destruct a; cbn; ring.
Qed.
Lemma zform_add_r ps u v v' : zform ps u (fun i => v i + v' i) = zform ps u v + zform ps u v'.
Proof.
  unfold zform. rewrite <- zsum_map_add. f_equal. apply map_ext. intros [a b]. cbn. destruct b; cbn; ring.
Qed.
Lemma bspec_add_l o j u u' v : bspec o j (fun i => u i + u' i) v = bspec o j u v + bspec o j u' v.
Proof. destruct o; cbn; [ring|apply zform_add_l|apply zform_add_l]. Qed.
Lemma bspec_add_r o j u v v' : bspec o j u (fun i => v i + v' i) = bspec o j u v + bspec o j u v'.
Proof. destruct o; cbn; [ring|apply zform_add_r|apply zform_add_r]. Qed.

(** ** What a protocol tensor stands for *)


Lemma denotes_scaled n t sc v : denotes n t sc v -> scaled t = sc.
Proof. destruct t; cbn; intros H; apply H. Qed.
Lemma denotes_unmasked n t sc v : denotes n t sc v -> denotes n (unmasked t) sc v.
Proof. destruct t; cbn; auto. intuition. Qed.
Lemma unmasked_cases t : (exists v0 v1 s, unmasked t = @Pub F v0 v1 s) \/ (exists s0 s1 s, unmasked t = @Priv F s0 s1 s).
Proof. destruct t; cbn; eauto 6. Qed.

Lemma mk_pub_ok n v0 v1 sc : pdev v0 = Srv0 -> pdev v1 = Srv1 -> okT n (pval v0) -> okT n (pval v1) ->
  @mk_pub F v0 v1 sc = ([], Ok (Pub v0 v1 sc)).
Proof.
  intros H1 H2 [H3 _] [H4 _]. unfold mk_pub. rewrite H1, H2, H3, H4, Nat.eqb_refl. reflexivity.
Qed.
Lemma mk_priv_ok n v0 v1 sc : pdev v0 = Srv0 -> pdev v1 = Srv1 -> okT n (pval v0) -> okT n (pval v1) ->
  @mk_priv F v0 v1 sc = ([], Ok (Priv v0 v1 sc)).
Proof.
  intros H1 H2 [H3 _] [H4 _]. unfold mk_priv. rewrite H1, H2, H3, H4, Nat.eqb_refl. reflexivity.
Qed.

(** Step through a program. *)
Ltac run := repeat first
  [ progress cbn [bind ret raise op1 op2 fresh fst snd pdev pval app unmasked scaled check_enc]
  | progress unfold check_enc | rewrite Bool.eqb_reflx ].

Lemma reveal_ok n t sc v : denotes n t sc v ->
  yields (reveal F t) (fun r => denotes n r sc v /\ exists v0 v1 s, r = Pub v0 v1 s).
Proof.
  intros H. apply denotes_unmasked in H. unfold reveal.
  destruct (unmasked_cases t) as [(v0 & v1 & s & E)|(s0 & s1 & s & E)]; rewrite E in *.
  - eexists. split; [reflexivity|]. split; [exact H|eauto].
  - cbn [denotes] in H. destruct H as (-> & D0 & D1 & W0 & W1 & H).
    unfold yields. run. rewrite (mk_pub_ok n) by (cbn; auto using okT_vadd). run.
    eexists. split; [reflexivity|]. split; [|eauto]. cbn [denotes pdev pval].
    repeat match goal with |- _ /\ _ => split end; auto using okT_vadd.
    intros i Hi. split; rewrite (tval_vadd n) by assumption; apply H; assumption.
Qed.

Ltac split_denotes := repeat match goal with H : _ /\ _ |- _ => destruct H end; subst.

(** Close a congruence between entries using the denotation hypotheses. *)
Ltac eqsolve n :=
  rewrite ?(tval_vadd n), ?(tval_vsub n), ?(tval_vneg n) by (assumption || auto using okT_vadd, okT_vsub, okT_vneg);
  repeat match goal with H : eqm MM (tval ?t ?i) (?u ?i) |- context [tval ?t ?i] => rewrite H; clear H end;
  repeat match goal with H : eqm MM (_ + _) (?u ?i) |- context [?u ?i] => rewrite <- H; clear H end;
  apply eqm_eq; ring.

Lemma add_ok n x y sc u v : denotes n x sc u -> denotes n y sc v ->
  yields (add F x y) (fun z => denotes n z sc (fun i => u i + v i)).
Proof.
  intros Hx Hy. apply denotes_unmasked in Hx. apply denotes_unmasked in Hy. unfold add.
  destruct (unmasked_cases x) as [(x0 & x1 & s & Ex)|(x0 & x1 & s & Ex)];
  destruct (unmasked_cases y) as [(y0 & y1 & s' & Ey)|(y0 & y1 & s' & Ey)];
  rewrite Ex in *; rewrite Ey in *; cbn [denotes] in Hx, Hy; split_denotes; unfold yields; run;
  (first [rewrite (mk_pub_ok n)|rewrite (mk_priv_ok n)]; [|cbn; auto using okT_vadd..]); run;
  eexists; (split; [reflexivity|]); cbn [denotes]; run;
  (split; [reflexivity|]);
  repeat match goal with |- _ /\ _ => split end; auto using okT_vadd;
  intros i Hi; run;
  repeat match goal with H : forall i, (i < n)%nat -> _ |- _ => specialize (H i Hi) end; split_denotes.
  all: try (match goal with |- _ /\ _ => split end); eqsolve n.
Qed.

Lemma sub_ok n x y sc u v : denotes n x sc u -> denotes n y sc v ->
  yields (sub F x y) (fun z => denotes n z sc (fun i => u i - v i)).
Proof.
  intros Hx Hy. apply denotes_unmasked in Hx. apply denotes_unmasked in Hy. unfold sub.
  destruct (unmasked_cases x) as [(x0 & x1 & s & Ex)|(x0 & x1 & s & Ex)];
  destruct (unmasked_cases y) as [(y0 & y1 & s' & Ey)|(y0 & y1 & s' & Ey)];
  rewrite Ex in *; rewrite Ey in *; cbn [denotes] in Hx, Hy; split_denotes; unfold yields; run;
  (first [rewrite (mk_pub_ok n)|rewrite (mk_priv_ok n)]; [|cbn; auto using okT_vsub, okT_vneg..]); run;
  eexists; (split; [reflexivity|]); cbn [denotes]; run;
  (split; [reflexivity|]);
  repeat match goal with |- _ /\ _ => split end; auto using okT_vsub, okT_vneg;
  intros i Hi; run;
  repeat match goal with H : forall i, (i < n)%nat -> _ |- _ => specialize (H i Hi) end; split_denotes.
  all: try (match goal with |- _ /\ _ => split end); eqsolve n.
Qed.

(** A local operation that is linear on residues: [g] is its specification. *)
Definition linear (f : ten -> ten) (n p : nat) (g : (nat -> Z) -> nat -> Z) : Prop :=
  (forall x, okT n x -> okT p (f x) /\ forall j, (j < p)%nat -> eqm MM (tval (f x) j) (g (tval x) j)) /\
  (forall u v j, g (fun i => u i + v i) j = g u j + g v j) /\
  (forall u v j, (j < p)%nat -> (forall i, (i < n)%nat -> eqm MM (u i) (v i)) -> eqm MM (g u j) (g v j)).

Lemma linear_ok f n p g x : linear f n p g -> okT n x -> okT p (f x).
Proof. intros [H _] Hx. apply H, Hx. Qed.
Lemma linear_val f n p g x j : linear f n p g -> okT n x -> (j < p)%nat -> eqm MM (tval (f x) j) (g (tval x) j).
Proof. intros [H _] Hx Hj. apply H; assumption. Qed.
Lemma linear_sum f n p g x y v j : linear f n p g -> okT n x -> okT n y -> (j < p)%nat ->
  (forall i, (i < n)%nat -> eqm MM (tval x i + tval y i) (v i)) ->
  eqm MM (tval (f x) j + tval (f y) j) (g v j).
Proof.
  intros HL Hx Hy Hj Hv. rewrite (linear_val f n p g x j HL Hx Hj), (linear_val f n p g y j HL Hy Hj).
  destruct HL as (_ & H2 & H3). rewrite <- H2. apply H3; assumption.
Qed.

Lemma linear_vneg n : linear (vneg F) n n (fun u j => - u j).
Proof.
  split; [|split].
  - intros x Hx. split; [apply okT_vneg; exact Hx|]. intros j Hj. apply (tval_vneg n); assumption.
  - intros; ring.
  - intros u v j Hj H. rewrite (H j Hj). reflexivity.
Qed.
Lemma linear_vsel idx n : Forall (in_rng n) idx -> linear (vsel F idx) n (length idx) (fun u j => zoi (nth j idx None) u).
Proof.
  intros HI. split; [|split].
  - intros x Hx. split; [apply (okT_vsel idx n x Hx)|]. intros j Hj. apply eqm_eq, (tval_vsel idx n); assumption.
  - intros u v j. destruct (nth j idx None); cbn; ring.
  - intros u v j Hj H. rewrite Forall_forall in HI. specialize (HI (nth j idx None) (nth_In idx None Hj)).
    destruct (nth j idx None); cbn in *; [apply H; exact HI|reflexivity].
Qed.
Lemma linear_vlin rows n : Forall (Forall (fun i => (i < n)%nat)) rows ->
  linear (vlin F rows) n (length rows) (fun u j => zrow (nth j rows []) u).
Proof.
  intros HI. split; [|split].
  - intros x Hx. apply (vlin_ok rows n x Hx).
  - intros u v j. unfold zrow. rewrite zsum_map_add. reflexivity.
  - intros u v j Hj H. unfold zrow. apply eqm_zsum_map. intros i Hi. apply H.
    rewrite Forall_forall in HI. specialize (HI _ (nth_In rows [] Hj)). rewrite Forall_forall in HI.
    apply HI, Hi.
Qed.

Ltac use_linear HL :=
  match type of HL with linear ?f ?n ?p ?g =>
    repeat match goal with |- _ /\ _ => split end; auto using (linear_ok f n p g) end.

Lemma local1_ok f n p g t sc v : linear f n p g -> denotes n t sc v -> (forall u0 u1 us a a0 a1 b0 b1 s, t <> Masked u0 u1 us a a0 a1 b0 b1 s) ->
  yields (local1 F f t) (fun z => denotes p z sc (g v)).
Proof.
  intros HL H Hm. destruct t as [v0 v1 s|s0 s1 s|]; [| |edestruct Hm; reflexivity]; cbn [denotes] in H; split_denotes;
  unfold yields, local1; run.
  - rewrite (mk_pub_ok p) by (cbn; eauto using linear_ok). run. eexists. split; [reflexivity|]. cbn [denotes]; run.
    split; [reflexivity|]. split; [reflexivity|]. split; [reflexivity|].
    split; [eauto using linear_ok|]. split; [eauto using linear_ok|].
    intros j Hj. split; rewrite (linear_val f n p g) by assumption; apply HL; try assumption; intros; apply H4; assumption.
  - rewrite (mk_priv_ok p) by (cbn; eauto using linear_ok). run. eexists. split; [reflexivity|]. cbn [denotes]; run.
    split; [reflexivity|]. split; [reflexivity|]. split; [reflexivity|].
    split; [eauto using linear_ok|]. split; [eauto using linear_ok|].
    intros j Hj. apply (linear_sum f n p g); assumption.
Qed.

Lemma reduce_ok rows n t sc v : Forall (Forall (fun i => (i < n)%nat)) rows -> denotes n t sc v ->
  yields (reduce_sum F rows t) (fun z => denotes (length rows) z sc (fun j => zrow (nth j rows []) v)).
Proof.
  intros HR H. unfold reduce_sum. apply (local1_ok _ n _ (fun u j => zrow (nth j rows []) u)).
  - apply linear_vlin; exact HR.
  - apply denotes_unmasked; exact H.
  - intros. destruct t; discriminate.
Qed.

Lemma local1_masked_ok f n p g t sc v : linear f n p g -> denotes n t sc v ->
  yields (local1_masked F f t) (fun z => denotes p z sc (g v) /\
    match t, z with Pub _ _ _, Pub _ _ _ | Priv _ _ _, Priv _ _ _
                  | Masked _ _ _ _ _ _ _ _ _, Masked _ _ _ _ _ _ _ _ _ => True | _, _ => False end).
Proof.
  intros HL H. destruct t as [v0 v1 s|s0 s1 s|u0 u1 us a a0 a1 al0 al1 s].
  - destruct (local1_ok f n p g (Pub v0 v1 s) sc v HL H ltac:(discriminate)) as (z & E & D).
    exists z. split; [exact E|]. split; [exact D|]. unfold local1 in E. revert E. run.
    unfold mk_pub. destruct (_ && _); run; intros E; inversion E; exact I.
  - destruct (local1_ok f n p g (Priv s0 s1 s) sc v HL H ltac:(discriminate)) as (z & E & D).
    exists z. split; [exact E|]. split; [exact D|]. unfold local1 in E. revert E. run.
    unfold mk_priv. destruct (_ && _); run; intros E; inversion E; exact I.
  - cbn [denotes] in H. split_denotes. unfold yields, local1_masked, local1. run.
    rewrite (mk_priv_ok p) by (cbn; eauto using linear_ok). run.
    unfold mk_masked. run. cbn [dev_eqb andb]. run. eexists. split; [reflexivity|]. split; [|exact I].
    cbn [denotes]; run.
    repeat match goal with |- _ /\ _ => split end; try reflexivity; eauto using linear_ok.
    + congruence.
    + intros j Hj. apply (linear_sum f n p g); assumption.
    + intros j Hj. rewrite (linear_sum f n p g (pval a0) (pval a1) (tval (pval a)) j) by assumption.
      symmetry. apply (linear_val f n p g); assumption.
    + intros j Hj. apply (linear_sum f n p g); assumption.
Qed.


Lemma vcat_ok idx n m x y : okT n x -> okT m y -> okT (length idx) (vcat F idx x y).
Proof. intros Hx Hy. apply (okT_vsel idx (n + m)), okT_app; assumption. Qed.
Lemma vcat_val idx n m x y j : okT n x -> okT m y -> (j < length idx)%nat ->
  tval (vcat F idx x y) j = zoi (nth j idx None) (vapp n (tval x) (tval y)).
Proof.
  intros Hx Hy Hj. unfold vcat. rewrite (tval_vsel idx (n + m)) by (try apply okT_app; assumption).
  destruct (nth j idx None) as [i|]; cbn; [|reflexivity]. unfold vapp. apply tval_app; exact Hx.
Qed.
Lemma vcat_sum idx n m x x' y y' u v j : Forall (in_rng (n + m)) idx ->
  okT n x -> okT n x' -> okT m y -> okT m y' -> (j < length idx)%nat ->
  (forall i, (i < n)%nat -> eqm MM (tval x i + tval x' i) (u i)) ->
  (forall i, (i < m)%nat -> eqm MM (tval y i + tval y' i) (v i)) ->
  eqm MM (tval (vcat F idx x y) j + tval (vcat F idx x' y') j) (zoi (nth j idx None) (vapp n u v)).
Proof.
  intros HI Hx Hx' Hy Hy' Hj Hu Hv. rewrite (vcat_val idx n m x y), (vcat_val idx n m x' y') by assumption.
  rewrite Forall_forall in HI. specialize (HI (nth j idx None) (nth_In idx None Hj)).
  destruct (nth j idx None) as [i|]; cbn in *; [|reflexivity].
  unfold vapp. destruct (Nat.ltb_spec i n); [apply Hu|apply Hv]; lia.
Qed.
Lemma vcat_eqm idx n m x y u v j : Forall (in_rng (n + m)) idx ->
  okT n x -> okT m y -> (j < length idx)%nat ->
  (forall i, (i < n)%nat -> eqm MM (tval x i) (u i)) ->
  (forall i, (i < m)%nat -> eqm MM (tval y i) (v i)) ->
  eqm MM (tval (vcat F idx x y) j) (zoi (nth j idx None) (vapp n u v)).
Proof.
  intros HI Hx Hy Hj Hu Hv. rewrite (vcat_val idx n m x y) by assumption.
  rewrite Forall_forall in HI. specialize (HI (nth j idx None) (nth_In idx None Hj)).
  destruct (nth j idx None) as [i|]; cbn in *; [|reflexivity].
  unfold vapp. destruct (Nat.ltb_spec i n); [apply Hu|apply Hv]; lia.
Qed.

Lemma stack2_ok idx n m x y sc u v : Forall (in_rng (n + m)) idx -> denotes n x sc u -> denotes m y sc v ->
  match x, y with Pub _ _ _, Pub _ _ _ | Priv _ _ _, Priv _ _ _
                | Masked _ _ _ _ _ _ _ _ _, Masked _ _ _ _ _ _ _ _ _ => True | _, _ => False end ->
  yields (stack2 F idx x y) (fun z => denotes (length idx) z sc (fun j => zoi (nth j idx None) (vapp n u v)) /\
    match x, z with Pub _ _ _, Pub _ _ _ | Priv _ _ _, Priv _ _ _
                  | Masked _ _ _ _ _ _ _ _ _, Masked _ _ _ _ _ _ _ _ _ => True | _, _ => False end).
Proof.
  intros HI Hx Hy Hk. destruct x as [x0 x1 s|x0 x1 s|u0 u1 us a a0 a1 al0 al1 s];
  destruct y as [y0 y1 s'|y0 y1 s'|w0 w1 ws b b0 b1 be0 be1 s']; try contradiction; clear Hk;
  cbn [denotes] in Hx, Hy; split_denotes; unfold yields, stack2; run.
  - rewrite (mk_pub_ok (length idx)) by (cbn; eauto using vcat_ok). run.
    eexists. split; [reflexivity|]. split; [|exact I]. cbn [denotes]; run.
    repeat match goal with |- _ /\ _ => split end; try reflexivity; eauto using vcat_ok.
    intros j Hj. split; apply (vcat_eqm idx n m); try assumption; firstorder.
  - rewrite (mk_priv_ok (length idx)) by (cbn; eauto using vcat_ok). run.
    eexists. split; [reflexivity|]. split; [|exact I]. cbn [denotes]; run.
    repeat match goal with |- _ /\ _ => split end; try reflexivity; eauto using vcat_ok.
    intros j Hj. apply (vcat_sum idx n m); assumption.
  - rewrite (mk_priv_ok (length idx)) by (cbn; eauto using vcat_ok). run.
    unfold mk_masked. run. cbn [dev_eqb andb]. run. eexists. split; [reflexivity|]. split; [|exact I].
    cbn [denotes]; run.
    repeat match goal with |- _ /\ _ => split end; try reflexivity; eauto using vcat_ok.
    + congruence.
    + intros j Hj. apply (vcat_sum idx n m); assumption.
    + intros j Hj. rewrite (vcat_val idx n m (pval a) (pval b)) by assumption. apply (vcat_sum idx n m); assumption.
    + intros j Hj. apply (vcat_sum idx n m); assumption.
Qed.

(** ** Masking and multiplication *)


Lemma mask_ok n ra0 ra1 t sc v : okT n ra0 -> okT n ra1 -> denotes n t sc v ->
  (exists s0 s1 s, t = Priv s0 s1 s) ->
  yields (mask F ra0 ra1 t) (fun z => denotes n z sc v /\ exists u0 u1 us a a0 a1 b0 b1 s, z = Masked u0 u1 us a a0 a1 b0 b1 s).
Proof.
  intros Hr0 Hr1 H (s0 & s1 & s & ->). cbn [denotes] in H. split_denotes. unfold yields, mask. run.
  unfold mk_masked. run. cbn [dev_eqb andb]. run. eexists. split; [reflexivity|]. split; [|eauto 12].
  cbn [denotes]; run.
  repeat match goal with |- _ /\ _ => split end; auto using okT_vadd, okT_vsub.
  - intros i Hi. rewrite (tval_vadd n) by assumption. reflexivity.
  - intros i Hi. rewrite !(tval_vadd n), !(tval_vsub n) by auto using okT_vsub. rewrite <- H4 by exact Hi.
    apply eqm_eq. ring.
Qed.
Lemma ensure_masked_ok n ra0 ra1 t sc v : okT n ra0 -> okT n ra1 -> denotes n t sc v ->
  (forall v0 v1 s, t <> Pub v0 v1 s) ->
  yields (ensure_masked F ra0 ra1 t) (fun z => denotes n z sc v /\ exists u0 u1 us a a0 a1 b0 b1 s, z = Masked u0 u1 us a a0 a1 b0 b1 s).
Proof.
  intros Hr0 Hr1 H Hp. destruct t; cbn [ensure_masked].
  - edestruct Hp; reflexivity.
  - apply mask_ok; eauto.
  - eexists. split; [reflexivity|]. split; [exact H|eauto 12].
Qed.

Lemma triple_share_ok p ab rho swap : okT p (pval ab) -> okT p rho ->
  exists s0 s1, snd (triple_share F ab rho swap) = Ok (s0, s1) /\ okT p (pval s0) /\ okT p (pval s1) /\
  forall j, (j < p)%nat -> eqm MM (tval (pval s0) j + tval (pval s1) j) (tval (pval ab) j).
Proof.
  intros Hab Hr. unfold triple_share. run. destruct swap; eexists; eexists; (split; [reflexivity|]); run;
  (split; [auto using okT_vsub|]); (split; [auto using okT_vsub|]); intros j Hj;
  rewrite (tval_vsub p) by assumption; apply eqm_eq; ring.
Qed.

Lemma beaver_ok o n m p x y sx sy u v rho swap : bok o n m p -> okT p rho ->
  denotes n x sx u -> denotes m y sy v ->
  (exists u0 u1 us a a0 a1 b0 b1 s, x = Masked u0 u1 us a a0 a1 b0 b1 s) ->
  (exists u0 u1 us a a0 a1 b0 b1 s, y = Masked u0 u1 us a a0 a1 b0 b1 s) ->
  yields (beaver F o x y rho swap) (fun z => denotes p z (sx || sy) (fun j => bspec o j u v) /\
    exists s0 s1 s, z = Priv s0 s1 s).
Proof.
  intros Hb Hrho Hx Hy (u0 & u1 & us & a & a0 & a1 & al0 & al1 & s & ->) (w0 & w1 & ws & b & b0 & b1 & be0 & be1 & s' & ->).
  cbn [denotes] in Hx, Hy.
  destruct Hx as (-> & _ & _ & _ & _ & _ & _ & _ & _ & _ & _ & Wa & Wa0 & Wa1 & Wal0 & Wal1 & Eal & _ & Ha & Hal).
  destruct Hy as (-> & _ & _ & _ & _ & _ & _ & _ & _ & _ & _ & Wb & Wb0 & Wb1 & Wbe0 & Wbe1 & Ebe & _ & Hb' & Hbe).
  destruct (bapply_ok o n m p (pval a) (pval b) Wa Wb Hb) as [Wab Vab].
  destruct (triple_share_ok p (MkPv Producer (bapply F o (pval a) (pval b))) rho swap Wab Hrho) as (s0 & s1 & Es & Ws0 & Ws1 & Hs).
  unfold yields, beaver, triple. run.
  destruct (triple_share F (MkPv Producer (bapply F o (pval a) (pval b))) rho swap) as [lg rs] eqn:Et.
  cbn [snd] in Es. subst rs. unfold bind at 1. run.
  pose proof (bapply_ok o n m p _ _ Wa0 Wbe0 Hb) as [W1 V1].
  pose proof (bapply_ok o n m p _ _ Wal0 Wb0 Hb) as [W2 V2].
  pose proof (bapply_ok o n m p _ _ Wal0 Wbe0 Hb) as [W3 V3].
  pose proof (bapply_ok o n m p _ _ Wa1 Wbe1 Hb) as [W4 V4].
  pose proof (bapply_ok o n m p _ _ Wal1 Wb1 Hb) as [W5 V5].
  rewrite (mk_priv_ok p) by (cbn [pdev pval]; auto 10 using okT_vadd). run.
  eexists. split; [reflexivity|]. split; [|eauto]. cbn [denotes]; run.
  repeat match goal with |- _ /\ _ => split end; auto 10 using okT_vadd.
  intros j Hj. rewrite !(tval_vadd p) by auto 10 using okT_vadd.
  rewrite V1, V2, V3, V4, V5 by exact Hj. rewrite <- Eal, <- Ebe.
  transitivity (bspec o j (fun i => tval (pval al0) i + tval (pval a) i) (fun i => tval (pval be0) i + tval (pval b) i)).
  2:{ apply (bspec_eqm o n m p); assumption. }
  rewrite bspec_add_l, !bspec_add_r.
  assert (E1 : eqm MM (bspec o j (tval (pval a0)) (tval (pval be0)) + bspec o j (tval (pval a1)) (tval (pval be0)))
                      (bspec o j (tval (pval a)) (tval (pval be0)))).
  { rewrite <- bspec_add_l. apply (bspec_eqm o n m p); try assumption. reflexivity. }
  assert (E2 : eqm MM (bspec o j (tval (pval al0)) (tval (pval b0)) + bspec o j (tval (pval al0)) (tval (pval b1)))
                      (bspec o j (tval (pval al0)) (tval (pval b)))).
  { rewrite <- bspec_add_r. apply (bspec_eqm o n m p); try assumption. reflexivity. }
  rewrite <- E1, <- E2, <- (Vab j Hj). rewrite <- (Hs j Hj). cbn [pval]. apply eqm_eq. ring.
Qed.

Lemma square_ok n x sx u rho swap : okT n rho -> denotes n x sx u ->
  (exists u0 u1 us a a0 a1 b0 b1 s, x = Masked u0 u1 us a a0 a1 b0 b1 s) ->
  yields (square_beaver F x rho swap) (fun z => denotes n z sx (fun j => u j * u j) /\ exists s0 s1 s, z = Priv s0 s1 s).
Proof.
  intros Hrho Hx (u0 & u1 & us & a & a0 & a1 & al0 & al1 & s & ->).
  cbn [denotes] in Hx.
  destruct Hx as (-> & _ & _ & _ & _ & _ & _ & _ & _ & _ & _ & Wa & Wa0 & Wa1 & Wal0 & Wal1 & Eal & _ & Ha & Hal).
  destruct (triple_share_ok n (MkPv Producer (vmul F (pval a) (pval a))) rho swap (okT_vmul _ _ _ Wa Wa) Hrho) as (s0 & s1 & Es & Ws0 & Ws1 & Hs).
  unfold yields, square_beaver. run.
  destruct (triple_share F _ rho swap) as [lg rs] eqn:Et.
  cbn [snd] in Es. subst rs. unfold bind at 1. run.
  assert (L0 : length (vmul F (pval a0) (pval al0)) = n) by (apply okT_len, okT_vmul; assumption).
  assert (L1 : length (vmul F (pval a1) (pval al1)) = n) by (apply okT_len, okT_vmul; assumption).
  rewrite L0, L1.
  rewrite (mk_priv_ok n) by (cbn [pdev pval]; auto 10 using okT_vadd, okT_vmul, okT_vconst). run.
  eexists. split; [reflexivity|]. split; [|eauto]. cbn [denotes]; run.
  repeat match goal with |- _ /\ _ => split end; auto 10 using okT_vadd, okT_vmul, okT_vconst.
  intros j Hj. rewrite !(tval_vadd n), !(tval_vmul n), !(tval_vconst n) by auto 10 using okT_vadd, okT_vmul, okT_vconst.
  rewrite <- Eal. rewrite <- (Hal j Hj).
  pose proof (Hs j Hj) as E. cbn [pval] in E. rewrite (tval_vmul n) in E by assumption.
  rewrite <- (Ha j Hj) in E at 1 2 || idtac.
  transitivity ((tval (pval s0) j + tval (pval s1) j) + 2 * ((tval (pval a0) j + tval (pval a1) j) * tval (pval al0) j) + tval (pval al0) j * tval (pval al0) j);
    [apply eqm_eq; ring|].
  rewrite E, !(Ha j Hj). apply eqm_eq. ring.
Qed.


Lemma pub_pub_ok o n m p x0 x1 sx y0 y1 sy sx' sy' u v : bok o n m p ->
  denotes n (Pub x0 x1 sx) sx' u -> denotes m (Pub y0 y1 sy) sy' v ->
  denotes p (Pub (MkPv Srv0 (bapply F o (pval x0) (pval y0))) (MkPv Srv1 (bapply F o (pval x1) (pval y1))) (sx || sy)) (sx' || sy')
    (fun j => bspec o j u v).
Proof.
  intros Hb (-> & _ & _ & A1 & A2 & A3) (-> & _ & _ & B1 & B2 & B3). cbn [denotes]; run.
  destruct (bapply_ok o n m p _ _ A1 B1 Hb) as [W1 V1]. destruct (bapply_ok o n m p _ _ A2 B2 Hb) as [W2 V2].
  repeat match goal with |- _ /\ _ => split end; try reflexivity; try assumption.
  intros j Hj. rewrite V1, V2 by exact Hj. split; apply (bspec_eqm o n m p); try assumption; firstorder.
Qed.
Lemma pub_priv_ok o n m p x0 x1 sx y0 y1 sy sx' sy' u v : bok o n m p ->
  denotes n (Pub x0 x1 sx) sx' u -> denotes m (Priv y0 y1 sy) sy' v ->
  denotes p (Priv (MkPv Srv0 (bapply F o (pval x0) (pval y0))) (MkPv Srv1 (bapply F o (pval x1) (pval y1))) (sx || sy)) (sx' || sy')
    (fun j => bspec o j u v).
Proof.
  intros Hb (-> & _ & _ & A1 & A2 & A3) (-> & _ & _ & B1 & B2 & B3). cbn [denotes]; run.
  destruct (bapply_ok o n m p _ _ A1 B1 Hb) as [W1 V1]. destruct (bapply_ok o n m p _ _ A2 B2 Hb) as [W2 V2].
  repeat match goal with |- _ /\ _ => split end; try reflexivity; try assumption.
  intros j Hj. rewrite V1, V2 by exact Hj.
  rewrite (bspec_eqm o n m p (tval (pval x0)) u (tval (pval y0)) (tval (pval y0)) j) by (try assumption; firstorder; reflexivity).
  rewrite (bspec_eqm o n m p (tval (pval x1)) u (tval (pval y1)) (tval (pval y1)) j) by (try assumption; firstorder; reflexivity).
  rewrite <- bspec_add_r. apply (bspec_eqm o n m p); try assumption. reflexivity.
Qed.
Lemma priv_pub_ok o n m p x0 x1 sx y0 y1 sy sx' sy' u v : bok o n m p ->
  denotes n (Priv x0 x1 sx) sx' u -> denotes m (Pub y0 y1 sy) sy' v ->
  denotes p (Priv (MkPv Srv0 (bapply F o (pval x0) (pval y0))) (MkPv Srv1 (bapply F o (pval x1) (pval y1))) (sx || sy)) (sx' || sy')
    (fun j => bspec o j u v).
Proof.
  intros Hb (-> & _ & _ & A1 & A2 & A3) (-> & _ & _ & B1 & B2 & B3). cbn [denotes]; run.
  destruct (bapply_ok o n m p _ _ A1 B1 Hb) as [W1 V1]. destruct (bapply_ok o n m p _ _ A2 B2 Hb) as [W2 V2].
  repeat match goal with |- _ /\ _ => split end; try reflexivity; try assumption.
  intros j Hj. rewrite V1, V2 by exact Hj.
  rewrite (bspec_eqm o n m p (tval (pval x0)) (tval (pval x0)) (tval (pval y0)) v j) by (try assumption; firstorder; reflexivity).
  rewrite (bspec_eqm o n m p (tval (pval x1)) (tval (pval x1)) (tval (pval y1)) v j) by (try assumption; firstorder; reflexivity).
  rewrite <- bspec_add_l. apply (bspec_eqm o n m p); try assumption. reflexivity.
Qed.

Lemma denotes_pub_ok n v0 v1 s sc v : denotes n (Pub v0 v1 s) sc v -> @mk_pub F v0 v1 s = ([], Ok (Pub v0 v1 s)).
Proof. intros (_ & D0 & D1 & W0 & W1 & _). apply (mk_pub_ok n); assumption. Qed.
Lemma denotes_priv_ok n v0 v1 s sc v : denotes n (Priv v0 v1 s) sc v -> @mk_priv F v0 v1 s = ([], Ok (Priv v0 v1 s)).
Proof. intros (_ & D0 & D1 & W0 & W1 & _). apply (mk_priv_ok n); assumption. Qed.

Lemma bind_ok {A B} (m : M F A) (k : A -> M F B) a : snd m = Ok a -> snd (bind m k) = snd (k a).
Proof. intros H. unfold bind. rewrite H. reflexivity. Qed.
Lemma bind_yields {A B} (m : M F A) (k : A -> M F B) (P : A -> Prop) (Q : B -> Prop) :
  yields m P -> (forall a, P a -> yields (k a) Q) -> yields (bind m k) Q.
Proof.
  intros (a & E & HP) Hk. destruct (Hk a HP) as (b & E' & HQ). exists b. split; [|exact HQ].
  rewrite (bind_ok m k a E). exact E'.
Qed.

(** The visibility of a product: public when both operands are, private otherwise. *)
Definition prodkind (x y z : ptensor F) : Prop :=
  match x, y, z with
  | Pub _ _ _, Pub _ _ _, Pub _ _ _ => True
  | Pub _ _ _, Pub _ _ _, _ => False
  | _, _, Priv _ _ _ => True
  | _, _, _ => False
  end.
Lemma product_ok o n m p r x y sx sy u v : bok o n m p -> rnd_ok r n m p -> supported o x y ->
  denotes n x sx u -> denotes m y sy v ->
  yields (product F o r x y) (fun z => denotes p z (sx || sy) (fun j => bspec o j u v) /\
    prodkind x y z).
Proof.
  intros Hb (R1 & R2 & R3 & R4 & R5 & _) Hs Hx Hy.
  assert (BV : forall mx my, denotes n mx sx u -> denotes m my sy v ->
    (forall v0 v1 s, mx <> Pub v0 v1 s) -> (forall v0 v1 s, my <> Pub v0 v1 s) ->
    yields (bind (ensure_masked F (rx0 F r) (rx1 F r) mx) (fun mx => bind (ensure_masked F (ry0 F r) (ry1 F r) my)
      (fun my => beaver F o mx my (rrho F r) (rswap F r))))
    (fun z => denotes p z (sx || sy) (fun j => bspec o j u v) /\ exists s0 s1 s, z = Priv s0 s1 s)).
  { intros mx my Dx Dy Px Py.
    eapply bind_yields; [apply (ensure_masked_ok n _ _ mx sx u); assumption|].
    intros mx' [Dx' Mx]. eapply bind_yields; [apply (ensure_masked_ok m _ _ my sy v); assumption|].
    intros my' [Dy' My].
    destruct (beaver_ok o n m p mx' my' sx sy u v (rrho F r) (rswap F r) Hb R5 Dx' Dy' Mx My) as (z & E & Dz & s0 & s1 & s & ->).
    exists (Priv s0 s1 s). split; [exact E|]. split; [exact Dz|]. eauto. }
  destruct x as [x0 x1 bx|x0 x1 bx|u0 u1 us a a0 a1 al0 al1 bx]; destruct y as [y0 y1 by_|y0 y1 by_|w0 w1 ws b b0 b1 be0 be1 by_].
  - pose proof (pub_pub_ok o n m p _ _ _ _ _ _ _ _ _ _ Hb Hx Hy) as D. unfold yields, product. run.
    rewrite (denotes_pub_ok _ _ _ _ _ _ D). run. eexists. split; [reflexivity|]. split; [exact D|exact I].
  - pose proof (pub_priv_ok o n m p _ _ _ _ _ _ _ _ _ _ Hb Hx Hy) as D. unfold yields, product, mul_pub_priv. run.
    destruct o; try (cbn in Hs; contradiction); run; rewrite (denotes_priv_ok _ _ _ _ _ _ D); run;
    (eexists; split; [reflexivity|]; split; [exact D|exact I]).
  - pose proof (denotes_unmasked _ _ _ _ Hy) as Hu. cbn [unmasked] in Hu.
    pose proof (pub_priv_ok o n m p _ _ _ _ _ _ _ _ _ _ Hb Hx Hu) as D. unfold yields, product, mul_pub_priv. run.
    destruct o; try (cbn in Hs; contradiction); run; rewrite (denotes_priv_ok _ _ _ _ _ _ D); run;
    (eexists; split; [reflexivity|]; split; [exact D|exact I]).
  - pose proof (priv_pub_ok o n m p _ _ _ _ _ _ _ _ _ _ Hb Hx Hy) as D. unfold yields, product, mul_priv_pub. run.
    destruct o; try (cbn in Hs; contradiction); run; rewrite (denotes_priv_ok _ _ _ _ _ _ D); run;
    (eexists; split; [reflexivity|]; split; [exact D|exact I]).
  - destruct (BV (Priv x0 x1 bx) (Priv y0 y1 by_)) as (z & E & Dz & s0 & s1 & s & ->); try assumption; try (intros; discriminate).
    exists (Priv s0 s1 s). split; [exact E|]. split; [exact Dz|exact I].
  - destruct (BV (Priv x0 x1 bx) (Masked w0 w1 ws b b0 b1 be0 be1 by_)) as (z & E & Dz & s0 & s1 & s & ->); try assumption; try (intros; discriminate).
    exists (Priv s0 s1 s). split; [exact E|]. split; [exact Dz|exact I].
  - pose proof (denotes_unmasked _ _ _ _ Hx) as Hu. cbn [unmasked] in Hu.
    pose proof (priv_pub_ok o n m p _ _ _ _ _ _ _ _ _ _ Hb Hu Hy) as D. unfold yields, product, mul_priv_pub. run.
    destruct o; try (cbn in Hs; contradiction); run; rewrite (denotes_priv_ok _ _ _ _ _ _ D); run;
    (eexists; split; [reflexivity|]; split; [exact D|exact I]).
  - destruct (BV (Masked u0 u1 us a a0 a1 al0 al1 bx) (Priv y0 y1 by_)) as (z & E & Dz & s0 & s1 & s & ->); try assumption; try (intros; discriminate).
    exists (Priv s0 s1 s). split; [exact E|]. split; [exact Dz|exact I].
  - destruct (BV (Masked u0 u1 us a a0 a1 al0 al1 bx) (Masked w0 w1 ws b b0 b1 be0 be1 by_)) as (z & E & Dz & s0 & s1 & s & ->); try assumption; try (intros; discriminate).
    exists (Priv s0 s1 s). split; [exact E|]. split; [exact Dz|exact I].
Qed.

End PondProofs.
