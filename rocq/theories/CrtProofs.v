(** Lemmas about CrtModel. *)
From Coq Require Import Znumtheory Zpow_facts ZifyBool.
From Verif Require Import Base Factory TensorModel TensorProofs CrtModel.

(** The condition under which a CRT factory is usable: the assertion at int100.py 43-44 and
    pairwise coprime moduli. *)
Definition crt_ok (ms : list Z) : Prop :=
  ms <> [] /\ Forall (fun m => 1 < m) ms /\ crt_assert ms = true /\
  ForallOrdPairs (fun a b => Z.gcd a b = 1) ms.

Lemma int100_ok : crt_ok int100_moduli.
Proof.
  repeat split; try (vm_compute; congruence).
  - repeat constructor; lia.
  - repeat constructor.
Qed.

Lemma crt_ok_each ms : crt_ok ms -> Forall (fun m => 1 < m /\ m * m * 1024 < 2 ^ 31 - 1) ms.
Proof.
  intros (_ & H & A & _). unfold crt_assert in A. rewrite forallb_forall in A.
  rewrite Forall_forall in *. intros m Hm. specialize (H m Hm). specialize (A m Hm). lia.
Qed.

Lemma prodZ_cons m l : prodZ (m :: l) = m * prodZ l. Proof. reflexivity. Qed.
Lemma prodZ_pos ms : Forall (fun m => 1 < m) ms -> 0 < prodZ ms.
Proof. induction 1 as [|m l Hm _ IH]; [reflexivity|]. rewrite prodZ_cons. apply Z.mul_pos_pos; lia. Qed.
Lemma prodZ_app a b : prodZ (a ++ b) = prodZ a * prodZ b.
Proof.
  induction a as [|x a IH]; cbn [app]; [change (prodZ []) with 1; ring|].
  rewrite !prodZ_cons, IH. ring.
Qed.

Lemma gcd_prod m l : Forall (fun a => Z.gcd m a = 1) l -> Z.gcd m (prodZ l) = 1.
Proof.
  induction 1 as [|a l H _ IH]; cbn; [apply Z.gcd_1_r|]. fold (prodZ l).
  apply Zgcd_1_rel_prime. apply Zgcd_1_rel_prime in H, IH. apply rel_prime_mult; assumption.
Qed.

Lemma FOP_app {A} (R : A -> A -> Prop) l1 l2 :
  ForallOrdPairs R (l1 ++ l2) <->
  ForallOrdPairs R l1 /\ ForallOrdPairs R l2 /\ (forall a b, In a l1 -> In b l2 -> R a b).
Proof.
  induction l1 as [|x l1 IH]; cbn.
  - split; [intros H; repeat split; auto; [constructor|tauto]|tauto].
  - split.
    + intros H. inversion H as [|? ? H1 H2]; subst. apply IH in H2. destruct H2 as (F1 & F2 & F3).
      rewrite Forall_app in H1. destruct H1 as [H1 H1']. repeat split; [constructor; auto|auto|].
      intros a b [->|Ha] Hb; [rewrite Forall_forall in H1'; auto|auto].
    + intros (F1 & F2 & F3). inversion F1; subst. constructor.
      * rewrite Forall_app; split; [assumption|]. rewrite Forall_forall; auto.
      * apply IH; repeat split; auto.
Qed.

Lemma crt_split_coprime ms l1 m l2 : crt_ok ms -> ms = l1 ++ m :: l2 ->
  prodZ ms / m = prodZ l1 * prodZ l2 /\ Z.gcd (prodZ ms / m) m = 1.
Proof.
  intros (_ & H1 & _ & H) ->.
  assert (Hm : 1 < m) by (rewrite Forall_app in H1; destruct H1 as [_ H1]; inversion H1; assumption).
  assert (E : prodZ (l1 ++ m :: l2) / m = prodZ l1 * prodZ l2).
  { rewrite prodZ_app. cbn. fold (prodZ l2).
    replace (prodZ l1 * (m * prodZ l2)) with ((prodZ l1 * prodZ l2) * m) by ring. apply Z.div_mul; lia. }
  split; [exact E|]. rewrite E, <- prodZ_app, Z.gcd_comm. apply gcd_prod.
  apply FOP_app in H. destruct H as (_ & H & H'). inversion H as [|? ? H2 _]; subst.
  rewrite Forall_app; split; [|exact H2]. rewrite Forall_forall. intros a Ha.
  rewrite Z.gcd_comm. apply H'; [assumption|now left].
Qed.

Lemma in_prod_divide m l : In m l -> (m | prodZ l).
Proof.
  induction l as [|a l IH]; cbn; [tauto|]. fold (prodZ l). intros [->|H].
  - exists (prodZ l). ring.
  - apply Z.divide_mul_r. auto.
Qed.

(** CRT uniqueness. *)
Lemma crt_unique ms a b : crt_ok ms -> (crt_decompose ms a = crt_decompose ms b <-> eqm (prodZ ms) a b).
Proof.
  intros (_ & H1 & _ & H). revert H1 H. induction ms as [|m ms IH]; intros H1 H; cbn.
  - split; [intros _; unfold eqm; rewrite !Z.mod_1_r; reflexivity|reflexivity].
  - fold (prodZ ms). inversion H1; subst. inversion H as [|? ? G1 G2]; subst.
    specialize (IH H4 G2). pose proof (prodZ_pos ms H4) as HP.
    split.
    + intros E. injection E as E1 E2. apply IH in E2.
      apply eqm_exists in E2; [|lia]. destruct E2 as [k Hk].
      assert (D1 : (m | k * prodZ ms)).
      { apply Z.mod_divide; [lia|]. replace (k * prodZ ms) with (a - b) by lia.
        rewrite Zminus_mod, E1, Z.sub_diag. apply Z.mod_0_l; lia. }
      assert (D2 : (m | k)).
      { apply (Z.gauss m (prodZ ms)); [rewrite Z.mul_comm; exact D1|]. apply gcd_prod; exact G1. }
      destruct D2 as [j ->]. apply eqm_exists; [nia|]. exists j. rewrite Hk. ring.
    + intros E. apply eqm_exists in E; [|nia]. destruct E as [k Hk]. f_equal.
      * change (eqm m a b). apply eqm_exists; [lia|]. exists (k * prodZ ms). rewrite Hk; ring.
      * apply IH. apply eqm_exists; [lia|]. exists (k * m). rewrite Hk; ring.
Qed.

Lemma crt_dec_wf ms v : Forall (fun m => 1 < m) ms -> crt_wf ms (crt_decompose ms v).
Proof.
  induction 1; cbn; constructor; [apply Z.mod_pos_bound; lia|assumption].
Qed.

(** Operations on decompositions. *)
Lemma small32 z : - 2 ^ 31 <= z < 2 ^ 31 -> swrap 32 z = z.
Proof. intros. apply swrap_id; [lia|exact H]. Qed.

Lemma crt_add_dec ms a b : crt_ok ms ->
  crt_add ms (crt_decompose ms a) (crt_decompose ms b) = crt_decompose ms (a + b).
Proof.
  intros Hok. apply crt_ok_each in Hok. unfold crt_add. induction Hok as [|m ms [Hm Hm'] _ IH]; cbn; [reflexivity|].
  f_equal; [|exact IH].
  pose proof (Z.mod_pos_bound a m ltac:(lia)). pose proof (Z.mod_pos_bound b m ltac:(lia)).
  rewrite small32 by nia. symmetry. apply Zplus_mod.
Qed.
Lemma crt_sub_dec ms a b : crt_ok ms ->
  crt_sub ms (crt_decompose ms a) (crt_decompose ms b) = crt_decompose ms (a - b).
Proof.
  intros Hok. apply crt_ok_each in Hok. unfold crt_sub. induction Hok as [|m ms [Hm Hm'] _ IH]; cbn; [reflexivity|].
  f_equal; [|exact IH].
  pose proof (Z.mod_pos_bound a m ltac:(lia)). pose proof (Z.mod_pos_bound b m ltac:(lia)).
  rewrite small32 by nia. symmetry. apply Zminus_mod.
Qed.
Lemma crt_mul_dec ms a b : crt_ok ms ->
  crt_mul ms (crt_decompose ms a) (crt_decompose ms b) = crt_decompose ms (a * b).
Proof.
  intros Hok. apply crt_ok_each in Hok. unfold crt_mul. induction Hok as [|m ms [Hm Hm'] _ IH]; cbn; [reflexivity|].
  f_equal; [|exact IH].
  pose proof (Z.mod_pos_bound a m ltac:(lia)). pose proof (Z.mod_pos_bound b m ltac:(lia)).
  rewrite small32 by nia. symmetry. apply Zmult_mod.
Qed.
Lemma crt_neg_dec ms a : crt_ok ms -> crt_neg ms (crt_decompose ms a) = crt_decompose ms (- a).
Proof.
  intros Hok. apply crt_ok_each in Hok. unfold crt_neg. induction Hok as [|m ms [Hm Hm'] _ IH]; cbn; [reflexivity|].
  f_equal; [|exact IH].
  pose proof (Z.mod_pos_bound a m ltac:(lia)).
  rewrite small32 by nia. change (eqm m (- (a mod m)) (- a)). rewrite eqm_mod_l. reflexivity.
Qed.

(** Lagrange recombination. *)
Lemma sequence_map_some {A B} (f : A -> option B) g l : (forall a, In a l -> f a = Some (g a)) ->
  sequence (map f l) = Some (map g l).
Proof.
  induction l as [|a l IH]; cbn; [reflexivity|]. intros H. rewrite (H a) by now left.
  rewrite IH; [reflexivity|]. intros; apply H; now right.
Qed.

Definition inv0 (a m : Z) : Z := match inverse a m with Some i => i | None => 0 end.

Lemma inv0_spec ms m : crt_ok ms -> In m ms ->
  inverse (prodZ ms / m) m = Some (inv0 (prodZ ms / m) m) /\
  0 <= inv0 (prodZ ms / m) m < m /\ eqm m (prodZ ms / m * inv0 (prodZ ms / m) m) 1.
Proof.
  intros Hok Hin. destruct (in_split _ _ Hin) as (l1 & l2 & E).
  destruct (crt_split_coprime ms l1 m l2 Hok E) as [E1 E2].
  assert (Hm : 1 < m) by (destruct Hok as (_ & F & _); rewrite Forall_forall in F; auto).
  assert (HP : 0 <= prodZ ms / m).
  { apply Z.div_pos; [|lia]. destruct Hok as (_ & F & _). pose proof (prodZ_pos ms F). lia. }
  unfold inv0. destruct (inverse (prodZ ms / m) m) as [i|] eqn:Ei.
  - destruct (inverse_sound (prodZ ms / m) m i HP ltac:(lia) Ei) as [A B].
    split; [reflexivity|]. split; [exact A|exact B].
  - apply inverse_none in Ei; [|lia|lia]. contradiction.
Qed.

Definition lam ms m := (prodZ ms / m * inv0 (prodZ ms / m) m) mod prodZ ms.

Lemma crt_lambdas_eq ms : crt_ok ms -> crt_lambdas ms = Some (map (lam ms) ms).
Proof.
  intros Hok. unfold crt_lambdas. apply sequence_map_some. intros m Hm. cbn.
  destruct (inv0_spec ms m Hok Hm) as [-> _]. reflexivity.
Qed.

Lemma eqm_divide m n a b : m <> 0 -> n <> 0 -> (m | n) -> eqm n a b -> eqm m a b.
Proof.
  intros Hm Hn [c ->] H. apply eqm_exists in H; [|exact Hn]. destruct H as [k ->].
  apply eqm_exists; [exact Hm|]. exists (k * c). ring.
Qed.

Lemma lam_self ms m : crt_ok ms -> In m ms -> eqm m (lam ms m) 1.
Proof.
  intros Hok Hm. destruct (inv0_spec ms m Hok Hm) as (_ & _ & E). destruct Hok as (_ & F & _).
  pose proof (prodZ_pos ms F). rewrite Forall_forall in F. specialize (F m Hm).
  rewrite <- E. unfold lam. apply (eqm_divide m (prodZ ms)); [lia|lia|apply in_prod_divide; assumption|].
  apply eqm_mod_l.
Qed.

Lemma lam_other ms l1 m l2 m' : crt_ok ms -> ms = l1 ++ m :: l2 -> In m' (l1 ++ l2) -> eqm m' (lam ms m) 0.
Proof.
  intros Hok E Hin. destruct (crt_split_coprime ms l1 m l2 Hok E) as [E1 _].
  assert (Hin' : In m' ms) by (rewrite E; rewrite in_app_iff in *; cbn; tauto).
  destruct Hok as (_ & F & _). pose proof (prodZ_pos ms F). rewrite Forall_forall in F. pose proof (F m' Hin').
  transitivity (prodZ ms / m * inv0 (prodZ ms / m) m).
  { apply (eqm_divide m' (prodZ ms)); [lia|lia|apply in_prod_divide; assumption|]. apply eqm_mod_l. }
  rewrite E1, <- prodZ_app. apply in_prod_divide in Hin. destruct Hin as [c ->].
  apply eqm_exists; [lia|]. exists (c * inv0 (c * m') m). ring.
Qed.

Lemma zsum_zip_zero m : m <> 0 -> forall x ls, Forall (fun l => eqm m l 0) ls -> eqm m (zsum (zip2 Z.mul x ls)) 0.
Proof.
  intros Hm. induction x as [|a x IH]; intros [|l ls] H; cbn; try reflexivity.
  inversion H; subst. fold (zsum (zip2 Z.mul x ls)). rewrite (IH ls) by assumption. rewrite H2.
  apply eqm_eq; ring.
Qed.

Lemma zsum_zip_app m x1 x2 l1 l2 : length x1 = length l1 ->
  eqm m (zsum (zip2 Z.mul (x1 ++ x2) (l1 ++ l2))) (zsum (zip2 Z.mul x1 l1) + zsum (zip2 Z.mul x2 l2)).
Proof.
  revert l1. induction x1 as [|a x1 IH]; intros [|l l1] H; cbn in *; try discriminate; [reflexivity|].
  fold (zsum (zip2 Z.mul (x1 ++ x2) (l1 ++ l2))) (zsum (zip2 Z.mul x1 l1)).
  rewrite IH by lia. apply eqm_eq; ring.
Qed.

Lemma lagrange_residue ms x1 a x2 m1 m m2 : crt_ok ms -> ms = m1 ++ m :: m2 -> length x1 = length m1 ->
  eqm m (zsum (zip2 Z.mul (x1 ++ a :: x2) (map (lam ms) ms))) a.
Proof.
  intros Hok E L.
  assert (Hin : In m ms) by (rewrite E; apply in_elt).
  assert (Hm : 1 < m) by (destruct Hok as (_ & F & _); rewrite Forall_forall in F; auto).
  replace (map (lam ms) ms) with (map (lam ms) m1 ++ map (lam ms) (m :: m2)) by (rewrite <- map_app, <- E; reflexivity).
  rewrite zsum_zip_app by (rewrite map_length; exact L).
  cbn [map zip2]. unfold zsum at 2. cbn [fold_right]. fold (zsum (zip2 Z.mul x2 (map (lam ms) m2))).
  assert (Hz : forall l, incl l (m1 ++ m2) -> Forall (fun l => eqm m l 0) (map (lam ms) l)).
  { intros l Hl. apply Forall_forall. intros y Hy. apply in_map_iff in Hy. destruct Hy as (m' & <- & Hm').
    apply Hl in Hm'. apply in_app_iff in Hm'.
    destruct Hm' as [Hm'|Hm']; destruct (in_split _ _ Hm') as (p & q & Ep).
    - apply (lam_other ms p m' (q ++ m :: m2)); [exact Hok|rewrite E, Ep, <- app_assoc; reflexivity|].
      rewrite !in_app_iff; cbn; auto.
    - apply (lam_other ms (m1 ++ m :: p) m' q); [exact Hok|rewrite E, Ep, <- app_assoc; reflexivity|].
      rewrite !in_app_iff; cbn; auto. }
  rewrite (zsum_zip_zero m ltac:(lia) x1 _ (Hz m1 ltac:(intros z; rewrite in_app_iff; auto))).
  rewrite (zsum_zip_zero m ltac:(lia) x2 _ (Hz m2 ltac:(intros z; rewrite in_app_iff; auto))).
  rewrite (lam_self ms m Hok Hin). apply eqm_eq; ring.
Qed.

Lemma crt_wf_length ms x : crt_wf ms x -> length x = length ms.
Proof. induction 1; cbn; congruence. Qed.

Lemma crt_lagrange_dec_wf ms x : crt_ok ms -> crt_wf ms x ->
  x = crt_decompose ms (zsum (zip2 Z.mul x (map (lam ms) ms))).
Proof.
  intros Hok Hwf.
  assert (G : forall x1 x2 m1 m2, x = x1 ++ x2 -> ms = m1 ++ m2 -> length x1 = length m1 -> crt_wf m2 x2 ->
     x2 = crt_decompose m2 (zsum (zip2 Z.mul x (map (lam ms) ms)))).
  { intros x1 x2 m1 m2 Ex Em L W. revert x1 m1 Ex Em L. induction W as [|a m x2 m2 Ha W IH]; intros; cbn; [reflexivity|].
    f_equal.
    - rewrite Ex. pose proof (lagrange_residue ms x1 a x2 m1 m m2 Hok Em L) as G. unfold eqm in G.
      rewrite G. symmetry; apply Z.mod_small; assumption.
    - apply (IH (x1 ++ [a]) (m1 ++ [m])); rewrite <- ?app_assoc; auto. rewrite !app_length; cbn; lia. }
  apply (G [] x [] ms); auto.
Qed.

Lemma crt_exists ms x : crt_ok ms -> crt_wf ms x ->
  exists v, 0 <= v < prodZ ms /\ x = crt_decompose ms v /\ crt_lagrange ms x = Some v.
Proof.
  intros Hok Hwf. pose proof (crt_lagrange_dec_wf ms x Hok Hwf) as E.
  pose proof Hok as (_ & F & _). pose proof (prodZ_pos ms F).
  exists (zsum (zip2 Z.mul x (map (lam ms) ms)) mod prodZ ms). repeat split.
  - apply Z.mod_pos_bound; lia.
  - apply Z.mod_pos_bound; lia.
  - rewrite E at 1. apply crt_unique; [exact Hok|]. symmetry. apply eqm_mod_l.
  - unfold crt_lagrange. rewrite crt_lambdas_eq by exact Hok. reflexivity.
Qed.

Lemma crt_lagrange_dec ms v : crt_ok ms -> crt_lagrange ms (crt_decompose ms v) = Some (v mod prodZ ms).
Proof.
  intros Hok. pose proof Hok as (_ & F & _). pose proof (prodZ_pos ms F).
  destruct (crt_exists ms (crt_decompose ms v) Hok (crt_dec_wf ms v F)) as (w & Hw & E & ->).
  f_equal. apply crt_unique in E; [|exact Hok]. unfold eqm in E. rewrite E. symmetry. apply Z.mod_small; exact Hw.
Qed.

Lemma lawful_crt ms : crt_ok ms -> lawful (crt_factory ms).
Proof.
  intros Hok. pose proof Hok as (_ & F & _). pose proof (prodZ_pos ms F) as HP.
  assert (X : forall x, crt_wf ms x -> exists v, 0 <= v < prodZ ms /\ x = crt_decompose ms v)
    by (intros x Hx; destruct (crt_exists ms x Hok Hx) as (v & A & B & _); eauto).
  assert (D : forall v, crt_wf ms (crt_decompose ms v)) by (intros; apply crt_dec_wf; exact F).
  constructor; cbn.
  - exact HP.
  - intros x Hx. destruct (X x Hx) as (v & Hv & ->). rewrite crt_lagrange_dec by exact Hok.
    apply Z.mod_pos_bound; lia.
  - intros x y Hx Hy. destruct (X x Hx) as (v & Hv & ->). destruct (X y Hy) as (u & Hu & ->).
    rewrite !crt_lagrange_dec by exact Hok. intros E. apply crt_unique; [exact Hok|exact E].
  - exact D.
  - intros. rewrite crt_lagrange_dec by exact Hok. reflexivity.
  - intros x y Hx Hy. destruct (X x Hx) as (v & Hv & ->). destruct (X y Hy) as (u & Hu & ->).
    rewrite crt_add_dec by exact Hok. apply D.
  - intros x y Hx Hy. destruct (X x Hx) as (v & Hv & ->). destruct (X y Hy) as (u & Hu & ->).
    rewrite crt_sub_dec by exact Hok. apply D.
  - intros x y Hx Hy. destruct (X x Hx) as (v & Hv & ->). destruct (X y Hy) as (u & Hu & ->).
    rewrite crt_mul_dec by exact Hok. apply D.
  - intros x Hx. destruct (X x Hx) as (v & Hv & ->). rewrite crt_neg_dec by exact Hok. apply D.
  - intros x y Hx Hy. destruct (X x Hx) as (v & Hv & ->). destruct (X y Hy) as (u & Hu & ->).
    rewrite crt_add_dec by exact Hok. rewrite !crt_lagrange_dec by exact Hok. apply Zplus_mod.
  - intros x y Hx Hy. destruct (X x Hx) as (v & Hv & ->). destruct (X y Hy) as (u & Hu & ->).
    rewrite crt_sub_dec by exact Hok. rewrite !crt_lagrange_dec by exact Hok. apply Zminus_mod.
  - intros x y Hx Hy. destruct (X x Hx) as (v & Hv & ->). destruct (X y Hy) as (u & Hu & ->).
    rewrite crt_mul_dec by exact Hok. rewrite !crt_lagrange_dec by exact Hok. apply Zmult_mod.
  - intros x Hx. destruct (X x Hx) as (v & Hv & ->). rewrite crt_neg_dec by exact Hok.
    rewrite !crt_lagrange_dec by exact Hok. change (eqm (prodZ ms) (- v) (- (v mod prodZ ms))).
    rewrite eqm_mod_l. reflexivity.
Qed.

(* ------------------------------------------------------------------ *)
(** Explicit CRT. *)

(** The exact numerator of the quotient estimated by the floats: sum t_i (M/m_i). *)
Definition crt_num ms t : Z := zsum (zip2 (fun ti m => ti * (prodZ ms / m)) t ms).

(** [est] returns an integer within 1/2 + slack/M of the exact quotient
    sum t_i/m_i = crt_num/M, for every vector of reduced residues. *)
Definition est_ok (slack : Z) ms (est : list Z -> Z) : Prop :=
  forall t, crt_wf ms t -> 2 * Z.abs (est t * prodZ ms - crt_num ms t) <= prodZ ms + 2 * slack.

Lemma crt_q_eq ms : crt_ok ms -> crt_q ms = Some (map (fun m => inv0 (prodZ ms / m) m) ms).
Proof.
  intros Hok. unfold crt_q. apply sequence_map_some. intros m Hm.
  destruct (inv0_spec ms m Hok Hm) as [-> _]. reflexivity.
Qed.

Lemma crt_t_wf ms x : crt_ok ms -> crt_wf ms x ->
  crt_wf ms (crt_t ms (map (fun m => inv0 (prodZ ms / m) m) ms) x).
Proof.
  intros Hok. pose proof (crt_ok_each ms Hok) as F. unfold crt_t. generalize (fun m => inv0 (prodZ ms / m) m). intros g.
  clear Hok. intros W. induction W; cbn; [constructor|]. inversion F; subst. constructor.
  - apply Z.mod_pos_bound; lia.
  - apply IHW. assumption.
Qed.

Lemma crt_num_eqm ms v : crt_ok ms ->
  eqm (prodZ ms) (crt_num ms (crt_t ms (map (fun m => inv0 (prodZ ms / m) m) ms) (crt_decompose ms v))) v.
Proof.
  intros Hok. pose proof Hok as (_ & F & _). pose proof (prodZ_pos ms F) as HP.
  pose proof (crt_ok_each ms Hok) as F'.
  transitivity (zsum (zip2 Z.mul (crt_decompose ms v) (map (lam ms) ms))).
  2:{ apply (crt_unique ms _ v Hok). symmetry. apply crt_lagrange_dec_wf; [exact Hok|apply crt_dec_wf; exact F]. }
  assert (G : forall l, incl l ms -> eqm (prodZ ms)
    (zsum (zip2 (fun ti m => ti * (prodZ ms / m)) (crt_t l (map (fun m => inv0 (prodZ ms / m) m) l) (crt_decompose l v)) l))
    (zsum (zip2 Z.mul (crt_decompose l v) (map (lam ms) l)))).
  { induction l as [|m l IH]; intros Hl; [reflexivity|].
    unfold crt_t in *. cbn [crt_decompose map zip2 zip3 zsum fold_right].
    fold (crt_decompose l v). change (fold_right Z.add 0) with zsum.
    rewrite IH by (intros z Hz; apply Hl; now right). apply eqm_add; [|reflexivity].
    assert (Hm : In m ms) by (apply Hl; now left).
    destruct (inv0_spec ms m Hok Hm) as (_ & B & _). rewrite Forall_forall in F'. destruct (F' m Hm) as [Hm1 Hm2].
    pose proof (Z.mod_pos_bound v m ltac:(lia)).
    rewrite small32 by nia. unfold lam. rewrite (eqm_mod_l (prodZ ms)). set (q := inv0 _ m) in *. set (a := v mod m) in *.
    destruct (in_prod_divide m ms Hm) as [c Hc].
    assert (Ec : prodZ ms / m = c) by (rewrite Hc; apply Z.div_mul; lia). rewrite Ec.
    apply eqm_exists; [lia|]. exists (- (a * q / m)). rewrite Hc.
    pose proof (Z.div_mod (a * q) m ltac:(lia)). nia. }
  apply G. apply incl_refl.
Qed.

Lemma est_exact slack ms est v : crt_ok ms -> est_ok slack ms est -> 2 * Z.abs v < prodZ ms - 2 * slack ->
  let t := crt_t ms (map (fun m => inv0 (prodZ ms / m) m) ms) (crt_decompose ms v) in
  crt_num ms t - est t * prodZ ms = v.
Proof.
  intros Hok He Hv t. pose proof Hok as (_ & F & _). pose proof (prodZ_pos ms F) as HP.
  pose proof (He t (crt_t_wf ms _ Hok (crt_dec_wf ms v F))) as H.
  pose proof (crt_num_eqm ms v Hok) as E. fold t in E. apply eqm_exists in E; [|lia]. destruct E as [k Hk].
  rewrite Hk in *. clear Hk. clearbody t. generalize dependent (est t). intros e H. generalize dependent (prodZ ms). intros M HP Hv H.
  assert (e = k \/ e <= k - 1 \/ k + 1 <= e) as [->|[C|C]] by lia; [ring|exfalso; nia|exfalso; nia].
Qed.

Lemma Forall2_impl {A B} (P Q : A -> B -> Prop) l l' :
  (forall a b, P a b -> Q a b) -> Forall2 P l l' -> Forall2 Q l l'.
Proof. intros H. induction 1; constructor; auto. Qed.

Lemma zsum_zip_bound ms t g : Forall2 (fun a m => 0 <= a < m) t ms -> forall B, (forall m, In m ms -> 0 <= g m < B) ->
  0 <= zsum (zip2 (fun ti m => ti * g m) t ms) <= zsum ms * B /\
  Forall2 (fun a m => 0 <= a * g m <= zsum ms * B) t ms.
Proof.
  intros W. induction W as [|a m t ms Ha W IH]; intros B Hg.
  - cbn. split; [lia|constructor].
  - cbn [zip2 zsum fold_right]. change (fold_right Z.add 0) with zsum.
    destruct (IH B ltac:(intros; apply Hg; now right)) as [H1 H2].
    pose proof (Hg m (or_introl eq_refl)).
    assert (0 <= zsum ms) by (clear - W; induction W; cbn; [lia|]; change (fold_right Z.add 0) with zsum; lia).
    split; [nia|]. constructor; [nia|].
    eapply Forall2_impl; [|exact H2]. intros x y Hxy. cbn beta in *. nia.
Qed.

Lemma zip2_wrap_id (ms t : list Z) (g : Z -> Z) L : L < 2 ^ 31 -> Forall2 (fun a m => 0 <= a * g m <= L) t ms ->
  zip2 (fun ti m => swrap 32 (ti * g m)) t ms = zip2 (fun ti m => ti * g m) t ms.
Proof.
  intros HL H. induction H; cbn; [reflexivity|]. rewrite IHForall2, small32 by lia. reflexivity.
Qed.

Lemma zip2_sum_eqm k (f g : Z -> Z -> Z) t ms : (forall a m, eqm k (f a m) (g a m)) ->
  eqm k (zsum (zip2 f t ms)) (zsum (zip2 g t ms)).
Proof.
  intros H. revert ms. induction t as [|a t IH]; intros [|m ms]; cbn; try reflexivity.
  change (fold_right Z.add 0) with zsum. rewrite IH, H. reflexivity.
Qed.

Lemma est_range slack ms est v : crt_ok ms -> est_ok slack ms est -> 0 <= slack -> 2 * Z.abs v < prodZ ms - 2 * slack ->
  let t := crt_t ms (map (fun m => inv0 (prodZ ms / m) m) ms) (crt_decompose ms v) in
  0 <= est t <= zsum ms.
Proof.
  intros Hok He Hs Hv t. pose proof Hok as (_ & F & _). pose proof (prodZ_pos ms F) as HP.
  pose proof (est_exact slack ms est v Hok He Hv) as E. cbv zeta in E. fold t in E.
  pose proof (crt_t_wf ms _ Hok (crt_dec_wf ms v F)) as W. fold t in W.
  assert (N : 0 <= crt_num ms t <= Z.of_nat (length ms) * prodZ ms).
  { unfold crt_num. assert (G : forall l t', incl l ms -> crt_wf l t' ->
      0 <= zsum (zip2 (fun ti m => ti * (prodZ ms / m)) t' l) <= Z.of_nat (length l) * prodZ ms).
    { intros l t' Hl W'. induction W' as [|a m t' l Ha W' IH]; [cbn; lia|].
      cbn [zip2 zsum fold_right length]. change (fold_right Z.add 0) with zsum. rewrite Nat2Z.inj_succ.
      specialize (IH ltac:(intros z Hz; apply Hl; now right)).
      assert (Hm : In m ms) by (apply Hl; now left). destruct (in_prod_divide m ms Hm) as [c Hc].
      assert (Ec : prodZ ms / m = c) by (rewrite Hc; apply Z.div_mul; lia). rewrite Ec. nia. }
    apply G; [apply incl_refl|exact W]. }
  assert (L : Z.of_nat (length ms) <= zsum ms).
  { clear - F. induction F; cbn [length zsum fold_right]; [lia|]. change (fold_right Z.add 0) with zsum.
    rewrite Nat2Z.inj_succ. lia. }
  clearbody t. generalize dependent (est t). intros e E. generalize dependent (crt_num ms t). intros nn E N. generalize dependent (prodZ ms). intros M HP Hv E N.
  assert (0 <= e <= Z.of_nat (length ms)); [|lia].
  split.
  - assert (0 <= e \/ e <= -1) as [|] by lia; [assumption|exfalso; nia].
  - assert (e <= Z.of_nat (length ms) \/ Z.of_nat (length ms) + 1 <= e) as [|] by lia; [assumption|exfalso; nia].
Qed.

Lemma crt_mod_spec slack ms est v k : crt_ok ms -> est_ok slack ms est -> 0 <= slack ->
  2 * Z.abs v < prodZ ms - 2 * slack -> 0 < k -> zsum ms * k < 2 ^ 31 ->
  crt_mod est ms (crt_decompose ms v) k = Some (v mod k).
Proof.
  intros Hok He Hs Hv Hk Hb. unfold crt_mod. rewrite crt_q_eq by exact Hok. f_equal.
  pose proof Hok as (_ & F & _). pose proof (prodZ_pos ms F) as HP.
  pose proof (est_exact slack ms est v Hok He Hv) as E. cbv zeta in E.
  pose proof (est_range slack ms est v Hok He Hs Hv) as ER. cbv zeta in ER.
  pose proof (crt_t_wf ms _ Hok (crt_dec_wf ms v F)) as W.
  set (t := crt_t _ _ _) in *.
  destruct (zsum_zip_bound ms t (fun m => (prodZ ms / m) mod k) W k
    ltac:(intros; apply Z.mod_pos_bound; lia)) as [B1 B2].
  rewrite (zip2_wrap_id ms t (fun m => (prodZ ms / m) mod k) (zsum ms * k) Hb B2).
  pose proof (Z.mod_pos_bound (prodZ ms) k Hk).
  rewrite (small32 (zsum _)) by lia. rewrite (small32 (est t * _)) by nia.
  rewrite small32 by nia.
  change (eqm k (zsum (zip2 (fun ti m => ti * ((prodZ ms / m) mod k)) t ms) - est t * (prodZ ms mod k)) v).
  rewrite (zip2_sum_eqm k _ (fun ti m => ti * (prodZ ms / m))) by (intros; rewrite eqm_mod_l; reflexivity).
  fold (crt_num ms t). rewrite eqm_mod_l. apply eqm_eq. exact E.
Qed.

Lemma eqm_pow2_le a b x y : 0 <= a <= b -> eqm (2 ^ b) x y -> eqm (2 ^ a) x y.
Proof.
  intros H. pose proof (pow2_pos a ltac:(lia)). pose proof (pow2_pos b ltac:(lia)).
  apply eqm_divide; [lia|lia|]. exists (2 ^ (b - a)). rewrite <- Z.pow_add_r by lia. f_equal; lia.
Qed.

(** For a power of two the int32 wrap-around is harmless. *)
Lemma crt_mod_spec_pow2 slack ms est v s : crt_ok ms -> est_ok slack ms est ->
  2 * Z.abs v < prodZ ms - 2 * slack -> 0 <= s <= 31 ->
  crt_mod est ms (crt_decompose ms v) (2 ^ s) = Some (v mod 2 ^ s).
Proof.
  intros Hok He Hv Hs. unfold crt_mod. rewrite crt_q_eq by exact Hok. f_equal.
  pose proof (est_exact slack ms est v Hok He Hv) as E. cbv zeta in E.
  set (t := crt_t _ _ _) in *.
  match goal with |- ?a mod _ = _ => change (eqm (2 ^ s) a v) end.
  assert (W : forall z, eqm (2 ^ s) (swrap 32 z) z).
  { intros z. apply (eqm_pow2_le s 32); [lia|]. apply swrap_eqm; lia. }
  rewrite !W.
  rewrite (zip2_sum_eqm (2 ^ s) _ (fun ti m => ti * (prodZ ms / m)))
    by (intros; rewrite W, eqm_mod_l; reflexivity).
  fold (crt_num ms t). rewrite eqm_mod_l. apply eqm_eq. exact E.
Qed.

(** Moduli for which the int32 computation of [crt_mod] is exact. *)
Definition crt_k_ok (ms : list Z) (k : Z) : Prop :=
  0 < k /\ (zsum ms * k < 2 ^ 31 \/ exists s, 0 <= s <= 31 /\ k = 2 ^ s).

Lemma crt_mod_ok slack ms est v k : crt_ok ms -> est_ok slack ms est -> 0 <= slack ->
  2 * Z.abs v < prodZ ms - 2 * slack -> crt_k_ok ms k ->
  crt_mod est ms (crt_decompose ms v) k = Some (v mod k).
Proof.
  intros Hok He Hs Hv [Hk [H|(s & H & ->)]].
  - apply (crt_mod_spec slack); assumption.
  - apply (crt_mod_spec_pow2 slack); assumption.
Qed.

Lemma crt_to_native_spec slack ms est v : crt_ok ms -> est_ok slack ms est ->
  2 * Z.abs v < prodZ ms - 2 * slack -> crt_to_native est ms (crt_decompose ms v) = Some (swrap 32 v).
Proof.
  intros Hok He Hv. unfold crt_to_native. rewrite crt_q_eq by exact Hok. f_equal.
  pose proof (est_exact slack ms est v Hok He Hv) as E. cbv zeta in E.
  set (t := crt_t _ _ _) in *. apply eqm_swrap_eq; [lia|].
  rewrite eqm_mod_l. rewrite (eqm_pow2_le 32 64 _ _ ltac:(lia) (swrap_eqm 64 _ ltac:(lia))).
  rewrite (eqm_pow2_le 32 64 _ _ ltac:(lia) (swrap_eqm 64 (est t * _) ltac:(lia))).
  rewrite swrap_eqm by lia.
  rewrite (zip2_sum_eqm (2 ^ 32) _ (fun ti m => ti * (prodZ ms / m)))
    by (intros; rewrite !swrap_eqm, eqm_mod_l by lia; reflexivity).
  fold (crt_num ms t). rewrite eqm_mod_l. apply eqm_eq. exact E.
Qed.

Lemma crt_truncate_spec slack ms est v amount base : crt_ok ms -> est_ok slack ms est -> 0 <= slack ->
  2 * Z.abs v < prodZ ms - 2 * slack -> 0 < base -> 0 <= amount -> crt_k_ok ms (base ^ amount) ->
  Z.gcd (base ^ amount) (prodZ ms) = 1 ->
  crt_truncate est ms (crt_decompose ms v) amount base = Some (crt_decompose ms (v / base ^ amount)).
Proof.
  intros Hok He Hs Hv Hbase Ha Hb Hg. unfold crt_truncate, crt_tmod.
  pose proof Hok as (_ & F & _). pose proof (prodZ_pos ms F) as HP.
  assert (Hf : 0 < base ^ amount) by (apply Z.pow_pos_nonneg; lia).
  set (f := base ^ amount) in *.
  destruct (inverse f (prodZ ms)) as [fi|] eqn:Ei.
  2:{ apply inverse_none in Ei; [contradiction|lia|lia]. }
  destruct (inverse_sound f (prodZ ms) fi ltac:(lia) HP Ei) as [_ Hi].
  rewrite (crt_mod_ok slack) by assumption. f_equal.
  rewrite crt_sub_dec, crt_mul_dec by exact Hok. apply crt_unique; [exact Hok|].
  pose proof (Z.div_mod v f ltac:(lia)).
  replace (v - v mod f) with (v / f * f) by lia.
  transitivity (v / f * (f * fi)); [apply eqm_eq; ring|].
  change (eqm (prodZ ms) (f * fi) 1) in Hi. rewrite Hi. apply eqm_eq; ring.
Qed.

(* ------------------------------------------------------------------ *)
(** matmul *)

Lemma dec_nth ms v i m : nth_error ms i = Some m -> nth i (crt_decompose ms v) 0 = v mod m.
Proof.
  intros H. unfold crt_decompose. erewrite nth_error_nth; [reflexivity|].
  rewrite nth_error_map, H. reflexivity.
Qed.

Lemma crt_dot_direct_dec ms vs us : crt_ok ms -> Z.of_nat (length vs) <= MATMUL_THRESHOLD ->
  crt_dot_direct ms (map (crt_decompose ms) vs) (map (crt_decompose ms) us) = crt_decompose ms (zdot vs us).
Proof.
  intros Hok HL. unfold crt_dot_direct.
  set (X := map (crt_decompose ms) vs). set (Y := map (crt_decompose ms) us).
  unfold crt_decompose at 1.
  pose proof (crt_ok_each ms Hok) as F. rewrite Forall_forall in F.
  apply nth_ext with (d := 0) (d' := 0).
  - rewrite !map_length, combine_length, seq_length. lia.
  - intros n Hn. rewrite map_length, combine_length, seq_length in Hn.
    assert (Hn' : (n < length ms)%nat) by lia.
    destruct (nth_error ms n) as [m|] eqn:E; [|apply nth_error_None in E; lia].
    assert (Em : nth n ms 0 = m) by (eapply nth_error_nth; eauto).
    set (f := fun im : nat * Z => _).
    rewrite nth_indep with (d' := f (0%nat, 0)) by (rewrite map_length, combine_length, seq_length; lia).
    rewrite (map_nth f). rewrite combine_nth by (rewrite seq_length; reflexivity). rewrite seq_nth by lia.
    rewrite Em. subst f. cbn [fst snd plus].
    rewrite nth_indep with (d' := (fun m => zdot vs us mod m) 0) by (rewrite map_length; lia).
    rewrite (map_nth (fun m => zdot vs us mod m)), Em.
    destruct (F m (nth_error_In _ _ E)) as [Hm1 Hm2].
    assert (G : forall us vs, 0 <= zsum (zip2 (fun a b => swrap 32 (nth n a 0 * nth n b 0)) (map (crt_decompose ms) vs) (map (crt_decompose ms) us)) <= Z.of_nat (length vs) * (m * m) /\
       eqm m (zsum (zip2 (fun a b => swrap 32 (nth n a 0 * nth n b 0)) (map (crt_decompose ms) vs) (map (crt_decompose ms) us))) (zdot vs us)).
    { clear - E Hm1 Hm2. intros us vs. revert us. induction vs as [|v vs IH]; intros [|u us]; unfold zdot; cbn [map zip2 zsum fold_right combine length].
      1-3: (split; [nia|reflexivity]).
      change (fold_right Z.add 0) with zsum. rewrite !(dec_nth ms _ n m E).
      pose proof (Z.mod_pos_bound v m ltac:(lia)). pose proof (Z.mod_pos_bound u m ltac:(lia)).
      rewrite small32 by nia. destruct (IH us) as [B1 B2]. rewrite Nat2Z.inj_succ. split; [nia|].
      rewrite B2, !eqm_mod_l. cbn [fst snd]. reflexivity. }
    destruct (G us vs) as [B1 B2]. fold X Y in B1, B2.
    rewrite small32. exact B2.
    unfold MATMUL_THRESHOLD in HL. assert (Z.of_nat (length vs) * (m * m) <= 1024 * (m * m)) by nia. lia.
Qed.

Lemma zdot_app a b c d : length a = length c -> zdot (a ++ b) (c ++ d) = zdot a c + zdot b d.
Proof.
  revert c. induction a as [|x a IH]; intros [|y c] H; cbn [length app] in *; try discriminate.
  - unfold zdot; cbn. reflexivity.
  - unfold zdot in *. cbn [app combine map zsum fold_right fst snd]. change (fold_right Z.add 0) with zsum.
    rewrite IH by lia. ring.
Qed.

Lemma skipn_skipn {A} a b (l : list A) : skipn a (skipn b l) = skipn (b + a) l.
Proof.
  revert l. induction b as [|b IH]; intros l; cbn [skipn Nat.add]; [reflexivity|].
  destruct l; [rewrite !skipn_nil; reflexivity|apply IH].
Qed.

Lemma zdot_chunks T num : (0 < T)%nat -> forall vs us, length vs = length us -> (length vs <= num * T)%nat ->
  zsum (zip2 zdot (chunks T num vs) (chunks T num us)) = zdot vs us.
Proof.
  intros HT. unfold chunks. induction num as [|num IH]; intros vs us HL HN.
  - destruct vs; cbn in HN; [|lia]. destruct us; [reflexivity|discriminate].
  - cbn [seq map zip2 zsum fold_right]. change (fold_right Z.add 0) with zsum.
    rewrite <- seq_shift, !map_map.
    assert (E : forall (l : list Z), map (fun x => firstn T (skipn (S x * T) l)) (seq 0 num) =
                 map (fun i => firstn T (skipn (i * T) (skipn T l))) (seq 0 num)).
    { intros l. apply map_ext. intros i. rewrite skipn_skipn. reflexivity. }
    rewrite !E, IH by (rewrite !skipn_length; lia). cbn [Nat.mul skipn].
    rewrite <- (firstn_skipn T vs) at 3. rewrite <- (firstn_skipn T us) at 3.
    rewrite zdot_app by (rewrite !firstn_length; lia). reflexivity.
Qed.

Lemma chunks_map {A B} (f : A -> B) T num l : chunks T num (map f l) = map (map f) (chunks T num l).
Proof. unfold chunks. rewrite map_map. apply map_ext. intros i. rewrite skipn_map, firstn_map. reflexivity. Qed.

Lemma chunks_length_each {A} T num (l : list A) c : In c (chunks T num l) -> (length c <= T)%nat.
Proof. unfold chunks. rewrite in_map_iff. intros (i & <- & _). rewrite firstn_length. lia. Qed.

Lemma fold_crt_add_dec ms l : crt_ok ms -> forall a,
  fold_left (crt_add ms) (map (crt_decompose ms) l) (crt_decompose ms a) = crt_decompose ms (a + zsum l).
Proof.
  intros Hok. induction l as [|x l IH]; intros a; cbn [map fold_left zsum fold_right].
  - rewrite Z.add_0_r. reflexivity.
  - change (fold_right Z.add 0) with zsum. rewrite crt_add_dec, IH by exact Hok. f_equal. ring.
Qed.

Lemma crt_dot_dec ms vs us : crt_ok ms -> length vs = length us ->
  crt_dot ms (map (crt_decompose ms) vs) (map (crt_decompose ms) us) = crt_decompose ms (zdot vs us).
Proof.
  intros Hok HL. unfold crt_dot. rewrite map_length.
  destruct (Z.of_nat (length vs) <=? MATMUL_THRESHOLD) eqn:E.
  - apply crt_dot_direct_dec; [exact Hok|lia].
  - set (T := Z.to_nat MATMUL_THRESHOLD). set (num := Z.to_nat _).
    assert (HT : Z.of_nat T = 1024) by reflexivity.
    assert (Hnum : (length vs <= num * T)%nat /\ (0 < num)%nat).
    { unfold num, MATMUL_THRESHOLD in *. set (n := Z.of_nat (length vs)) in *.
      pose proof (Z.div_mod (n + 1024 - 1) 1024 ltac:(lia)).
      pose proof (Z.mod_pos_bound (n + 1024 - 1) 1024 ltac:(lia)).
      assert (Hq : 0 < (n + 1024 - 1) / 1024) by (apply Z.div_str_pos; lia).
      split; [|lia]. apply Nat2Z.inj_le. rewrite Nat2Z.inj_mul, HT, Z2Nat.id by lia. lia. }
    destruct Hnum as [Hnum Hnum0].
    rewrite !chunks_map.
    assert (G : forall A B, (forall c, In c A -> (length c <= T)%nat) ->
       zip2 (crt_dot_direct ms) (map (map (crt_decompose ms)) A) (map (map (crt_decompose ms)) B)
       = map (crt_decompose ms) (zip2 zdot A B)).
    { induction A as [|a A IH]; intros [|b B] H; cbn [map zip2]; try reflexivity.
      rewrite crt_dot_direct_dec; [|exact Hok|].
      - rewrite IH; [reflexivity|]. intros; apply H; now right.
      - unfold MATMUL_THRESHOLD. specialize (H a (or_introl eq_refl)). lia. }
    rewrite G by apply chunks_length_each.
    assert (HT0 : (0 < T)%nat) by (apply Nat2Z.inj_lt; rewrite HT; lia).
    pose proof (zdot_chunks T num HT0 vs us HL Hnum) as ZC.
    destruct (zip2 zdot (chunks T num vs) (chunks T num us)) as [|z zs] eqn:EZ.
    { exfalso. unfold chunks in EZ. destruct num; [lia|]. cbn in EZ. discriminate. }
    cbn [map crt_reduce_add]. rewrite fold_crt_add_dec by exact Hok. f_equal. exact ZC.
Qed.

(* ------------------------------------------------------------------ *)
(** equality *)

Lemma zsum_indicator {A B} (f : A -> B -> bool) x y :
  zsum (zip2 (fun a b => if f a b then 1 else 0) x y) <= Z.of_nat (Nat.min (length x) (length y)) /\
  (zsum (zip2 (fun a b => if f a b then 1 else 0) x y) = Z.of_nat (Nat.min (length x) (length y)) <->
   Forall (fun p => f (fst p) (snd p) = true) (combine x y)).
Proof.
  revert y. induction x as [|a x IH]; intros [|b y]; cbn [zip2 combine length Nat.min zsum fold_right].
  1-3: (split; [cbn; lia|split; [constructor|reflexivity]]).
  change (fold_right Z.add 0) with zsum. destruct (IH y) as [H1 H2]. rewrite Nat2Z.inj_succ.
  destruct (f a b) eqn:E; split; try lia.
  - split.
    + intros H. constructor; [exact E|]. apply H2. lia.
    + intros H. inversion H; subst. apply H2 in H5. lia.
  - split; [intros; lia|]. intros H. inversion H; subst. cbn in H4. congruence.
Qed.

Lemma crt_equal_spec ms a b : crt_ok ms ->
  crt_equal ms (crt_decompose ms a) (crt_decompose ms b) =
  if a mod prodZ ms =? b mod prodZ ms then 1 else 0.
Proof.
  intros Hok. unfold crt_equal.
  destruct (zsum_indicator Z.eqb (crt_decompose ms a) (crt_decompose ms b)) as [_ H].
  assert (L : Nat.min (length (crt_decompose ms a)) (length (crt_decompose ms b)) = length ms)
    by (unfold crt_decompose; rewrite !map_length; lia).
  rewrite L in H. set (S := zsum _) in *.
  assert (K : S = Z.of_nat (length ms) <-> eqm (prodZ ms) a b).
  { rewrite H, <- crt_unique by exact Hok. unfold crt_decompose. clear.
    induction ms as [|m ms IH]; cbn [map combine]; [split; [reflexivity|constructor]|]. split.
    - intros F. inversion F; subst. cbn in H1. f_equal; [lia|apply IH; assumption].
    - intros E. injection E as E1 E2. constructor; [cbn; lia|apply IH; exact E2]. }
  unfold eqm in K.
  destruct (S =? Z.of_nat (length ms)) eqn:E1; destruct (a mod prodZ ms =? b mod prodZ ms) eqn:E2; try reflexivity; exfalso; lia.
Qed.

Lemma zsum_indicator1 (x : list Z) :
  zsum (map (fun a => if a =? 0 then 1 else 0) x) = zsum (zip2 (fun a b => if a =? b then 1 else 0) x (map (fun _ => 0) x)).
Proof. induction x as [|a x IH]; cbn; [reflexivity|]. change (fold_right Z.add 0) with zsum. rewrite IH. reflexivity. Qed.

Lemma crt_equal_zero_spec ms a : crt_ok ms ->
  crt_equal_zero ms (crt_decompose ms a) = if a mod prodZ ms =? 0 then 1 else 0.
Proof.
  intros Hok. pose proof Hok as (_ & F & _). pose proof (prodZ_pos ms F) as HP.
  pose proof (crt_equal_spec ms a 0 Hok) as H. rewrite Z.mod_0_l in H by lia. rewrite <- H.
  unfold crt_equal_zero, crt_equal. rewrite zsum_indicator1.
  assert (E : map (fun _ => 0) (crt_decompose ms a) = crt_decompose ms 0).
  { unfold crt_decompose. rewrite map_map. apply map_ext_in. intros m Hm. rewrite Forall_forall in F.
    specialize (F m Hm). symmetry. apply Z.mod_0_l. lia. }
  rewrite E. reflexivity.
Qed.

(* ------------------------------------------------------------------ *)
(** bits *)

(** Cut an integer into consecutive groups of bits, lowest first: mathematical notion. *)
Fixpoint groups (v : Z) (sizes : list Z) : list Z :=
  match sizes with [] => [] | s :: r => v mod 2 ^ s :: groups (v / 2 ^ s) r end.

Lemma div_abs_le v k : 0 < k -> Z.abs (v / k) <= Z.abs v.
Proof.
  intros Hk. pose proof (Z.div_mod v k ltac:(lia)). pose proof (Z.mod_pos_bound v k Hk).
  destruct (Z.le_gt_cases 0 v).
  - assert (0 <= v / k) by (apply Z.div_pos; lia). nia.
  - assert (v / k < 0) by (apply Z.div_lt_upper_bound; lia). nia.
Qed.

Lemma pow2_gcd_odd s M : 0 <= s -> Z.odd M = true -> Z.gcd (2 ^ s) M = 1.
Proof.
  intros Hs HM. apply Zgcd_1_rel_prime. apply rel_prime_sym, rel_prime_Zpower_r; [lia|].
  apply Zgcd_1_rel_prime. rewrite Z.gcd_comm.
  assert (M = 1 + (M / 2) * 2).
  { pose proof (Z.div_mod M 2 ltac:(lia)). rewrite Zmod_odd, HM in H. lia. }
  rewrite H. rewrite Z.gcd_add_mult_diag_r. reflexivity.
Qed.

Lemma crt_chunks_spec slack ms est sizes : crt_ok ms -> est_ok slack ms est -> 0 <= slack ->
  Z.odd (prodZ ms) = true -> (forall s, In s sizes -> 0 <= s <= 31) ->
  forall v, 2 * Z.abs v < prodZ ms - 2 * slack ->
  crt_chunks est ms (crt_decompose ms v) 0 sizes = Some (groups v sizes).
Proof.
  intros Hok He Hs Hodd. pose proof Hok as (Hne & F & _). pose proof (prodZ_pos ms F) as HP.
  induction sizes as [|s r IH]; intros Hsz v Hv; cbn [crt_chunks groups]; [reflexivity|].
  pose proof (Hsz s (or_introl eq_refl)) as Hs0. pose proof (pow2_pos s ltac:(lia)) as Hk.
  assert (Hs31 : 2 ^ s <= 2 ^ 31) by (apply Z.pow_le_mono_r; lia).
  rewrite (crt_mod_spec_pow2 slack) by assumption.
  destruct (inverse (2 ^ s) (prodZ ms)) as [ki|] eqn:Ei.
  2:{ apply inverse_none in Ei; [|lia|lia]. exfalso. apply Ei. apply pow2_gcd_odd; [lia|assumption]. }
  destruct (inverse_sound (2 ^ s) (prodZ ms) ki ltac:(lia) HP Ei) as [_ Hi].
  change (eqm (prodZ ms) (2 ^ s * ki) 1) in Hi.
  pose proof (Z.mod_pos_bound v (2 ^ s) Hk).
  rewrite Z.add_0_r, small32 by lia. rewrite Z.mod_mod by lia.
  rewrite crt_sub_dec, crt_mul_dec by exact Hok.
  assert (E : crt_decompose ms ((v - v mod 2 ^ s) * ki) = crt_decompose ms (v / 2 ^ s)).
  { apply crt_unique; [exact Hok|]. pose proof (Z.div_mod v (2 ^ s) ltac:(lia)).
    replace (v - v mod 2 ^ s) with (v / 2 ^ s * 2 ^ s) by lia.
    transitivity (v / 2 ^ s * (2 ^ s * ki)); [apply eqm_eq; ring|]. rewrite Hi. apply eqm_eq; ring. }
  rewrite E, IH; [reflexivity|intros; apply Hsz; now right|].
  pose proof (div_abs_le v (2 ^ s) Hk). lia.
Qed.

Lemma crt_chunks_corr slack ms est r : crt_ok ms -> est_ok slack ms est -> 0 <= slack -> 8 * slack < prodZ ms ->
  Z.odd (prodZ ms) = true -> (forall s, In s (16 :: r) -> 0 <= s <= 31) ->
  forall v, 2 * Z.abs v < prodZ ms - 2 * slack ->
  crt_chunks est ms (crt_decompose ms v) (prodZ ms mod 2 ^ 16) (16 :: r) = Some (groups (v + prodZ ms) (16 :: r)).
Proof.
  intros Hok He Hs Hs8 Hodd Hsz v Hv. pose proof Hok as (Hne & F & _). pose proof (prodZ_pos ms F) as HP.
  cbn [crt_chunks groups]. pose proof (pow2_pos 16 ltac:(lia)) as Hk.
  rewrite (crt_mod_spec_pow2 slack) by (try assumption; lia).
  destruct (inverse (2 ^ 16) (prodZ ms)) as [ki|] eqn:Ei.
  2:{ apply inverse_none in Ei; [|lia|lia]. exfalso. apply Ei. apply pow2_gcd_odd; [lia|assumption]. }
  destruct (inverse_sound (2 ^ 16) (prodZ ms) ki ltac:(lia) HP Ei) as [_ Hi].
  change (eqm (prodZ ms) (2 ^ 16 * ki) 1) in Hi.
  set (M := prodZ ms) in *.
  pose proof (Z.mod_pos_bound v (2 ^ 16) Hk). pose proof (Z.mod_pos_bound M (2 ^ 16) Hk).
  rewrite small32 by lia. rewrite <- Zplus_mod.
  rewrite crt_sub_dec, crt_mul_dec by exact Hok.
  assert (E : crt_decompose ms ((v - (v + M) mod 2 ^ 16) * ki) = crt_decompose ms ((v + M) / 2 ^ 16)).
  { apply crt_unique; [exact Hok|]. fold M. pose proof (Z.div_mod (v + M) (2 ^ 16) ltac:(lia)).
    transitivity ((v + M - (v + M) mod 2 ^ 16) * ki).
    { apply eqm_exists; [lia|]. exists (- ki). ring. }
    replace (v + M - (v + M) mod 2 ^ 16) with ((v + M) / 2 ^ 16 * 2 ^ 16) by lia.
    transitivity ((v + M) / 2 ^ 16 * (2 ^ 16 * ki)); [apply eqm_eq; ring|]. rewrite Hi. apply eqm_eq; ring. }
  rewrite E. rewrite (crt_chunks_spec slack ms est r Hok He Hs Hodd).
  - reflexivity.
  - intros; apply Hsz; now right.
  - fold M. assert (0 <= v + M <= 2 * M) by lia.
    assert (0 <= (v + M) / 2 ^ 16) by (apply Z.div_pos; lia).
    assert ((v + M) / 2 ^ 16 <= (2 * M) / 2 ^ 16) by (apply Z.div_le_mono; lia).
    assert ((2 * M) / 2 ^ 16 * 2 ^ 16 <= 2 * M) by (rewrite Z.mul_comm; apply Z.mul_div_le; lia). lia.
Qed.

Lemma binarize_app a b x : binarize (a + b) x = binarize a x ++ binarize b (x / 2 ^ Z.of_nat a).
Proof.
  revert x. induction a as [|a IH]; intros x; cbn [Nat.add app].
  - cbn [binarize seq map app]. rewrite Z.div_1_r. reflexivity.
  - rewrite !binarize_cons, IH. cbn [app]. rewrite Nat2Z.inj_succ, Z.pow_succ_r by lia.
    rewrite Z.div_div by (try lia; apply pow2_pos; lia). reflexivity.
Qed.

Lemma binarize_mod n x : binarize n (x mod 2 ^ Z.of_nat n) = binarize n x.
Proof.
  unfold binarize. apply map_ext_in. intros i Hi. apply in_seq in Hi.
  rewrite !land1_mod, <- !Z.bit0_mod, !Z.shiftr_spec by lia. f_equal. apply Z.mod_pow2_bits_low. lia.
Qed.

Lemma groups_bits sizes : (forall s, In s sizes -> 0 <= s) -> forall v,
  concat (zip2 (fun c s => binarize (Z.to_nat s) c) (groups v sizes) sizes) = binarize (Z.to_nat (zsum sizes)) v.
Proof.
  induction sizes as [|s r IH]; intros Hs v; cbn [groups zip2 concat]; [reflexivity|].
  cbn [zsum fold_right]. change (fold_right Z.add 0) with zsum.
  assert (0 <= s) by (apply Hs; now left).
  assert (0 <= zsum r).
  { clear - Hs. assert (Hr : forall s, In s r -> 0 <= s) by (intros; apply Hs; now right). clear Hs.
    induction r; cbn; [lia|]. change (fold_right Z.add 0) with zsum. pose proof (Hr a (or_introl eq_refl)).
    specialize (IHr ltac:(intros; apply Hr; now right)). lia. }
  rewrite Z2Nat.inj_add, binarize_app by lia. rewrite Z2Nat.id by lia. f_equal.
  - pose proof (binarize_mod (Z.to_nat s) v) as B. rewrite Z2Nat.id in B by lia. exact B.
  - apply IH. intros; apply Hs; now right.
Qed.

(** Top group of the two's complement representation tells the sign. *)
Lemma groups_last sizes s : (forall x, In x (sizes ++ [s]) -> 0 < x) -> forall v,
  in_s (zsum (sizes ++ [s])) v ->
  (2 ^ (last (sizes ++ [s]) 0) / 2 <=? last (groups v (sizes ++ [s])) 0) = (v <? 0).
Proof.
  rewrite last_last. induction sizes as [|a r IH]; intros Hp v Hv; cbn [app groups].
  - cbn [last]. cbn [app zsum fold_right] in Hv. rewrite Z.add_0_r in Hv.
    assert (0 < s) by (apply Hp; now left). unfold in_s in Hv.
    rewrite (pow2_half s) by lia. rewrite (Z.mul_comm 2), Z.div_mul by lia. rewrite (Z.mul_comm _ 2), <- pow2_half by lia.
    pose proof (pow2_half s ltac:(lia)). pose proof (pow2_pos (s - 1) ltac:(lia)).
    destruct (v <? 0) eqn:E.
    + assert (Em : v mod 2 ^ s = v + 2 ^ s).
      { symmetry. apply (Zmod_unique v (2 ^ s) (-1)); lia. } lia.
    + rewrite Z.mod_small by lia. lia.
  - assert (Ha : 0 < a) by (apply Hp; now left).
    assert (Hne : groups (v / 2 ^ a) (r ++ [s]) <> []) by (destruct r; cbn; discriminate).
    destruct (groups (v / 2 ^ a) (r ++ [s])) as [|g gs] eqn:G; [congruence|].
    change (last (v mod 2 ^ a :: g :: gs) 0) with (last (g :: gs) 0). rewrite <- G.
    rewrite IH.
    + pose proof (pow2_pos a ltac:(lia)). destruct (v <? 0) eqn:E.
      * assert (v / 2 ^ a < 0) by (apply Z.div_lt_upper_bound; lia). lia.
      * assert (0 <= v / 2 ^ a) by (apply Z.div_pos; lia). lia.
    + intros; apply Hp; now right.
    + cbn [app zsum fold_right] in Hv. change (fold_right Z.add 0) with zsum in Hv. unfold in_s in *.
      assert (0 < zsum (r ++ [s])).
      { clear - Hp. assert (Hr : forall x, In x (r ++ [s]) -> 0 < x) by (intros; apply Hp; now right).
        assert (0 <= zsum r).
        { assert (Hr' : forall x, In x r -> 0 < x) by (intros; apply Hr; apply in_app_iff; auto). clear - Hr'.
          induction r; cbn; [lia|]. change (fold_right Z.add 0) with zsum. pose proof (Hr' a (or_introl eq_refl)).
          specialize (IHr ltac:(intros; apply Hr'; now right)). lia. }
        rewrite zsum_app. cbn. specialize (Hr s ltac:(apply in_app_iff; right; now left)). lia. }
      set (b := zsum (r ++ [s])) in *. replace (a + b - 1) with (a + (b - 1)) in Hv by lia.
      rewrite pow2_split in Hv by lia. pose proof (pow2_pos a ltac:(lia)). pose proof (pow2_pos (b - 1) ltac:(lia)).
      split.
      * apply Z.div_le_lower_bound; nia.
      * apply Z.div_lt_upper_bound; nia.
Qed.

Lemma chunk_sizes_sum c b : 0 < c -> 0 <= b -> zsum (chunk_sizes c b) = b.
Proof.
  intros Hc Hb. unfold chunk_sizes. rewrite zsum_app.
  assert (R : forall n, zsum (repeat c n) = Z.of_nat n * c).
  { induction n; cbn [repeat zsum fold_right]; [reflexivity|]. change (fold_right Z.add 0) with zsum. rewrite IHn. lia. }
  assert (0 <= b / c) by (apply Z.div_pos; lia).
  rewrite R, Z2Nat.id by lia. pose proof (Z.div_mod b c ltac:(lia)). pose proof (Z.mod_pos_bound b c Hc).
  destruct (0 <? b mod c) eqn:E; cbn; lia.
Qed.

Lemma chunk_sizes_range c b s : 0 < c -> In s (chunk_sizes c b) -> 0 < s <= c.
Proof.
  intros Hc. unfold chunk_sizes. rewrite in_app_iff. pose proof (Z.mod_pos_bound b c Hc). intros [H'|H'].
  - apply repeat_spec in H'. lia.
  - destruct (0 <? b mod c) eqn:E; cbn in H'; [|tauto]. destruct H' as [<-|[]]. lia.
Qed.

Lemma crt_bits_spec slack ms est positive v : crt_ok ms -> est_ok slack ms est -> 0 <= slack -> 8 * slack < prodZ ms ->
  Z.odd (prodZ ms) = true -> 2 ^ 16 <= prodZ ms ->
  2 * Z.abs v < prodZ ms - 2 * slack ->
  crt_bits est ms positive (crt_decompose ms v) =
  Some (binarize (Z.to_nat (crt_bitsize ms)) (if positive then v mod prodZ ms else v)).
Proof.
  intros Hok He Hs Hs8 Hodd Hbig Hv. unfold crt_bits. pose proof Hok as (Hne & F & _). pose proof (prodZ_pos ms F) as HP.
  assert (HB : 16 <= crt_bitsize ms).
  { unfold crt_bitsize. change 16 with (Z.log2_up (2 ^ 16)). apply Z.log2_up_le_mono; lia. }
  assert (HB2 : prodZ ms <= 2 ^ crt_bitsize ms) by (apply Z.log2_up_spec; lia).
  set (B := crt_bitsize ms) in *. set (sizes := chunk_sizes 16 B).
  assert (Hsz : forall s, In s sizes -> 0 <= s <= 31) by (intros s Hin; apply chunk_sizes_range in Hin; lia).
  assert (Esz : exists r, sizes = 16 :: r).
  { unfold sizes, chunk_sizes. assert (0 < B / 16) by (apply Z.div_str_pos; lia).
    destruct (Z.to_nat (B / 16)) eqn:E; [lia|]. cbn [repeat app]. eauto. }
  destruct Esz as [r Esz].
  rewrite (crt_chunks_spec slack) by assumption. rewrite Esz at 1.
  rewrite (crt_chunks_corr slack) by (try assumption; intros; apply Hsz; rewrite Esz; assumption).
  rewrite <- Esz.
  assert (Elast : exists p s, sizes = p ++ [s]).
  { destruct (exists_last (l := sizes)) as (p & s & E); [rewrite Esz; discriminate|eauto]. }
  destruct Elast as (p & s & El).
  assert (Hsum : zsum sizes = B) by (apply chunk_sizes_sum; lia).
  assert (Hmsb : (2 ^ last sizes 0 / 2 <=? last (groups v sizes) 0) = (v <? 0)).
  { rewrite El. apply groups_last.
    - intros x Hx. rewrite <- El in Hx. apply chunk_sizes_range in Hx; lia.
    - rewrite <- El, Hsum. unfold in_s. pose proof (pow2_half B ltac:(lia)). lia. }
  rewrite Hmsb. f_equal.
  assert (Hnn : forall s, In s sizes -> 0 <= s) by (intros; apply Hsz; assumption).
  destruct positive; cbn [andb].
  - destruct (v <? 0) eqn:E; rewrite groups_bits, Hsum by exact Hnn; f_equal.
    + apply (Zmod_unique v (prodZ ms) (-1)); lia.
    + symmetry. apply Z.mod_small. lia.
  - rewrite groups_bits, Hsum by exact Hnn. reflexivity.
Qed.

(** sample_bounded *)
(** Value of a chunk list read as digits, most significant first: mathematical notion. *)
Definition horner (sizes values : list Z) : Z :=
  fold_left (fun acc sv => acc * 2 ^ fst sv + snd sv) (combine sizes values) 0.

Lemma crt_from_chunks_dec ms sizes values : crt_ok ms ->
  crt_from_chunks ms sizes values = crt_decompose ms (horner sizes values).
Proof.
  intros Hok. unfold crt_from_chunks, horner. generalize 0. generalize (combine sizes values). clear sizes values.
  induction l as [|[s x] l IH]; intros a; cbn [fold_left fst snd]; [reflexivity|].
  rewrite crt_mul_dec, crt_add_dec, IH by exact Hok. reflexivity.
Qed.

Lemma horner_range sizes : forall values a lo, (forall s, In s sizes -> 0 <= s) -> 
  Forall2 (fun s x => 0 <= x < 2 ^ s) sizes values -> 0 <= a < 2 ^ lo -> 0 <= lo ->
  0 <= fold_left (fun acc sv => acc * 2 ^ fst sv + snd sv) (combine sizes values) a < 2 ^ (lo + zsum sizes).
Proof.
  induction sizes as [|s r IH]; intros values a lo Hs H Ha Hlo; inversion H; subst; cbn [combine fold_left zsum fold_right fst snd].
  - rewrite Z.add_0_r. exact Ha.
  - change (fold_right Z.add 0) with zsum. replace (lo + (s + zsum r)) with ((lo + s) + zsum r) by ring.
    pose proof (Hs s (or_introl eq_refl)). apply IH; [intros; apply Hs; now right|assumption| |lia].
    rewrite pow2_split by lia. nia.
Qed.

Lemma horner_inj sizes : (forall s, In s sizes -> 0 <= s) -> forall v1 v2 a1 a2,
  Forall2 (fun s x => 0 <= x < 2 ^ s) sizes v1 -> Forall2 (fun s x => 0 <= x < 2 ^ s) sizes v2 ->
  fold_left (fun acc sv => acc * 2 ^ fst sv + snd sv) (combine sizes v1) a1 =
  fold_left (fun acc sv => acc * 2 ^ fst sv + snd sv) (combine sizes v2) a2 -> a1 = a2 /\ v1 = v2.
Proof.
  intros Hs. induction sizes as [|s r IH]; intros v1 v2 a1 a2 H1 H2 E; inversion H1; inversion H2; subst; cbn in E.
  - auto.
  - apply IH in E; [|intros; apply Hs; now right|assumption|assumption]. destruct E as [E ->].
    pose proof (Hs s (or_introl eq_refl)).
    assert (a1 = a2 \/ a1 <= a2 - 1 \/ a2 + 1 <= a1) as [->|[C|C]] by lia.
    + split; [reflexivity|]. f_equal. lia.
    + exfalso. nia.
    + exfalso. nia.
Qed.

Lemma horner_surj sizes : (forall s, In s sizes -> 0 <= s) -> forall a z,
  a * 2 ^ zsum sizes <= z < (a + 1) * 2 ^ zsum sizes ->
  exists values, Forall2 (fun s x => 0 <= x < 2 ^ s) sizes values /\
    fold_left (fun acc sv => acc * 2 ^ fst sv + snd sv) (combine sizes values) a = z.
Proof.
  intros Hs. induction sizes as [|s r IH]; intros a z Hz.
  - cbn in Hz. exists []. split; [constructor|]. cbn. lia.
  - cbn [zsum fold_right] in Hz. change (fold_right Z.add 0) with zsum in Hz.
    assert (0 <= s) by (apply Hs; now left).
    assert (Hr : forall s, In s r -> 0 <= s) by (intros; apply Hs; now right).
    assert (0 <= zsum r).
    { clear - Hr. induction r; cbn; [lia|]. change (fold_right Z.add 0) with zsum. pose proof (Hr a (or_introl eq_refl)).
      specialize (IHr ltac:(intros; apply Hr; now right)). lia. }
    rewrite pow2_split in Hz by lia.
    pose proof (pow2_pos s ltac:(lia)). pose proof (pow2_pos (zsum r) ltac:(lia)).
    set (Pr := 2 ^ zsum r) in *. set (y := z / Pr).
    assert (a * 2 ^ s <= y) by (apply Z.div_le_lower_bound; nia).
    assert (y < (a + 1) * 2 ^ s) by (apply Z.div_lt_upper_bound; nia).
    destruct (IH Hr y z) as (vs & V1 & V2).
    { pose proof (Z.div_mod z Pr ltac:(lia)). pose proof (Z.mod_pos_bound z Pr ltac:(lia)). fold y in H5. nia. }
    exists ((y - a * 2 ^ s) :: vs). split; [constructor; [lia|exact V1]|].
    cbn [combine fold_left fst snd]. replace (a * 2 ^ s + (y - a * 2 ^ s)) with y by ring. exact V2.
Qed.

Lemma zsum_nth_dec ms n m vs : nth_error ms n = Some m -> 1 < m ->
  0 <= zsum (map (fun a => nth n a 0) (map (crt_decompose ms) vs)) <= Z.of_nat (length vs) * m /\
  eqm m (zsum (map (fun a => nth n a 0) (map (crt_decompose ms) vs))) (zsum vs).
Proof.
  intros E Hm. induction vs as [|v vs IH]; cbn [map zsum fold_right length]; [split; [lia|reflexivity]|].
  change (fold_right Z.add 0) with zsum. rewrite (dec_nth ms v n m E). pose proof (Z.mod_pos_bound v m ltac:(lia)).
  destruct IH as [B1 B2]. rewrite Nat2Z.inj_succ. split; [nia|]. rewrite B2, eqm_mod_l. reflexivity.
Qed.

Lemma crt_reduce_sum_dec ms vs : crt_ok ms -> (forall m, In m ms -> Z.of_nat (length vs) * m < 2 ^ 31) ->
  crt_reduce_sum ms (map (crt_decompose ms) vs) = crt_decompose ms (zsum vs).
Proof.
  intros Hok HL. unfold crt_reduce_sum. unfold crt_decompose at 2.
  pose proof Hok as (_ & F & _). rewrite Forall_forall in F.
  apply nth_ext with (d := 0) (d' := 0).
  - rewrite !map_length, combine_length, seq_length. lia.
  - intros n Hn. rewrite map_length, combine_length, seq_length in Hn.
    assert (Hn' : (n < length ms)%nat) by lia.
    destruct (nth_error ms n) as [m|] eqn:E; [|apply nth_error_None in E; lia].
    assert (Em : nth n ms 0 = m) by (eapply nth_error_nth; eauto).
    set (f := fun im : nat * Z => _).
    rewrite nth_indep with (d' := f (0%nat, 0)) by (rewrite map_length, combine_length, seq_length; lia).
    rewrite (map_nth f). rewrite combine_nth by (rewrite seq_length; reflexivity). rewrite seq_nth by lia.
    rewrite Em. subst f. cbn [fst snd plus].
    rewrite nth_indep with (d' := (fun m => zsum vs mod m) 0) by (rewrite map_length; lia).
    rewrite (map_nth (fun m => zsum vs mod m)), Em.
    assert (Hm := nth_error_In _ _ E). specialize (F m Hm). specialize (HL m Hm).
    destruct (zsum_nth_dec ms n m vs E F) as [B1 B2].
    rewrite small32 by lia. exact B2.
Qed.

(** accumulators *)
Lemma acc_bound m xs ys j : 1 < m -> m * m * 1024 < 2 ^ 31 - 1 ->
  (forall x, In x xs -> 0 <= x < m) -> (forall y, In y ys -> 0 <= y < m) ->
  Z.of_nat (length xs) <= 1024 -> 0 <= zdot (firstn j xs) (firstn j ys) < 2 ^ 31.
Proof.
  intros Hm Ha Hx Hy HL.
  assert (G : forall xs ys, (forall x, In x xs -> 0 <= x < m) -> (forall y, In y ys -> 0 <= y < m) ->
     0 <= zdot xs ys <= Z.of_nat (length xs) * (m * m)).
  { clear. intros xs. induction xs as [|x xs IH]; intros [|y ys] Hx Hy; unfold zdot in *; cbn [combine map zsum fold_right length]; try nia.
    change (fold_right Z.add 0) with zsum. cbn [fst snd].
    pose proof (Hx x (or_introl eq_refl)). pose proof (Hy y (or_introl eq_refl)).
    specialize (IH ys ltac:(intros; apply Hx; now right) ltac:(intros; apply Hy; now right)). nia. }
  assert (I : forall (l : list Z) x, In x (firstn j l) -> In x l).
  { intros l x H. rewrite <- (firstn_skipn j l). apply in_app_iff. now left. }
  pose proof (G (firstn j xs) (firstn j ys) ltac:(eauto) ltac:(eauto)) as H.
  rewrite firstn_length in H. assert (Z.of_nat (Nat.min j (length xs)) * (m * m) <= 1024 * (m * m)) by nia. lia.
Qed.

Lemma zsum_repeat v n : zsum (repeat v n) = Z.of_nat n * v.
Proof.
  induction n; cbn [repeat zsum fold_right]; [reflexivity|]. change (fold_right Z.add 0) with zsum. rewrite IHn. lia.
Qed.
Lemma map_repeat {A B} (f : A -> B) a n : map f (repeat a n) = repeat (f a) n.
Proof. induction n; cbn; congruence. Qed.

(** samplers *)
Lemma sample_uniform_onto ms x : crt_wf ms x ->
  exists draw, (forall i maxval, 0 < maxval -> 0 <= draw i maxval < maxval) /\ crt_sample_uniform ms draw = x.
Proof.
  intros W. exists (fun i maxval => (nth i x 0) mod maxval). split.
  - intros; apply Z.mod_pos_bound; assumption.
  - unfold crt_sample_uniform. apply nth_ext with (d := 0) (d' := 0).
    + rewrite map_length, combine_length, seq_length, (crt_wf_length _ _ W). lia.
    + intros n Hn. rewrite map_length, combine_length, seq_length in Hn.
      set (f := fun im : nat * Z => _).
      rewrite nth_indep with (d' := f (0%nat, 0)) by (rewrite map_length, combine_length, seq_length; lia).
      rewrite (map_nth f). rewrite combine_nth by (rewrite seq_length; reflexivity). rewrite seq_nth by lia.
      subst f. cbn [fst snd plus]. apply Z.mod_small.
      assert (Hn' : (n < length ms)%nat) by lia. clear Hn. revert n Hn'.
      induction W as [|a m x ms Ha W IH]; intros n Hn; cbn [length] in Hn; [lia|].
      destruct n; cbn [nth]; [exact Ha|]. apply IH; lia.
Qed.

Lemma sample_seeded_residue ms draw i : (i < length ms)%nat -> nth i (crt_sample_seeded ms draw) 0 = draw i (last ms 0).
Proof.
  intros H. unfold crt_sample_seeded. set (f := fun i => draw i (last ms 0)).
  rewrite nth_indep with (d' := f 0%nat) by (rewrite map_length, seq_length; exact H).
  rewrite map_nth, seq_nth by exact H. reflexivity.
Qed.
