(** Operations composed of others and whole programs, seen by one server. *)
From Verif Require Import Base TensorModel Aby3Model Aby3Spec Aby3NetModel Aby3TraceModel Aby3TraceSpec Aby3Bits Aby3Proofs Aby3Fresh Aby3View Aby3Hide Aby3Draws Aby3Draws2 Aby3Draws3 Aby3Draws4.
From Coq Require Import Lia.

#[export] Hint Resolve t_rss_mul t_mul_raw t_matmul_raw t_and t_or t_truncate_heuristic t_mul_ab_qp t_mul_ab_pp t_b2a_single t_mul_pp t_mul_pq t_ks_round t_ks_loop t_ppa_ks t_sk_copy_loop t_sk_round t_sk_loop t_ppa_sk
  t_a2b_operands t_a2b t_carry_loop t_carry t_bit_extract t_msb t_less t_less_pq t_less_qp t_greater t_equal_zero t_equal t_select t_maximum t_cmp_swap t_relu t_vector_max t_b2a_bits t_b2a t_prod t_reduce_max_tree t_reduce_max_all t_pow_loop t_pow t_sort_step t_sort_loop t_sort : tdb.
#[export] Hint Resolve l_draw_local l_share l_zero_sharing l_ot l_rss_mul l_mul_raw l_matmul_raw l_and l_or l_secureq8 l_heuristic l_mul_ab_routine l_mul_ab_qp l_mul_ab_pp l_b2a_single l_mul_pp l_mul_pq l_ks_round l_ks_loop l_ppa_ks l_sk_round l_sk_loop l_ppa_sk
  l_a2b_operands l_a2b l_carry_loop l_carry l_bit_extract l_msb l_less l_less_pq l_less_qp l_greater l_equal_zero l_equal l_select l_maximum l_cmp_swap l_relu l_b2a_bits l_vector_max l_pow_loop l_pow l_sort_step l_sort_loop l_sort : ldb.

(** * Sharings of a known kind *)

Definition tw (d : dev) (ty : sty) (f : fac) (x x' : priv) : Prop := exists sc, twin d ty f sc x x'.
Lemma tw_twins d ty f x x' : tw d ty f x x' -> twins d x x'.
Proof. intros [sc T]. exists ty, f, sc. exact T. Qed.
Lemma twins_tw d x x' : twins d x x' -> twin d (pty x) (pfc x) (psc x) x x'.
Proof. intros (ty & f & sc & T). destruct (twin_is d ty f sc x x' T) as ((-> & -> & ->) & _). exact T. Qed.
Lemma twins_same d x x' : twins d x x' -> pty x' = pty x /\ pfc x' = pfc x /\ psc x' = psc x.
Proof. intros (ty & f & sc & T). destruct (twin_is d ty f sc x x' T) as ((-> & -> & ->) & (-> & -> & ->) & _). auto. Qed.
Lemma tw_is d ty f x x' : tw d ty f x x' -> pty x = ty /\ pfc x = f /\ ready ty f.
Proof. intros [sc T]. destruct (twin_is d ty f sc x x' T) as ((-> & -> & _) & _ & R). auto. Qed.
Lemma twins_ready d x x' : twins d x x' -> ready (pty x) (pfc x).
Proof. intros T. apply twins_tw in T. destruct (twin_is d _ _ _ _ _ T) as (_ & _ & R). exact R. Qed.
Lemma twins_server d x x' : twins d x x' -> server d.
Proof. intros (ty & f & sc & T). canon3. unfold server. destruct d; cbn [known] in *; try contradiction; auto. Qed.

(** Turns facts of kind [tw] into equations and facts of kind [twins]; the projections of the second run into those of the first. *)
Ltac kinds_ := repeat match goal with
  | T : twin ?d ?ty ?f ?sc ?x ?x' |- _ => lazymatch goal with _ : tw d ty f x x' |- _ => fail | _ => pose proof (ex_intro _ sc T : tw d ty f x x') end
  | T : tw ?d ?ty ?f ?x ?x' |- _ => lazymatch goal with _ : twins d x x' |- _ => fail | _ => pose proof (tw_twins d ty f x x' T); destruct (tw_is d ty f x x' T) as (? & ? & ?) end
  | T : two ?d ?f ?sc ?z ?z' |- _ => destruct T as [? ?] end;
  repeat match goal with
  | T : twins ?d ?x ?x' |- context[pty ?x'] => rewrite (proj1 (twins_same d x x' T))
  | T : twins ?d ?x ?x' |- context[pfc ?x'] => rewrite (proj1 (proj2 (twins_same d x x' T)))
  | T : twins ?d ?x ?x' |- context[psc ?x'] => rewrite (proj2 (proj2 (twins_same d x x' T)))
  | T : ptwin ?f ?sc ?q ?q' |- _ => lazymatch goal with _ : qfc q = f |- _ => fail | _ => destruct (ptwin_is f sc q q' T) as (? & ? & ?); subst q' end end.
Ltac rw_ := repeat match goal with
  | H : pty ?x = _ |- context[pty ?x] => rewrite H | H : pfc ?x = _ |- context[pfc ?x] => rewrite H
  | H : qfc ?x = _ |- context[qfc ?x] => rewrite H | H : qsc ?x = _ |- context[qsc ?x] => rewrite H end.
Ltac vassert := match goal with |- looks ?d (fun p => bind (assert_ ?b) (@?k p)) (fun q => bind (assert_ ?b) (@?k' q)) ?Q =>
  apply (v_assert_bind d b k k' Q); cbv beta; intros ? end.

Section Whole.
Context (colo : bool) (d : dev).
Lemma w_const f v sc : fok f -> looks d (fun _ => const colo f v sc) (fun _ => const colo f v sc) (ptwin f sc).
Proof. apply v_const. Qed.
Ltac old L T := eapply v_weaken; [eapply L; exact (twins_tw _ _ _ T)|]; cbv beta; intros; eexists; eassumption.
Ltac old2 L T U := eapply v_weaken; [eapply L; [exact (twins_tw _ _ _ T)|first [exact (twins_tw _ _ _ U)|exact U]]|]; cbv beta; intros; eexists; eassumption.
Lemma w_add x x' y y' : twins d x x' -> twins d y y' -> looks d (fun _ => add_pp colo x y) (fun _ => add_pp colo x' y') (tw d (pty x) (pfc x)).
Proof. intros X Y. old2 v_add_pp X Y. Qed.
Lemma w_sub x x' y y' : twins d x x' -> twins d y y' -> looks d (fun _ => sub_pp colo x y) (fun _ => sub_pp colo x' y') (tw d (pty x) (pfc x)).
Proof. intros X Y. old2 v_sub_pp X Y. Qed.
Lemma w_neg x x' : twins d x x' -> looks d (fun _ => negative colo x) (fun _ => negative colo x') (tw d (pty x) (pfc x)).
Proof. intros X. old v_negative X. Qed.
Lemma w_add_pq x x' f sc q q' : twins d x x' -> ptwin f sc q q' -> looks d (fun _ => add_pq colo x q) (fun _ => add_pq colo x' q') (tw d (pty x) (pfc x)).
Proof. intros X Y. old2 v_add_pq X Y. Qed.
Lemma w_sub_pq x x' f sc q q' : twins d x x' -> ptwin f sc q q' -> looks d (fun _ => sub_pq colo x q) (fun _ => sub_pq colo x' q') (tw d (pty x) (pfc x)).
Proof. intros X Y. old2 v_sub_pq X Y. Qed.
Lemma w_sub_qp x x' f sc q q' : twins d x x' -> ptwin f sc q q' -> looks d (fun _ => sub_qp colo q x) (fun _ => sub_qp colo q' x') (tw d (pty x) (pfc x)).
Proof. intros X Y. old2 v_sub_qp X Y. Qed.
Lemma w_shl k x x' : twins d x x' -> looks d (fun _ => lshift colo x k) (fun _ => lshift colo x' k) (tw d (pty x) (pfc x)).
Proof. intros X. old v_lshift X. Qed.
Lemma w_sar k x x' : 0 <= k -> twins d x x' -> looks d (fun _ => rshift colo x k) (fun _ => rshift colo x' k) (tw d (pty x) (pfc x)).
Proof. intros K X. eapply v_weaken; [eapply v_rshift; [exact K|exact (twins_tw _ _ _ X)]|]. intros. eexists. eassumption. Qed.
Lemma w_shr k x x' : 0 <= k -> twins d x x' -> looks d (fun _ => logical_rshift colo x k) (fun _ => logical_rshift colo x' k) (tw d (pty x) (pfc x)).
Proof. intros K X. eapply v_weaken; [eapply v_lrshift; [exact K|exact (twins_tw _ _ _ X)]|]. intros. eexists. eassumption. Qed.
Lemma w_cast f x x' : ready (pty x) f -> twins d x x' -> looks d (fun _ => cast colo f x) (fun _ => cast colo f x') (tw d (pty x) f).
Proof. intros K X. eapply v_weaken; [eapply v_cast; [exact K|exact (twins_tw _ _ _ X)]|]. intros. eexists. eassumption. Qed.
Lemma w_xor x x' y y' : twins d x x' -> twins d y y' -> looks d (fun _ => xor_pp colo x y) (fun _ => xor_pp colo x' y') (tw d Bool_ (pfc x)).
Proof. intros X Y. eapply v_weaken; [eapply v_xor_pp; [exact (twins_tw _ _ _ X)|exact (twins_tw _ _ _ Y)]|]. intros a a' (T & _). eexists. exact T. Qed.
Lemma w_xor_pq x x' f sc q q' : twins d x x' -> ptwin f sc q q' -> looks d (fun _ => xor_pq colo x q) (fun _ => xor_pq colo x' q') (tw d Bool_ (pfc x)).
Proof. intros X Y. eapply v_weaken; [eapply v_xor_pq; [exact (twins_tw _ _ _ X)|exact Y]|]. intros a a' (T & _). eexists. exact T. Qed.
Lemma w_and_pq x x' f sc q q' : twins d x x' -> ptwin f sc q q' -> looks d (fun _ => and_pq colo x q) (fun _ => and_pq colo x' q') (tw d Bool_ (pfc x)).
Proof. intros X Y. eapply v_weaken; [eapply v_and_pq; [exact (twins_tw _ _ _ X)|exact Y]|]. intros a a' (T & _). eexists. exact T. Qed.
Lemma w_not x x' : twins d x x' -> looks d (fun _ => not_p colo x) (fun _ => not_p colo x') (tw d Bool_ (pfc x)).
Proof. intros X. eapply v_weaken; [eapply v_not; exact (twins_tw _ _ _ X)|]. intros a a' (T & _). eexists. exact T. Qed.
Lemma w_and x x' y y' : twins d x x' -> twins d y y' -> looks d (fun p => and_pp p colo x y) (fun p => and_pp p colo x' y') (tw d Bool_ (pfc x)).
Proof.
  intros X Y. unfold and_pp, is_arith. kinds_. vassert. apply twins_tw in X, Y.
  destruct (pty x); [discriminate|]. destruct (pty y); [discriminate|]. cbn in H. apply fac_eqb_eq in H. rewrite <- H in Y.
  eapply v_weaken; [eapply (v_rss colo d Bool_ (pfc x) Z.land); [exact X|exact Y|]|intros; eexists; eassumption].
  intros. apply word_land; [|assumption|assumption]. destruct (twin_is d _ _ _ _ _ X) as (_ & _ & R). apply R.
Qed.
Lemma w_mul_raw x x' y y' : pty x = Arith -> twins d x x' -> twins d y y' -> looks d (fun p => mul_pp_raw p colo x y) (fun p => mul_pp_raw p colo x' y') (tw d Arith (pfc x)).
Proof.
  intros A X Y. unfold mul_pp_raw. pose proof (twins_ready d _ _ X) as R. kinds_. apply twins_tw in X, Y. rewrite A in X, R.
  assert (E : wadd (pfc x) = gadd Arith (pfc x)) by (destruct (proj2 R eq_refl) as [n ->]; reflexivity). rewrite E.
  eapply v_weaken; [eapply v_rss; [exact X|exact Y|]|intros; eexists; eassumption].
  intros. apply word_fcast, R.
Qed.
Lemma w_secureq8 am x x' : twins d x x' -> looks d (fun p => truncate_secureq8 p colo am x) (fun p => truncate_secureq8 p colo am x') (tw d (pty x) (pfc x)).
Proof. intros X. old v_secureq8 X. Qed.
Lemma w_operands x x' : pty x = Arith -> twins d x x' -> looks d (fun p => a2b_operands p colo x) (fun p => a2b_operands p colo x') (two d (pfc x) (psc x)).
Proof. intros A X. eapply v_operands; [exact A|]. exact (twins_tw _ _ _ X). Qed.

Ltac two_ := first [eassumption|eapply tw_twins; eassumption].
Ltac rdy := rw_; repeat match goal with
  | |- ready _ _ => split; [|intros; try discriminate] | |- fok FB => exact I | H : ready _ ?f |- fok ?f => exact (proj1 H)
  | T : twins d ?x _ |- fok (pfc ?x) => exact (proj1 (twins_ready d _ _ T)) end; try assumption.
Ltac vop := first
  [ simple eapply w_const; solve [rdy] | simple eapply w_add; two_ | simple eapply w_sub; two_ | simple eapply w_neg; two_ | simple eapply w_add_pq; two_ | simple eapply w_sub_pq; two_
  | simple eapply w_sub_qp; two_ | simple eapply w_shl; two_ | simple eapply w_sar; [solve [auto with zarith]|two_] | simple eapply w_xor; two_ | simple eapply w_xor_pq; two_ | simple eapply w_and_pq; two_ | simple eapply w_not; two_
  | simple eapply w_and; two_ | simple eapply w_secureq8; two_ | simple eapply w_operands; [rw_; solve [auto]|two_] | simple eapply w_cast; [solve [rdy]|two_] ].
Ltac vgo1 := first [vassert|vbind; [first [vop|idtac]|cbv beta; intros]]; kinds_; rw_.
Ltac vend := eapply v_weaken; [vop|]; cbv beta; intros; kinds_; rw_; try assumption.

Lemma w_or x x' y y' : twins d x x' -> twins d y y' -> looks d (fun p => or_pp p colo x y) (fun p => or_pp p colo x' y') (tw d Bool_ (pfc x)).
Proof. intros X Y. unfold or_pp. vgo1. vgo1. vend. congruence. Qed.

Lemma w_heuristic sc am x x' : twins d x x' -> looks d (fun p => truncate_heuristic p colo sc am x) (fun p => truncate_heuristic p colo sc am x') (tw d (pty x) (pfc x)).
Proof.
  intros X. unfold truncate_heuristic. kinds_. apply v_if; [apply v_raise|]. vgo1. vgo1. vgo1. apply v_if; [apply v_raise|]. vgo1. vend. congruence.
Qed.
Lemma w_mul sc x x' y y' : pty x = Arith -> twins d x x' -> twins d y y' -> looks d (fun p => mul_pp p colo sc x y) (fun p => mul_pp p colo sc x' y') (tw d Arith (pfc x)).
Proof.
  intros A X Y. unfold mul_pp. vbind; [apply w_mul_raw; assumption|]. cbv beta. intros z z' T. kinds_. apply v_if; [|apply v_ret; assumption].
  eapply v_weaken; [apply w_heuristic; two_|]. intros. congruence.
Qed.
Lemma w_mul_pq sc x x' f s q q' : twins d x x' -> ptwin f s q q' -> looks d (fun p => mul_pq p colo sc x q) (fun p => mul_pq p colo sc x' q') (tw d (pty x) (pfc x)).
Proof.
  intros X Q. unfold mul_pq. pose proof (twins_ready d _ _ X) as R. kinds_. vbind.
  - eapply v_sharewise_pub; [exact (twins_tw _ _ _ X)|exact Q|]. intros. apply word_fcast, R.
  - cbv beta. intros z z' T. kinds_. apply v_if; [|apply v_ret; assumption].
    eapply v_weaken; [apply w_heuristic; two_|]. intros. congruence.
Qed.
Lemma w_mul_ab_qp x x' f s q q' : ready Arith f -> twins d x x' -> ptwin f s q q' -> looks d (fun p => mul_ab_qp p colo q x) (fun p => mul_ab_qp p colo q' x') (tw d Arith f).
Proof.
  intros R X (v & -> & -> & Wv). unfold mul_ab_qp, is_arith. kinds_. vassert. apply twins_tw in X. destruct (pty x); [discriminate|].
  generalize dependent (pfc x). generalize dependent (psc x). intros sx fx X. canon3. cbn [qfc qsc q2 mkq].
  eapply v_weaken; [|intros; eexists; eassumption].
  assert (Wd : forall v, word f (fcast f v)) by (intros; apply word_fcast, R). destruct (proj2 R eq_refl) as [n En].
  apply v_mul_ab_2; auto; try (subst f; reflexivity); try exact (proj1 R); subst f; intros; apply (Wd (_ + _)) || apply (Wd (_ - _)).
Qed.
Lemma w_mul_ab x x' y y' : twins d x x' -> twins d y y' -> looks d (fun p => mul_ab_pp p colo x y) (fun p => mul_ab_pp p colo x' y') (tw d Arith (pfc x)).
Proof.
  intros X Y. unfold mul_ab_pp, is_arith. pose proof (twins_ready d _ _ X) as R. kinds_. vassert. apply twins_tw in X, Y.
  destruct (pty x); [|discriminate]. destruct (pty y); [discriminate|].
  assert (Wd : forall v, word (pfc x) (fcast (pfc x) v)) by (intros; apply word_fcast, R). destruct (proj2 R eq_refl) as [n En].
  generalize dependent (pfc x). generalize dependent (psc x). generalize dependent (pfc y). generalize dependent (psc y). intros sy fy Y sx f X R Wd En.
  destruct X as (a0 & b0 & c0 & a0' & b0' & c0' & -> & -> & _ & ? & ? & ? & ? & ? & ? & KX).
  destruct Y as (a & b & c & a' & b' & c' & -> & -> & _ & ? & ? & ? & ? & ? & ? & KY).
  cbn [p00 p10 p11 mk3]. fold (mk3 Bool_ fy sy a b c). fold (mk3 Bool_ fy sy a' b' c').
  vbind.
  - apply (v_mul_ab_0 colo d f sx a0 a0' sy fy a b c a' b' c'); auto; try (subst f; reflexivity); try exact (proj1 R); try (subst f; intros; apply (Wd (_ + _)) || apply (Wd (_ - _))).
    intros ->. apply KX.
  - cbv beta. intros w w' T. vbind.
    + apply (v_quiet d _ _ (fun z z' => exists v v', z = MkV S1 v /\ z' = MkV S1 v' /\ (d = S1 -> v = v') /\ word f v /\ word f v')); [quiet|quiet|].
      intros s. cbn. split.
      * destruct d; cbn [known] in KX; try contradiction; destruct KX; subst; reflexivity.
      * do 2 eexists. split; [reflexivity|]. split; [reflexivity|]. split; [intros ->; destruct KX; subst; reflexivity|]. split; apply (Wd (_ + _)).
    + cbv beta. intros z z' (v & v' & -> & -> & Ev & Wv & Wv'). vbind.
      * apply (v_mul_ab_1 colo d f sx v v' sy fy a b c a' b' c'); auto; try (subst f; reflexivity); try exact (proj1 R); try (subst f; intros; apply (Wd (_ + _)) || apply (Wd (_ - _))).
      * cbv beta. intros z z' T'. kinds_. vend. congruence.
Qed.
Lemma w_b2a_single g x x' : ready Arith g -> twins d x x' -> looks d (fun p => b2a_single p colo g x) (fun p => b2a_single p colo g x') (tw d Arith g).
Proof. intros R X. unfold b2a_single, is_arith. kinds_. vassert. vgo1. eapply w_mul_ab_qp; eassumption. Qed.

Definition both (f : fac) (z z' : priv * priv) : Prop := tw d Bool_ f (fst z) (fst z') /\ tw d Bool_ f (snd z) (snd z').
Lemma w_ks_round i f G G' P P' : tw d Bool_ f G G' -> tw d Bool_ f P P' -> looks d (fun p => ks_round p colo i G P) (fun p => ks_round p colo i G' P') (both f).
Proof.
  intros TG TP. unfold ks_round. cbv zeta. kinds_. rw_. do 7 vgo1. apply v_ret. split; cbn; congruence.
Qed.
Lemma w_ks_loop f n : forall i G G' P P', tw d Bool_ f G G' -> tw d Bool_ f P P' -> looks d (fun p => ks_loop p colo n i G P) (fun p => ks_loop p colo n i G' P') (both f).
Proof.
  induction n as [|n IH]; intros i G G' P P' TG TP; cbn [ks_loop]; [apply v_ret; split; assumption|].
  vbind; [apply (w_ks_round i f); assumption|]. intros z z' [A B]. apply IH; assumption.
Qed.
Lemma w_ppa_ks x x' y y' nb : twins d x x' -> twins d y y' -> looks d (fun p => ppa_ks p colo x y nb) (fun p => ppa_ks p colo x' y' nb) (tw d Bool_ (pfc x)).
Proof.
  intros X Y. unfold ppa_ks. cbv zeta. kinds_. vassert. apply v_if; [apply v_raise|]. vgo1. vgo1. vbind; [apply (w_ks_loop (pfc x)); assumption|]. intros z z' [A B].
  do 3 vgo1. apply v_if; [vgo1; vend; congruence|]. apply v_ret. congruence.
Qed.
Lemma w_sk_copy n f : forall j G G', tw d Bool_ f G G' -> looks d (fun p => sk_copy_loop colo n j G) (fun p => sk_copy_loop colo n j G') (tw d Bool_ f).
Proof.
  induction n as [|n IH]; intros j G G' T; cbn [sk_copy_loop]; [apply v_ret; assumption|]. kinds_. do 2 vgo1. apply IH. congruence.
Qed.
Lemma w_sk_round i f G G' P P' : tw d Bool_ f G G' -> tw d Bool_ f P P' -> looks d (fun p => sk_round p colo i G P) (fun p => sk_round p colo i G' P') (both f).
Proof.
  intros TG TP. unfold sk_round. cbv zeta. kinds_. rw_. do 6 vgo1. vbind; [apply (w_sk_copy i f); congruence|]. intros. vbind; [apply (w_sk_copy i f); congruence|]. intros. kinds_.
  do 4 vgo1. apply v_ret. split; cbn; congruence.
Qed.
Lemma w_sk_loop f n : forall i G G' P P', tw d Bool_ f G G' -> tw d Bool_ f P P' -> looks d (fun p => sk_loop p colo n i G P) (fun p => sk_loop p colo n i G' P') (both f).
Proof.
  induction n as [|n IH]; intros i G G' P P' TG TP; cbn [sk_loop]; [apply v_ret; split; assumption|].
  vbind; [apply (w_sk_round i f); assumption|]. intros z z' [A B]. apply IH; assumption.
Qed.
Lemma w_ppa_sk x x' y y' nb : twins d x x' -> twins d y y' -> looks d (fun p => ppa_sk p colo x y nb) (fun p => ppa_sk p colo x' y' nb) (tw d Bool_ (pfc x)).
Proof.
  intros X Y. unfold ppa_sk. cbv zeta. kinds_. vassert. apply v_if; [apply v_raise|]. vgo1. vgo1. vbind; [apply (w_sk_loop (pfc x)); assumption|]. intros z z' [A B].
  do 2 vgo1. vend. congruence.
Qed.
Lemma w_a2b nb x x' : twins d x x' -> looks d (fun p => a2b p colo nb x) (fun p => a2b p colo nb x') (tw d Bool_ (pfc x)).
Proof.
  intros X. unfold a2b, is_arith. kinds_. vassert. assert (pty x = Arith) by (destruct (pty x); congruence). vgo1.
  eapply v_weaken; [apply w_ppa_ks; two_|]. intros. congruence.
Qed.
Lemma gather2_word f i v : fok f -> word f (gather2 (fbits f) i v).
Proof.
  intros F. assert (H : forall l acc m, 0 <= acc < 2 ^ m -> (forall t, In t l -> Z.of_nat t < m) ->
    0 <= fold_left (fun acc t => if Z.testbit v (i + 2 * Z.of_nat t) then Z.lor acc (Z.shiftl 1 (Z.of_nat t)) else acc) l acc < 2 ^ m).
  { induction l as [|t l IH]; intros acc m A L; cbn [fold_left]; [exact A|]. apply IH; [|intros; apply L; right; assumption].
    destruct (Z.testbit _ _); [|exact A]. assert (T : Z.of_nat t < m) by (apply L; left; reflexivity). rewrite Z.shiftl_1_l.
    split; [apply Z.lor_nonneg; split; [lia|apply Z.pow_nonneg; lia]|].
    destruct (Z.eq_dec (Z.lor acc (2 ^ Z.of_nat t)) 0) as [->|N]; [apply pow2_pos; lia|].
    apply Z.log2_lt_pow2; [assert (0 <= Z.lor acc (2 ^ Z.of_nat t)) by (apply Z.lor_nonneg; split; [lia|apply Z.pow_nonneg; lia]); lia|].
    rewrite Z.log2_lor; [|lia|apply Z.pow_nonneg; lia]. rewrite Z.log2_pow2 by lia. apply Z.max_lub_lt; [|exact T].
    destruct (Z.eq_dec acc 0) as [->|]; [cbn; lia|]. apply Z.log2_lt_pow2; lia. }
  unfold gather2. destruct f as [|n]; cbn [fbits fok word] in *; [left; reflexivity|].
  assert (X := H (seq 0 (Z.to_nat (n / 2))) 0 (n / 2)). assert (D : 0 <= n / 2 <= n - 1).
  { split; [apply Z.div_pos; lia|]. assert (2 * (n / 2) <= n) by (apply Z.mul_div_le; lia). assert (n / 2 < n) by (apply Z.div_lt; lia). lia. }
  assert (P := pow2_pos (n / 2) ltac:(lia)).
  assert (Q : 2 ^ (n / 2) <= 2 ^ (n - 1)) by (apply Z.pow_le_mono_r; lia).
  destruct X as [X1 X2]; [lia| |unfold in_s; lia].
  intros t I. apply in_seq in I. lia.
Qed.
Lemma w_gather i f x x' : tw d Bool_ f x x' -> looks d (fun _ => sharewise colo (gather2 (fbits f) i) f x) (fun _ => sharewise colo (gather2 (fbits f) i) f x') (tw d Bool_ f).
Proof.
  intros [sc T]. destruct (twin_is d _ _ _ _ _ T) as (_ & _ & R). eapply v_weaken; [eapply v_sharewise; [exact T|exact R|]|intros; eexists; eassumption].
  intros. apply gather2_word, R.
Qed.
Lemma fac_of_ok k : ready Bool_ (fac_of k).
Proof. split; [|discriminate]. unfold fac_of. destruct (k <=? 8) eqn:E; cbn; lia. Qed.
Lemma w_cast_b g f x x' : ready Bool_ g -> tw d Bool_ f x x' -> looks d (fun _ => cast colo g x) (fun _ => cast colo g x') (tw d Bool_ g).
Proof. intros R T. kinds_. eapply v_weaken; [eapply w_cast; [rw_; exact R|two_]|]. intros. congruence. Qed.
Definition boolean (z z' : priv) : Prop := exists f, tw d Bool_ f z z'.
Ltac gc := vbind; [apply w_gather; assumption|]; cbv beta; intros; vbind; [eapply w_cast_b; [apply fac_of_ok|eassumption]|]; cbv beta; intros.
Lemma w_carry_loop n : forall k f G G' P P', tw d Bool_ f G G' -> tw d Bool_ f P P' -> looks d (fun p => carry_loop p colo n k G P) (fun p => carry_loop p colo n k G' P') boolean.
Proof.
  induction n as [|n IH]; intros k f G G' P P' TG TP; cbn [carry_loop]; [apply v_ret; exists f; assumption|]. cbv zeta. kinds_. rw_.
  gc. gc. gc. gc. kinds_. do 3 vgo1. apply (IH _ (fac_of (k / 2))); congruence.
Qed.
Lemma w_carry x x' y y' pos : twins d x x' -> twins d y y' -> looks d (fun p => carry p colo x y pos) (fun p => carry p colo x' y' pos) boolean.
Proof.
  intros X Y. unfold carry. unfold is_arith. kinds_. vassert. apply v_if; [apply v_raise|]. cbv zeta.
  assert (A : pty x = Bool_ /\ pty y = Bool_) by (destruct (pty x), (pty y); try discriminate; auto). destruct A as [A B].
  vbind; [apply (v_if d _ _ _ _ _ (tw d (pty x) (pfc x))); [apply v_ret; eexists; exact (twins_tw _ _ _ X)|apply w_shl; assumption]|]. cbv beta. intros u u' U. rewrite A in U.
  vbind; [apply (v_if d _ _ _ _ _ (tw d (pty y) (pfc y))); [apply v_ret; eexists; exact (twins_tw _ _ _ Y)|apply w_shl; assumption]|]. cbv beta. intros v v' V. rewrite B in V. kinds_.
  vbind; [apply (v_if d _ _ _ _ _ boolean); [apply v_ret; eexists; exact U|eapply v_weaken; [eapply w_cast_b; [apply fac_of_ok|exact U]|intros; eexists; eassumption]]|].
  cbv beta. intros u1 u1' [f1 U1].
  vbind; [apply (v_if d _ _ _ _ _ boolean); [apply v_ret; eexists; exact V|eapply v_weaken; [eapply w_cast_b; [apply fac_of_ok|exact V]|intros; eexists; eassumption]]|].
  cbv beta. intros v1 v1' [f2 V1]. kinds_. vgo1. vgo1.
  vbind; [eapply w_carry_loop; [eassumption|congruence]|]. cbv beta. intros z z' [h T]. kinds_. vgo1. eapply v_weaken; [vop|]. intros. eexists. eassumption.
Qed.
Lemma unscale_tw ty f x x' : tw d ty f x x' -> tw d ty f (unscale x) (unscale x').
Proof. intros [sc T]. exists false. canon3. unfold unscale. cbn. prove_twin; assumption. Qed.
Lemma ready_FB : ready Bool_ FB. Proof. split; [exact I|discriminate]. Qed.
Lemma w_bit_extract i x x' : 0 <= i -> twins d x x' -> looks d (fun p => bit_extract p colo x i) (fun p => bit_extract p colo x' i) (tw d Bool_ FB).
Proof.
  intros I X. unfold bit_extract, is_arith. kinds_. vgo1. destruct (pty x) eqn:A.
  - vgo1. vbind; [apply w_carry; two_|]. cbv beta. intros z z' [h T]. kinds_. do 3 vgo1.
    vbind; [eapply (w_cast_b h); [assumption|eassumption]|]. cbv beta. intros. kinds_. vgo1.
    vbind; [eapply w_cast_b; [apply ready_FB|eassumption]|]. cbv beta. intros. apply v_ret. apply unscale_tw. assumption.
  - vgo1. vgo1. vbind; [eapply w_cast_b; [apply ready_FB|eassumption]|]. cbv beta. intros. apply v_ret. apply unscale_tw. assumption.
Qed.

Lemma w_msb x x' : pfc x <> FB -> twins d x x' -> looks d (fun p => msb p colo x) (fun p => msb p colo x') (tw d Bool_ FB).
Proof.
  intros N X. unfold msb. pose proof (twins_ready d _ _ X) as [F _]. kinds_. apply w_bit_extract; [|exact X].
  destruct (pfc x) as [|n]; [contradiction|]. cbn in *. lia.
Qed.
Lemma arith_FI x x' : pty x = Arith -> twins d x x' -> pfc x <> FB.
Proof. intros A X. destruct (twins_ready d _ _ X) as [_ R]. destruct (R A) as [n ->]. discriminate. Qed.
Ltac arith_of x := assert (pty x = Arith) by (destruct (pty x); [reflexivity|discriminate]).
Ltac msb_ := apply w_msb; [eapply arith_FI; [|two_]; congruence|two_].
Lemma w_less x x' y y' : twins d x x' -> twins d y y' -> looks d (fun p => less_than p colo x y) (fun p => less_than p colo x' y') (tw d Bool_ FB).
Proof. intros X Y. unfold less_than, is_arith. kinds_. vassert. arith_of x. vgo1. msb_. Qed.
Lemma w_less_pq x x' f sc q q' : twins d x x' -> ptwin f sc q q' -> looks d (fun p => less_than_pq p colo x q) (fun p => less_than_pq p colo x' q') (tw d Bool_ FB).
Proof. intros X Y. unfold less_than_pq, is_arith. kinds_. vassert. arith_of x. vgo1. msb_. Qed.
Lemma w_less_qp x x' f sc q q' : twins d x x' -> ptwin f sc q q' -> looks d (fun p => less_than_qp p colo q x) (fun p => less_than_qp p colo q' x') (tw d Bool_ FB).
Proof. intros X Y. unfold less_than_qp, is_arith. kinds_. vassert. arith_of x. vgo1. msb_. Qed.
Lemma w_greater x x' y y' : twins d x x' -> twins d y y' -> looks d (fun p => greater_than p colo x y) (fun p => greater_than p colo x' y') (tw d Bool_ FB).
Proof. intros X Y. unfold greater_than. apply w_less; assumption. Qed.
Lemma w_equal_zero x x' : pty x = Arith -> twins d x x' -> looks d (fun p => equal_zero p colo x) (fun p => equal_zero p colo x') (tw d Bool_ FB).
Proof.
  intros A X. unfold equal_zero. vgo1. vbind; [msb_|]. cbv beta. intros. kinds_. vbind; [msb_|]. cbv beta. intros. kinds_. vgo1. vgo1.
  eapply v_weaken; [vop|]. intros. congruence.
Qed.
Lemma w_equal x x' y y' : twins d x x' -> twins d y y' -> looks d (fun p => equal p colo x y) (fun p => equal p colo x' y') (tw d Bool_ FB).
Proof. intros X Y. unfold equal, is_arith. kinds_. vassert. arith_of x. vgo1. apply w_equal_zero; [congruence|two_]. Qed.
Lemma w_select c c' x x' y y' : twins d c c' -> twins d x x' -> twins d y y' -> looks d (fun p => select p colo c x y) (fun p => select p colo c' x' y') (twins d).
Proof.
  intros C X Y. unfold select, is_arith. kinds_. apply v_if.
  - vgo1. vgo1. eapply v_weaken; [vop|]. intros. two_.
  - vgo1. vbind; [apply w_mul_ab; two_|]. cbv beta. intros. kinds_. eapply v_weaken; [vop|]. intros. two_.
Qed.
Lemma w_maximum x x' y y' : twins d x x' -> twins d y y' -> looks d (fun p => maximum p colo x y) (fun p => maximum p colo x' y') (twins d).
Proof. intros X Y. unfold maximum. vbind; [apply w_greater; assumption|]. cbv beta. intros. kinds_. apply w_select; assumption. Qed.
Definition twos (z z' : priv * priv) : Prop := twins d (fst z) (fst z') /\ twins d (snd z) (snd z').
Lemma w_cmp_swap x x' y y' : twins d x x' -> twins d y y' -> looks d (fun p => cmp_swap p colo x y) (fun p => cmp_swap p colo x' y') twos.
Proof.
  intros X Y. unfold cmp_swap. vbind; [apply w_greater; assumption|]. cbv beta. intros. kinds_. vbind; [apply w_select; assumption|]. cbv beta. intros.
  vbind; [apply w_select; assumption|]. cbv beta. intros. apply v_ret. split; assumption.
Qed.
Lemma w_relu x x' : twins d x x' -> looks d (fun p => relu p colo x) (fun p => relu p colo x') (twins d).
Proof.
  intros X. unfold relu. kinds_. vgo1. vbind; [eapply w_less_qp; eassumption|]. cbv beta. intros. kinds_. vgo1. vgo1.
  vbind; [apply w_mul_ab; two_|]. cbv beta. intros. kinds_. eapply v_weaken; [vop|]. intros. two_.
Qed.

(** * Operations on lists *)

Lemma v_mapM {A B} (f f' : oracle -> A -> M B) (R : A -> A -> Prop) (Q : B -> B -> Prop) :
  (forall x, local (fun p => f p x)) -> (forall x, local (fun p => f' p x)) -> (forall p x, tidy (f p x)) -> (forall p x, tidy (f' p x)) ->
  (forall x x', R x x' -> looks d (fun p => f p x) (fun p => f' p x') Q) ->
  forall xs xs', Forall2 R xs xs' -> looks d (fun p => mapM (f p) xs) (fun p => mapM (f' p) xs') (Forall2 Q).
Proof.
  intros L L' T T' H. induction 1 as [|x x' xs xs' X XS IH]; cbn [mapM]; [apply v_ret; constructor|].
  assert (Lm : forall xs, local (fun p => mapM (f p) xs)) by (intros; apply (l_mapM f), L). assert (Lm' : forall xs, local (fun p => mapM (f' p) xs)) by (intros; apply (l_mapM f'), L').
  assert (Tm : forall p xs, tidy (mapM (f p) xs)) by (intros; apply t_mapM, T). assert (Tm' : forall p xs, tidy (mapM (f' p) xs)) by (intros; apply t_mapM, T').
  match goal with |- looks ?d (fun p => bind (@?m p) (@?k p)) (fun q => bind (@?m' q) (@?k' q)) ?Q => eapply (v_bind d m m' k k') end; cbv beta; eauto.
  - intros y. apply (l_bind (fun p => mapM (f p) xs) (fun _ ys => ret (y :: ys))); [apply Lm|intros; apply l_const].
  - intros p y. apply t_bind; [apply Tm|intros; apply q_tidy, q_ret].
  - intros p y. apply t_bind; [apply Tm'|intros; apply q_tidy, q_ret].
  - intros y y' Y. match goal with |- looks ?d (fun p => bind (@?m p) (@?k p)) (fun q => bind (@?m' q) (@?k' q)) ?Q => eapply (v_bind d m m' k k') end; cbv beta; eauto.
    + intros. apply l_const.
    + intros. apply q_tidy, q_ret.
    + intros. apply q_tidy, q_ret.
    + intros ys ys' YS. apply v_ret. constructor; assumption.
Qed.
Lemma f2_firstn {A B} (R : A -> B -> Prop) n xs ys : Forall2 R xs ys -> Forall2 R (firstn n xs) (firstn n ys).
Proof. intros H. revert n. induction H as [|x y xs ys X XS IH]; intros [|n]; cbn; auto. Qed.
Lemma f2_skipn {A B} (R : A -> B -> Prop) n xs ys : Forall2 R xs ys -> Forall2 R (skipn n xs) (skipn n ys).
Proof. intros H. revert n. induction H as [|x y xs ys X XS IH]; intros [|n]; cbn; auto. Qed.
Lemma f2_combine {A B} (R : A -> A -> Prop) (Q : B -> B -> Prop) xs xs' ys ys' : Forall2 R xs xs' -> Forall2 Q ys ys' ->
  Forall2 (fun p p' => R (fst p) (fst p') /\ Q (snd p) (snd p')) (combine xs ys) (combine xs' ys').
Proof. intros X. revert ys ys'. induction X as [|x x' xs xs' H XS IH]; intros ys ys' Y; cbn; [constructor|]. destruct Y; constructor; auto. Qed.
Lemma f2_same {A} (R : A -> A -> Prop) xs : (forall x, In x xs -> R x x) -> Forall2 R xs xs.
Proof. induction xs; constructor; cbn in *; auto. Qed.
Lemma f2_nth {A} (R : A -> A -> Prop) xs xs' i a a' : Forall2 R xs xs' -> R a a' -> R (nth i xs a) (nth i xs' a').
Proof. intros H. revert i. induction H; intros [|i] Q; cbn; auto. Qed.
Lemma v_tree {A} (op op' : oracle -> A -> A -> M A) (R : A -> A -> Prop) :
  (forall x y, local (fun p => op p x y)) -> (forall x y, local (fun p => op' p x y)) -> (forall p x y, tidy (op p x y)) -> (forall p x y, tidy (op' p x y)) ->
  (forall x x' y y', R x x' -> R y y' -> looks d (fun p => op p x y) (fun p => op' p x' y') R) ->
  forall fuel xs xs', Forall2 R xs xs' -> looks d (fun p => tree (op p) fuel xs) (fun p => tree (op' p) fuel xs') R.
Proof.
  intros L L' T T' H. induction fuel as [|fuel IH]; intros xs xs' X.
  - destruct X as [|x x' ? ? X [|y y' ? ? Y XS]]; cbn [tree]; [apply v_raise|apply v_ret; assumption|apply v_raise].
  - assert (Len := len2 _ _ _ X). destruct X as [|x x' ? ? X [|y y' l l' Y XS]]; [apply v_raise|apply v_ret; assumption|].
    change (looks d (fun p => do a <- tree (op p) fuel (firstn (Nat.div2 (length (x :: y :: l))) (x :: y :: l)); do b <- tree (op p) fuel (skipn (Nat.div2 (length (x :: y :: l))) (x :: y :: l)); op p a b)
      (fun p => do a <- tree (op' p) fuel (firstn (Nat.div2 (length (x' :: y' :: l'))) (x' :: y' :: l')); do b <- tree (op' p) fuel (skipn (Nat.div2 (length (x' :: y' :: l'))) (x' :: y' :: l')); op' p a b) R).
    rewrite <- Len. assert (X2 : Forall2 R (x :: y :: l) (x' :: y' :: l')) by (constructor; [assumption|constructor; assumption]).
    generalize dependent (x' :: y' :: l'). generalize dependent (x :: y :: l). clear x x' y y' l l' X Y XS. intros xs xs' _ X.
    assert (Lt : forall xs, local (fun p => tree (op p) fuel xs)) by (intros; apply l_tree; exact L). assert (Lt' : forall xs, local (fun p => tree (op' p) fuel xs)) by (intros; apply l_tree; exact L').
    assert (Tt : forall p xs, tidy (tree (op p) fuel xs)) by (intros; apply t_tree, T). assert (Tt' : forall p xs, tidy (tree (op' p) fuel xs)) by (intros; apply t_tree, T').
    match goal with |- looks ?d (fun p => bind (@?m p) (@?k p)) (fun q => bind (@?m' q) (@?k' q)) ?Q => eapply (v_bind d m m' k k') end; cbv beta; auto.
    + intros a. match goal with |- local (fun p => bind (@?m p) (@?k p)) => apply (l_bind m k) end; [apply Lt|intros; apply L].
    + intros p a. apply t_bind; [apply Tt|intros; apply T].
    + intros p a. apply t_bind; [apply Tt'|intros; apply T'].
    + apply IH, f2_firstn, X.
    + cbv beta. intros a a' Ra. match goal with |- looks ?d (fun p => bind (@?m p) (@?k p)) (fun q => bind (@?m' q) (@?k' q)) ?Q => eapply (v_bind d m m' k k') end; cbv beta; auto; [apply IH, f2_skipn, X|].
      cbv beta. intros. apply H; assumption.
Qed.

Lemma v_eq {A} (m m' n n' : oracle -> M A) R : (forall p, m p = n p) -> (forall p, m' p = n' p) -> looks d n n' R -> looks d m m' R.
Proof. intros E E'. apply v_ext; intros; rewrite ?E, ?E'; reflexivity. Qed.
Lemma w_vector_max fuel : forall xs xs', Forall2 (twins d) xs xs' -> looks d (fun p => vector_max p colo fuel xs) (fun p => vector_max p colo fuel xs') (twins d).
Proof.
  induction fuel as [|fuel IH]; intros xs xs' X.
  - destruct X as [|x x' ? ? X [|y y' ? ? Y XS]]; cbn [vector_max]; [apply v_raise|apply v_ret; assumption|apply v_raise].
  - assert (Len := len2 _ _ _ X). destruct X as [|x x' ? ? X [|y y' l l' Y XS]]; [apply v_raise|apply v_ret; assumption|].
    set (go := fun p (xs : list priv) => do ms <- mapM (fun q => maximum p colo (fst q) (snd q)) (combine (firstn (Nat.div2 (length xs) + Nat.modulo (length xs) 2) xs) (skipn (Nat.div2 (length xs)) xs)); vector_max p colo fuel ms).
    apply (v_eq _ _ (fun p => go p (x :: y :: l)) (fun p => go p (x' :: y' :: l'))); [reflexivity|reflexivity|]. unfold go.
    rewrite <- Len. assert (X2 : Forall2 (twins d) (x :: y :: l) (x' :: y' :: l')) by (constructor; [assumption|constructor; assumption]).
    generalize dependent (x' :: y' :: l'). generalize dependent (x :: y :: l). clear x x' y y' l l' X Y XS go. intros xs xs' _ X.
    assert (Lt : forall xs, local (fun p => mapM (fun q => maximum p colo (fst q) (snd q)) xs)) by (intros; apply (l_mapM (fun p q => maximum p colo (fst q) (snd q))); intros; loc).
    assert (Tt : forall p (xs : list (priv * priv)), tidy (mapM (fun q => maximum p colo (fst q) (snd q)) xs)) by (intros; apply t_mapM; intros; tidy).
    match goal with |- looks ?d (fun p => bind (@?m p) (@?k p)) (fun q => bind (@?m' q) (@?k' q)) ?Q => eapply (v_bind d m m' k k') end; cbv beta; auto.
    + intros. apply l_vector_max.
    + intros. apply t_vector_max.
    + intros. apply t_vector_max.
    + apply (v_mapM (fun p q => maximum p colo (fst q) (snd q)) (fun p q => maximum p colo (fst q) (snd q)) twos (twins d)); try solve [intros; cbv beta; loc]; try solve [intros; cbv beta; tidy].
      * intros z z' [A B]. apply w_maximum; assumption.
      * apply f2_combine; [apply f2_firstn, X|apply f2_skipn, X].
    + apply IH.
Qed.
Lemma w_max_tree xs xs' : Forall2 (twins d) xs xs' -> looks d (fun p => reduce_max_tree p colo xs) (fun p => reduce_max_tree p colo xs') (twins d).
Proof.
  intros X. unfold reduce_max_tree. rewrite <- (len2 _ _ _ X). apply (v_tree (fun p => maximum p colo) (fun p => maximum p colo)); try solve [intros; cbv beta; loc]; try solve [intros; cbv beta; tidy].
  intros. apply w_maximum; assumption.
Qed.
Lemma w_max_all xs xs' : Forall2 (twins d) xs xs' -> looks d (fun p => reduce_max_all p colo xs) (fun p => reduce_max_all p colo xs') (twins d).
Proof. intros X. unfold reduce_max_all. rewrite <- (len2 _ _ _ X). apply w_vector_max, X. Qed.
Definition aris (x x' : priv) : Prop := exists f, tw d Arith f x x'.
Lemma aris_twins x x' : aris x x' -> twins d x x'. Proof. intros [f T]. eapply tw_twins, T. Qed.
Lemma aris_is x x' : aris x x' -> pty x = Arith. Proof. intros [f T]. apply (tw_is d _ _ _ _ T). Qed.
Lemma w_mul_a sc x x' y y' : aris x x' -> aris y y' -> looks d (fun p => mul_pp p colo sc x y) (fun p => mul_pp p colo sc x' y') aris.
Proof. intros X Y. eapply v_weaken; [apply w_mul; [apply (aris_is x x' X)|apply aris_twins, X|apply aris_twins, Y]|]. intros. eexists. eassumption. Qed.
Lemma w_prod sc xs xs' : Forall2 aris xs xs' -> looks d (fun p => prod p colo sc xs) (fun p => prod p colo sc xs') aris.
Proof.
  intros X. unfold prod. rewrite <- (len2 _ _ _ X). apply (v_tree (fun p => mul_pp p colo sc) (fun p => mul_pp p colo sc)); try solve [intros; cbv beta; loc]; try solve [intros; cbv beta; tidy].
  intros. apply w_mul_a; assumption.
Qed.
Lemma w_pow_loop sc n : forall r r' t t', match r, r' with None, None => True | Some r, Some r' => aris r r' | _, _ => False end -> aris t t' ->
  looks d (fun p => pow_loop p colo sc n r t) (fun p => pow_loop p colo sc n r' t') aris.
Proof.
  induction n as [n IH|n IH|]; intros r r' t t' R T; cbn [pow_loop].
  - destruct r as [r|], r' as [r'|]; try contradiction.
    + vbind; [apply w_mul_a; [exact R|exact T]|]. cbv beta. intros. vbind; [apply w_mul_a; exact T|]. cbv beta. intros. apply IH; assumption.
    + vbind; [apply v_ret; exact T|]. cbv beta. intros. vbind; [apply w_mul_a; exact T|]. cbv beta. intros. apply IH; assumption.
  - vbind; [apply w_mul_a; exact T|]. cbv beta. intros. apply IH; assumption.
  - destruct r as [r|], r' as [r'|]; try contradiction; [apply w_mul_a; assumption|apply v_ret; exact T].
Qed.
Lemma w_pow sc n x x' : twins d x x' -> looks d (fun p => pow p colo sc x n) (fun p => pow p colo sc x' n) (twins d).
Proof.
  intros X. unfold pow, is_arith. kinds_. vassert. arith_of x. destruct n; try apply v_raise.
  eapply v_weaken; [apply w_pow_loop; [exact I|]|intros; apply aris_twins; assumption].
  exists (pfc x). exists (psc x). pose proof (twins_tw _ _ _ X) as T. congruence.
Qed.
Lemma e_opl {B} dv g xs (h : pv -> M B) s : bind (opl dv g xs) h s = emit (map (Saw dv) (map vz xs)) (h (MkV dv (g (map vz xs))) s).
Proof. unfold bind, opl. rewrite map_map. destruct (h _ s) as [[? ?] ?]. reflexivity. Qed.
Lemma w_reduce_sum f sc xs xs' : server d -> ready Arith f -> Forall2 (twins d) xs xs' -> looks d (fun _ => reduce_sum colo f sc Arith xs) (fun _ => reduce_sum colo f sc Arith xs') (tw d Arith f).
Proof.
  intros Sv R X. apply v_quiet; [quiet|quiet|]. intros s. unfold reduce_sum. rewrite !e_opl. unfold mk_priv. cbn [vz]. onrw.
  assert (W : forall l, word f (wsum f l)).
  { intros l. unfold wsum. assert (H : forall l acc, word f acc -> word f (fold_left (wadd f) l acc)).
    { induction l0 as [|v l0 IH]; intros acc A; cbn [fold_left]; [exact A|]. apply IH, word_fcast, R. }
    apply H. destruct f as [|n]; cbn; [auto|]. destruct R as [F _]. cbn in F. pose proof (pow2_pos (n - 1) ltac:(lia)). unfold in_s. lia. }
  assert (P : map vz (map p01 xs) = map vz (map p10 xs) /\ map vz (map p11 xs) = map vz (map p20 xs) /\ map vz (map p21 xs) = map vz (map p00 xs) /\
              map vz (map p01 xs') = map vz (map p10 xs') /\ map vz (map p11 xs') = map vz (map p20 xs') /\ map vz (map p21 xs') = map vz (map p00 xs')).
  { induction X as [|x x' xs xs' (ty & g & c & T) _ IH]; [cbn; auto 8|]. destruct IH as (I1 & I2 & I3 & I4 & I5 & I6).
    canon3. cbn [map mk3 p00 p01 p10 p11 p20 p21 vz]. rewrite I1, I2, I3, I4, I5, I6. auto 8. }
  destruct P as (P1 & P2 & P3 & P1' & P2' & P3'). apply twins_shares in X. rewrite P1, P2, P3, P1', P2', P3'.
  split.
  - rewrite !view_emit. destruct Sv as [->|[->| ->]]; destruct X as [X1 X2];
    rewrite ?f_map_id, ?(f_map S0 S1), ?(f_map S1 S0), ?(f_map S0 S2), ?(f_map S2 S0), ?(f_map S1 S2), ?(f_map S2 S1) by reflexivity; unfold ret, view; cbn [app fst snd filter]; congruence.
  - rewrite !snd_emit. cbn. exists sc. unfold twin. do 6 eexists. split; [reflexivity|]. split; [reflexivity|]. do 7 (split; [first [exact R|apply W]|]).
    destruct Sv as [->|[->| ->]]; destruct X as [X1 X2]; cbn [known]; split; congruence.
Qed.

Lemma set_scaled_tw b ty f x x' : tw d ty f x x' -> tw d ty f (set_scaled b x) (set_scaled b x').
Proof. intros [sc T]. exists b. canon3. unfold set_scaled. cbn. prove_twin; assumption. Qed.
Ltac bindeq := match goal with |- looks ?d (fun p => bind (@?m p) (@?k p)) (fun q => bind (@?m' q) (@?k' q)) ?Q => eapply (v_bind d m m' k k') end; cbv beta.
Lemma w_b2a_bits g nb x x' : ready Arith g -> twins d x x' -> looks d (fun p => b2a_bits p colo g nb x) (fun p => b2a_bits p colo g nb x') (tw d Arith g).
Proof.
  intros R X. unfold b2a_bits, is_arith. kinds_. vassert. assert (B : pty x = Bool_) by (destruct (pty x); [discriminate|reflexivity]).
  set (k := match nb with Some k => k | None => fbits (pfc x) end). clearbody k. cbv zeta.
  set (step := fun (p : oracle) (x : priv) (t : nat) => do b <- bit_at colo x (Z.of_nat t); do a <- b2a_single p colo g b; do w <- const colo g (2 ^ Z.of_nat t) false; mul_pq p colo 0 a w).
  assert (Ls : forall x t, local (fun p => step p x t)) by (intros; unfold step; loc). assert (Ts : forall p x t, tidy (step p x t)) by (intros; unfold step; tidy).
  assert (Lm : forall x l, local (fun p => mapM (step p x) l)) by (intros; apply l_mapM, Ls). assert (Tm : forall p x l, tidy (mapM (step p x) l)) by (intros; apply t_mapM, Ts).
  assert (H1 : forall t t', t = t' -> looks d (fun p => step p x t) (fun p => step p x' t') (twins d)).
  { intros t t' <-. unfold step. clear - R X B. vbind; [eapply (v_bit_at colo d); [exact B|exact (twins_tw _ _ _ X)]|]. cbv beta. intros b b' T. kinds_.
    vbind; [eapply w_b2a_single; [exact R|two_]|]. cbv beta. intros. kinds_. vbind; [apply w_const; apply R|]. cbv beta. intros.
    eapply v_weaken; [eapply w_mul_pq; [two_|eassumption]|]. intros. two_. }
  assert (H2 : forall l, looks d (fun p => mapM (step p x) l) (fun p => mapM (step p x') l) (Forall2 (twins d))).
  { intros l. apply (v_mapM (fun p => step p x) (fun p => step p x') eq); auto. apply f2_same. auto. }
  change (looks d (fun p => do _ <- (if fac_eqb (pfc x) (FI 128) && (64 <? k) then raise ValueError else ret tt); do terms <- mapM (step p x) (seq 0 (Z.to_nat k)); do r <- reduce_sum colo g false Arith terms; ret (set_scaled (psc x) r))
   (fun p => do _ <- (if fac_eqb (pfc x) (FI 128) && (64 <? k) then raise ValueError else ret tt); do terms <- mapM (step p x') (seq 0 (Z.to_nat k)); do r <- reduce_sum colo g false Arith terms; ret (set_scaled (psc x) r)) (tw d Arith g)).
  clearbody step.
  assert (Lr : forall x, local (fun p => do terms <- mapM (step p x) (seq 0 (Z.to_nat k)); do r <- reduce_sum colo g false Arith terms; ret (set_scaled (psc x) r))) by (intros; match goal with |- local (fun p => bind (@?m p) (@?k p)) => apply (l_bind m k) end; [apply Lm|intros; loc]).
  bindeq; [loc|intros; match goal with |- local (fun p => bind (@?m p) (@?k p)) => apply (l_bind m k) end; [apply Lm|intros; loc]|intros; tidy|intros; tidy|intros; apply t_bind; [apply Tm|intros; tidy]|intros; apply t_bind; [apply Tm|intros; tidy]| |].
  - apply (v_if d _ _ _ _ _ (fun _ _ => True)); [apply v_raise|apply v_ret; exact I].
  - intros _ _ _. bindeq; [apply Lm|intros; loc|intros; apply Tm|intros; apply Tm|intros; tidy|intros; tidy|apply H2|].
    intros ts ts' T. vbind; [apply w_reduce_sum; [exact (twins_server d _ _ X)|exact R|exact T]|]. cbv beta. intros. apply v_ret, set_scaled_tw. assumption.
Qed.
Lemma word_0 f : fok f -> word f 0.
Proof. destruct f as [|n]; cbn; [auto|]. intros F. pose proof (pow2_pos (n - 1) ltac:(lia)). unfold in_s. lia. Qed.
Lemma zeros_tw sc ty f : server d -> ready ty f -> twins d (zeros_private sc ty f) (zeros_private sc ty f).
Proof.
  intros Sv R. exists ty, f, sc. unfold twin, zeros_private. pose proof (word_0 f (proj1 R)). do 6 exists 0. 
  do 2 (split; [reflexivity|]). split; [exact R|]. do 6 (split; [assumption|]). destruct Sv as [->|[->| ->]]; cbn; auto.
Qed.
Lemma scatter_tw idx vals vals' z z' n : Forall2 (twins d) vals vals' -> twins d z z' -> twins d (scatter_at idx vals z n) (scatter_at idx vals' z' n).
Proof.
  intros V Z. revert idx. induction V as [|v v' vals vals' H V IH]; intros [|i idx]; cbn [scatter_at]; auto. destruct (Nat.eqb i n); auto.
Qed.
Lemma f2_map {A B} (R : B -> B -> Prop) (Q : A -> A -> Prop) (f : A -> B) xs xs' : (forall x x', Q x x' -> R (f x) (f x')) -> Forall2 Q xs xs' -> Forall2 R (map f xs) (map f xs').
Proof. intros H. induction 1; cbn; auto. Qed.
Lemma w_sort_step acc idx xs xs' : server d -> Forall2 (twins d) xs xs' -> looks d (fun p => sort_step p colo acc idx xs) (fun p => sort_step p colo acc idx xs') (Forall2 (twins d)).
Proof.
  intros Sv X. unfold sort_step. cbv zeta. rewrite <- (len2 _ _ _ X).
  assert (D : twins d (hd (zeros_private false Arith (FI 64)) xs) (hd (zeros_private false Arith (FI 64)) xs')).
  { destruct X; cbn [hd]; [|assumption]. apply zeros_tw; [exact Sv|]. split; [cbn; lia|]. intros _. exists 64. reflexivity. }
  generalize dependent (hd (zeros_private false Arith (FI 64)) xs). generalize dependent (hd (zeros_private false Arith (FI 64)) xs'). intros e' e D. kinds_.
  set (swap := fun (p : oracle) (xs : list priv) (e : priv) (ij : nat * nat) => cmp_swap p colo (nth (fst ij) xs e) (nth (snd ij) xs e)).
  assert (Ls : forall xs e ij, local (fun p => swap p xs e ij)) by (intros; unfold swap; loc). assert (Ts : forall p xs e ij, tidy (swap p xs e ij)) by (intros; unfold swap; tidy).
  assert (H1 : forall ij ij', ij = ij' -> looks d (fun p => swap p xs e ij) (fun p => swap p xs' e' ij') twos).
  { intros ij ij' <-. unfold swap. apply w_cmp_swap; apply f2_nth; assumption. }
  bindeq.
  - apply (l_mapM (fun p => swap p xs' e')). auto.
  - intros. apply l_const.
  - intros. apply (t_mapM (swap prf xs e)). auto.
  - intros. apply (t_mapM (swap prf xs' e')). auto.
  - intros. apply t_mapM. intros. tidy.
  - intros. apply t_mapM. intros. tidy.
  - apply (v_mapM (fun p => swap p xs e) (fun p => swap p xs' e') eq twos); auto. apply f2_same. auto.
  - cbv beta. intros ps ps' P.
    assert (Z := zeros_tw (psc e) (pty e) (pfc e) Sv (twins_ready d _ _ D)).
    apply (v_mapM (fun _ n => add_pp colo (scatter_at (if acc then fst idx else snd idx) (map fst ps) (zeros_private (psc e) (pty e) (pfc e)) n) (scatter_at (if acc then snd idx else fst idx) (map snd ps) (zeros_private (psc e) (pty e) (pfc e)) n))
                  (fun _ n => add_pp colo (scatter_at (if acc then fst idx else snd idx) (map fst ps') (zeros_private (psc e) (pty e) (pfc e)) n) (scatter_at (if acc then snd idx else fst idx) (map snd ps') (zeros_private (psc e) (pty e) (pfc e)) n)) eq);
      [intros; apply l_const|intros; apply l_const|intros; tidy|intros; tidy| |apply f2_same; auto].
    intros n n' <-. eapply v_weaken; [apply w_add; (apply scatter_tw; [eapply f2_map; [|exact P]; intros z z' [? ?]; assumption|exact Z])|]. intros. two_.
Qed.
Lemma w_sort_loop acc idxs : server d -> forall xs xs', Forall2 (twins d) xs xs' -> looks d (fun p => sort_loop p colo acc idxs xs) (fun p => sort_loop p colo acc idxs xs') (Forall2 (twins d)).
Proof.
  intros Sv. induction idxs as [|i idxs IH]; intros xs xs' X; cbn [sort_loop]; [apply v_ret, X|]. vbind; [apply w_sort_step; assumption|]. exact IH.
Qed.
Lemma w_sort acc xs xs' : Forall2 (twins d) xs xs' -> looks d (fun p => sort_private p colo acc xs) (fun p => sort_private p colo acc xs') (Forall2 (twins d)).
Proof.
  intros X. assert (Len := len2 _ _ _ X). unfold sort_private. destruct X as [|x x' l l' X XS]; [apply v_raise|]. rewrite <- Len.
  assert (Sv := twins_server d _ _ X). assert (R := twins_ready d _ _ X). cbv zeta. kinds_. generalize dependent (length (x :: l)). intros n Len.
  bindeq; [apply l_const|intros; destruct (stages n); loc|intros; tidy|intros; tidy|intros; destruct (stages n); tidy|intros; destruct (stages n); tidy|apply w_const, R|].
  cbv beta. intros q q' (v & -> & -> & Wv). destruct (stages n); [apply v_raise|].
  vbind; [apply w_sort_loop; [exact Sv|]|].
  - constructor; [exact X|]. apply Forall2_app; [exact XS|]. apply f2_same. intros y Y. apply repeat_spec in Y. subst y.
    exists (pty x), (pfc x), (psc x). unfold twin. exists v, 0, 0, v, 0, 0. pose proof (word_0 _ (proj1 R)). do 2 (split; [reflexivity|]). split; [exact R|]. do 6 (split; [assumption|]).
    destruct Sv as [->|[->| ->]]; cbn; auto.
  - cbv beta. intros ys ys' Y. apply v_ret. destruct (Nat.ltb _ _); [|exact Y]. destruct acc; [apply f2_firstn, Y|apply f2_skipn, Y].
Qed.
End Whole.

(** * Programs *)

Ltac cases := repeat match goal with |- context[match ?e with Some _ => _ | None => _ end] => destruct e eqn:? end.
Section Circuits.
Context (colo : bool).
Lemma l_prod sc xs : local (fun p => prod p colo sc xs).
Proof. unfold prod. apply (l_tree (fun p => mul_pp p colo sc)). intros. loc. Qed.
Lemma l_max_tree xs : local (fun p => reduce_max_tree p colo xs).
Proof. unfold reduce_max_tree. apply (l_tree (fun p => maximum p colo)). intros. loc. Qed.
Lemma l_max_all xs : local (fun p => reduce_max_all p colo xs).
Proof. unfold reduce_max_all. apply l_vector_max. Qed.
Lemma l_b2a_f g nb x : local (fun p => b2a p colo g nb false x).
Proof. unfold b2a. rewrite Bool.andb_false_r. loc. Qed.
Hint Resolve l_prod l_max_tree l_max_all l_b2a_f : ldb.
Lemma l_gate secrets ws g : local (fun p => run_gate p colo secrets ws g).
Proof.
  destruct g; unfold run_gate; cbv zeta; cases; loc.
  all: try (destruct ty; loc). all: try (destruct l; loc).
Qed.
Lemma t_gate p secrets ws g : tidy (run_gate p colo secrets ws g).
Proof.
  destruct g; unfold run_gate; cbv zeta; cases; tidy.
  all: try (destruct ty; tidy). all: try (destruct l; tidy).
Qed.
Hint Resolve l_gate : ldb.
Hint Resolve t_gate : tdb.
Lemma l_circuit secrets c : forall ws, local (fun p => run_circuit p colo secrets ws c).
Proof. induction c as [|g c IH]; intros ws; cbn [run_circuit]; loc. Qed.
Lemma t_circuit p secrets c : forall ws, tidy (run_circuit p colo secrets ws c).
Proof. induction c as [|g c IH]; intros ws; cbn [run_circuit]; tidy. Qed.
Hint Resolve l_circuit : ldb.
Hint Resolve t_circuit : tdb.

Context (d : dev) (Sv : server d).
Lemma nth_f2 {A} (R : A -> A -> Prop) xs xs' i : Forall2 R xs xs' -> match nth_error xs i, nth_error xs' i with Some x, Some x' => R x x' | None, None => True | _, _ => False end.
Proof. intros H. revert i. induction H as [|x x' xs xs' X XS IH]; intros [|i]; cbn [nth_error]; auto. apply IH. Qed.
Lemma pick_f2 (R : priv -> priv -> Prop) xs xs' is : Forall2 R xs xs' -> match pick xs is, pick xs' is with Some ys, Some ys' => Forall2 R ys ys' | None, None => True | _, _ => False end.
Proof.
  intros H. induction is as [|i is IH]; cbn [pick]; [constructor|]. pose proof (nth_f2 R xs xs' i H) as N.
  destruct (nth_error xs i), (nth_error xs' i); try contradiction; [|exact I]. destruct (pick xs is), (pick xs' is); try contradiction; [|exact I]. constructor; assumption.
Qed.
Lemma v_single (m m' : oracle -> M priv) : (forall p, tidy (m p)) -> (forall p, tidy (m' p)) -> local m' -> looks d m m' (twins d) ->
  looks d (fun p => do z <- m p; ret [z]) (fun p => do z <- m' p; ret [z]) (Forall2 (twins d)).
Proof.
  intros T T' L H. eapply (v_bind d m m' (fun _ z => ret [z]) (fun _ z => ret [z])); try exact H; auto.
  - intros. apply l_const.
  - intros. apply q_tidy, q_ret.
  - intros. apply q_tidy, q_ret.
  - intros a a' A. apply v_ret. constructor; [exact A|constructor].
Qed.
Ltac twd := first [eassumption|eapply tw_twins; eassumption].
Ltac single := match goal with |- looks ?d (fun p => bind (@?m p) _) (fun q => bind (@?m' q) _) _ => apply (v_single m m') end; cbv beta; [intros; tidy|intros; tidy|loc|].
Ltac done L := single; eapply v_weaken; [eapply L; twd|]; cbv beta; intros; twd.
Ltac get H i := match type of H with Forall2 (twins d) ?ws ?ws' =>
  let N := fresh "N" in pose proof (nth_f2 (twins d) ws ws' i H) as N; destruct (nth_error ws i), (nth_error ws' i); try contradiction; [|apply v_raise] end.
Ltac gets H is := match type of H with Forall2 (twins d) ?ws ?ws' =>
  let N := fresh "N" in pose proof (pick_f2 (twins d) ws ws' is H) as N; destruct (pick ws is), (pick ws' is); try contradiction; [|apply v_raise] end.
Ltac constq := vbind; [eapply w_const; match goal with T : twins d ?x _ |- fok (pfc ?x) => exact (proj1 (twins_ready d _ _ T)) end|]; cbv beta; intros.

Lemma all_arith xs xs' : Forall2 (twins d) xs xs' -> forallb is_arith xs' = forallb is_arith xs /\ (forallb is_arith xs = true -> Forall2 (aris d) xs xs').
Proof.
  induction 1 as [|x x' xs xs' X XS [E H]]; cbn [forallb]; [auto|]. destruct (twins_same d _ _ X) as (A & _). unfold is_arith at 1 3 4. rewrite A, E. split; [reflexivity|].
  intros B. apply andb_prop in B. destruct B as [B1 B2]. constructor; [|auto]. exists (pfc x), (psc x). unfold is_arith in B1. pose proof (twins_tw _ _ _ X) as T. destruct (pty x); [exact T|discriminate].
Qed.
Lemma w_gate secrets secrets' ws ws' g : Forall2 (twins d) ws ws' ->
  looks d (fun p => run_gate p colo secrets ws g) (fun p => run_gate p colo secrets' ws' g) (Forall2 (twins d)).
Proof.
  intros W. destruct g; unfold run_gate; cbv zeta.
  - assert (H : forall f, ready ty f -> looks d (fun p => do z <- share p colo ty f (fcast f (nth k secrets 0)) sc; ret [z]) (fun p => do z <- share p colo ty f (fcast f (nth k secrets' 0)) sc; ret [z]) (Forall2 (twins d))).
    { intros f R. single. eapply v_weaken; [eapply (v_share colo d ty f); [exact Sv|exact R|apply word_fcast, R|apply word_fcast, R]|]. intros. exists ty, f, sc. assumption. }
    destruct ty, w; try apply v_raise; apply H; (split; [cbn; lia|]); intros; try discriminate; eexists; reflexivity.
  - get W i. get W j. done w_add.
  - get W i. get W j. done w_sub.
  - get W i. done w_neg.
  - get W i. kinds_. single. constq. eapply v_weaken; [eapply w_add_pq; twd|]; cbv beta; intros; twd.
  - get W i. kinds_. single. constq. eapply v_weaken; [eapply w_sub_pq; twd|]; cbv beta; intros; twd.
  - get W i. kinds_. single. constq. eapply v_weaken; [eapply w_sub_qp; twd|]; cbv beta; intros; twd.
  - get W i. get W j. unfold is_arith. kinds_. single. destruct (pty p) eqn:A; [|apply v_raise]. destruct (pty p1); [|apply v_raise]. eapply v_weaken; [eapply w_mul; [exact A|twd|twd]|]; cbv beta; intros; twd.
  - get W i. kinds_. single. constq. eapply v_weaken; [eapply w_mul_pq; twd|]; cbv beta; intros; twd.
  - gets W is. destruct N as [|x x' xs xs' X XS]; [apply v_raise|]. gets W js. unfold is_arith. rewrite <- (len2 _ _ _ N). cbn [length]. rewrite <- (len2 _ _ _ XS). kinds_.
    destruct (pty x) eqn:A; [|apply v_raise]. cbn [andb]. destruct (Nat.eqb _ _) eqn:E; [|apply v_raise]. apply PeanoNat.Nat.eqb_eq in E. single.
    eapply v_weaken; [eapply v_matmul; [exact Sv| |constructor; [exact X|exact XS]|exact N|exact E]|].
    + pose proof (twins_ready d _ _ X) as R. rewrite A in R. exact R.
    + intros. do 3 eexists. eassumption.
  - get W i. done w_heuristic.
  - get W i. get W j. done w_xor.
  - get W i. kinds_. single. constq. eapply v_weaken; [eapply w_xor_pq; twd|]; cbv beta; intros; twd.
  - get W i. get W j. done w_and.
  - get W i. kinds_. single. constq. eapply v_weaken; [eapply w_and_pq; twd|]; cbv beta; intros; twd.
  - get W i. get W j. done w_or.
  - get W i. done w_not.
  - get W i. kinds_. single. apply v_if; [apply v_raise|]. eapply v_weaken; [eapply w_shl; twd|]; cbv beta; intros; twd.
  - get W i. kinds_. single. apply v_if; [apply v_raise|]. eapply v_weaken; [eapply w_sar; [apply Zle_0_nat|twd]|]; cbv beta; intros; twd.
  - get W i. kinds_. single. apply v_if; [apply v_raise|]. eapply v_weaken; [eapply w_shr; [apply Zle_0_nat|twd]|]; cbv beta; intros; twd.
  - get W i. get W j. done w_ppa_ks.
  - get W i. get W j. done w_ppa_sk.
  - get W i. done w_a2b.
  - get W i. single. unfold b2a, is_arith. kinds_. rewrite !Bool.andb_false_r. vassert. eapply v_weaken; [eapply w_b2a_bits; [|twd]|].
    + split; [cbn; lia|]. intros. eexists. reflexivity.
    + intros; twd.
  - get W i. single. eapply v_weaken; [eapply w_b2a_single; [|twd]|].
    + split; [cbn; lia|]. intros. eexists. reflexivity.
    + intros; twd.
  - get W i. get W j. done w_mul_ab.
  - get W i. kinds_. single. apply v_if; [apply v_raise|]. eapply v_weaken; [eapply w_bit_extract; [apply Zle_0_nat|twd]|]; cbv beta; intros; twd.
  - get W i. kinds_. single. destruct (fac_eqb (pfc p) FB) eqn:E; [apply v_raise|]. eapply v_weaken; [eapply w_msb; [|twd]|]; cbv beta; intros; try twd.
    intros F. rewrite F in E. discriminate.
  - get W i. get W j. done w_less.
  - get W i. kinds_. single. constq. eapply v_weaken; [eapply w_less_pq; twd|]; cbv beta; intros; twd.
  - get W i. get W j. done w_equal.
  - get W c. get W i. get W j. done w_select.
  - get W i. get W j. done w_maximum.
  - get W i. get W j. vbind; [eapply w_cmp_swap; twd|]. cbv beta. intros z z' [A B]. apply v_ret. constructor; [exact A|]. constructor; [exact B|constructor].
  - get W i. done w_relu.
  - gets W is. single. destruct (all_arith _ _ N) as [E H]. rewrite E. destruct (forallb is_arith l); [|apply v_raise]. eapply v_weaken; [apply w_prod, H; reflexivity|]. intros. apply aris_twins. assumption.
  - get W i. done w_pow.
  - gets W is. done w_max_tree.
  - gets W is. done w_max_all.
  - gets W is. apply w_sort. exact N.
Qed.
Theorem w_circuit secrets secrets' c : forall ws ws', Forall2 (twins d) ws ws' ->
  looks d (fun p => run_circuit p colo secrets ws c) (fun p => run_circuit p colo secrets' ws' c) (Forall2 (twins d)).
Proof.
  induction c as [|g c IH]; intros ws ws' W; cbn [run_circuit]; [apply v_ret, W|].
  vbind; [apply w_gate, W|]. cbv beta. intros zs zs' Z. apply IH, Forall2_app; assumption.
Qed.
End Circuits.
