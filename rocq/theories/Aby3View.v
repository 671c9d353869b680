(** What one server sees does not depend on the values it does not hold. *)
From Verif Require Import Base TensorModel Aby3Model Aby3Spec Aby3NetModel Aby3TraceModel Aby3TraceSpec Aby3Proofs Aby3Fresh.
From Coq Require Import Lia.

(** * Programs that depend only on the words they draw *)

Definition local {A} (m : oracle -> M A) : Prop := forall s prf prf',
  (forall f k n i, drawn (log_of (m prf s)) f k n i -> prf f k n i = prf' f k n i) -> m prf s = m prf' s.
Lemma seeds_app l l' : seeds (l ++ l') = seeds l ++ seeds l'.
Proof. apply flat_map_app. Qed.
Lemma drawn_app l l' f k n i : drawn (l ++ l') f k n i <-> drawn l f k n i \/ drawn l' f k n i.
Proof. unfold drawn. rewrite seeds_app. apply in_app_iff. Qed.
Lemma l_bind {A B} (m : oracle -> M A) (k : oracle -> A -> M B) :
  local m -> (forall a, local (fun prf => k prf a)) -> local (fun prf => bind (m prf) (k prf)).
Proof.
  intros Hm Hk s prf prf' E. unfold bind, log_of in *. specialize (Hm s prf prf').
  destruct (m prf s) as [[s1 l1] [a|e]] eqn:Em; cbn [fst snd] in *.
  - destruct (k prf a s1) as [[s2 l2] r] eqn:Ek. cbn [fst snd] in *. rewrite <- Hm.
    + rewrite <- (Hk a s1 prf prf'); [rewrite Ek; reflexivity|]. unfold log_of. rewrite Ek. cbn. intros f q n i D. apply E. apply drawn_app. auto.
    + intros f q n i D. apply E. apply drawn_app. auto.
  - rewrite <- Hm; [reflexivity|exact E].
Qed.
Lemma l_const {A} (m : M A) : local (fun _ => m).
Proof. intros s prf prf' _. reflexivity. Qed.
Lemma l_draw d f k n i : local (fun prf => draw prf d f k n i).
Proof. intros s prf prf' E. unfold draw. rewrite (E f k n i); [reflexivity|]. left. reflexivity. Qed.
Lemma l_if {A} (b : bool) (m m' : oracle -> M A) : local m -> local m' -> local (fun prf => if b then m prf else m' prf).
Proof. destruct b; auto. Qed.

Create HintDb ldb.
Ltac lstep :=
  match goal with
  | |- local (fun _ => ?m) => apply (l_const m)
  | |- local (fun prf => draw prf _ _ _ _ _) => apply l_draw
  | |- local (fun prf => if ?b then _ else _) => apply (l_if b)
  | |- local (fun prf => let (_, _) := ?p in _) => destruct p
  | |- local (fun prf => match ?p with TPub _ => _ | TPriv _ => _ end) => destruct p
  | |- local (fun prf => match ?p with Some _ => _ | None => _ end) => destruct p
  | |- _ => solve [auto with ldb nocore]
  | |- local (fun prf => bind (@?m prf) (@?k prf)) => apply (l_bind m k); [cbv beta|intros; cbv beta]
  end.
Ltac loc := repeat lstep.
Section Local.
Context (colo : bool).
Lemma l_draw_local d f : local (fun prf => draw_local prf d f). Proof. unfold draw_local. loc. Qed.
Hint Resolve l_draw_local : ldb.
Lemma l_share ty f v sc : local (fun prf => share prf colo ty f v sc). Proof. unfold share. loc. Qed.
Hint Resolve l_share : ldb.
Lemma l_zero_sharing ty f : local (fun prf => zero_sharing prf ty f). Proof. unfold zero_sharing. loc. Qed.
Hint Resolve l_zero_sharing : ldb.
Lemma l_ot a b c f m0 m1 c1 c2 k1 k2 n : local (fun prf => ot prf a b c f m0 m1 c1 c2 k1 k2 n). Proof. unfold ot. loc. Qed.
Hint Resolve l_ot : ldb.
Lemma l_rss_mul ty f add mul sc x y : local (fun prf => rss_mul prf colo ty f add mul sc x y). Proof. unfold rss_mul. loc. Qed.
Hint Resolve l_rss_mul : ldb.
Lemma l_mul_raw x y : local (fun prf => mul_pp_raw prf colo x y). Proof. unfold mul_pp_raw. loc. Qed.
Hint Resolve l_mul_raw : ldb.
Lemma l_matmul_raw f sc xs ys : local (fun prf => matmul_pp_raw prf colo f sc xs ys). Proof. unfold matmul_pp_raw. loc. Qed.
Hint Resolve l_matmul_raw : ldb.
Lemma l_and x y : local (fun prf => and_pp prf colo x y). Proof. unfold and_pp. loc. Qed.
Hint Resolve l_and : ldb.
Lemma l_or x y : local (fun prf => or_pp prf colo x y). Proof. unfold or_pp. loc. Qed.
Hint Resolve l_or : ldb.
Lemma l_secureq8 a x : local (fun prf => truncate_secureq8 prf colo a x). Proof. unfold truncate_secureq8. loc. Qed.
Hint Resolve l_secureq8 : ldb.
Lemma l_heuristic sc a x : local (fun prf => truncate_heuristic prf colo sc a x). Proof. unfold truncate_heuristic. loc. Qed.
Hint Resolve l_heuristic : ldb.
Lemma l_mul_ab_routine g sc a b i : local (fun prf => mul_ab_routine prf colo g sc a b i). Proof. unfold mul_ab_routine. loc. Qed.
Hint Resolve l_mul_ab_routine : ldb.
Lemma l_mul_ab_qp x y : local (fun prf => mul_ab_qp prf colo x y). Proof. unfold mul_ab_qp. loc. Qed.
Hint Resolve l_mul_ab_qp : ldb.
Lemma l_mul_ab_pp x y : local (fun prf => mul_ab_pp prf colo x y). Proof. unfold mul_ab_pp. loc. Qed.
Hint Resolve l_mul_ab_pp : ldb.
Lemma l_b2a_single g x : local (fun prf => b2a_single prf colo g x). Proof. unfold b2a_single. loc. Qed.
Hint Resolve l_b2a_single : ldb.
Lemma l_mul_pp sc x y : local (fun prf => mul_pp prf colo sc x y). Proof. unfold mul_pp. loc. Qed.
Hint Resolve l_mul_pp : ldb.
Lemma l_mul_pq sc x y : local (fun prf => mul_pq prf colo sc x y). Proof. unfold mul_pq. loc. Qed.
Hint Resolve l_mul_pq : ldb.
Lemma l_ks_round i G P : local (fun prf => ks_round prf colo i G P). Proof. unfold ks_round. loc. Qed.
Hint Resolve l_ks_round : ldb.
Lemma l_ks_loop n : forall i G P, local (fun prf => ks_loop prf colo n i G P). Proof. induction n as [|n IH]; intros; cbn [ks_loop]; loc. Qed.
Hint Resolve l_ks_loop : ldb.
Lemma l_ppa_ks x y nb : local (fun prf => ppa_ks prf colo x y nb). Proof. unfold ppa_ks. loc. Qed.
Hint Resolve l_ppa_ks : ldb.
Lemma l_sk_round i G P : local (fun prf => sk_round prf colo i G P). Proof. unfold sk_round. loc. Qed.
Hint Resolve l_sk_round : ldb.
Lemma l_sk_loop n : forall i G P, local (fun prf => sk_loop prf colo n i G P). Proof. induction n as [|n IH]; intros; cbn [sk_loop]; loc. Qed.
Hint Resolve l_sk_loop : ldb.
Lemma l_ppa_sk x y nb : local (fun prf => ppa_sk prf colo x y nb). Proof. unfold ppa_sk. loc. Qed.
Hint Resolve l_ppa_sk : ldb.
Lemma l_a2b_operands x : local (fun prf => a2b_operands prf colo x). Proof. unfold a2b_operands. loc. Qed.
Hint Resolve l_a2b_operands : ldb.
Lemma l_a2b nb x : local (fun prf => a2b prf colo nb x). Proof. unfold a2b. loc. Qed.
Hint Resolve l_a2b : ldb.
Lemma l_carry_loop n : forall k G P, local (fun prf => carry_loop prf colo n k G P). Proof. induction n as [|n IH]; intros; cbn [carry_loop]; loc. Qed.
Hint Resolve l_carry_loop : ldb.
Lemma l_carry x y p : local (fun prf => carry prf colo x y p). Proof. unfold carry. loc. Qed.
Hint Resolve l_carry : ldb.
Lemma l_bit_extract x i : local (fun prf => bit_extract prf colo x i). Proof. unfold bit_extract. loc. Qed.
Hint Resolve l_bit_extract : ldb.
Lemma l_msb x : local (fun prf => msb prf colo x). Proof. unfold msb. loc. Qed.
Hint Resolve l_msb : ldb.
Lemma l_less x y : local (fun prf => less_than prf colo x y). Proof. unfold less_than. loc. Qed.
Hint Resolve l_less : ldb.
Lemma l_less_pq x y : local (fun prf => less_than_pq prf colo x y). Proof. unfold less_than_pq. loc. Qed.
Hint Resolve l_less_pq : ldb.
Lemma l_less_qp x y : local (fun prf => less_than_qp prf colo x y). Proof. unfold less_than_qp. loc. Qed.
Hint Resolve l_less_qp : ldb.
Lemma l_greater x y : local (fun prf => greater_than prf colo x y). Proof. unfold greater_than. loc. Qed.
Hint Resolve l_greater : ldb.
Lemma l_equal_zero x : local (fun prf => equal_zero prf colo x). Proof. unfold equal_zero. loc. Qed.
Hint Resolve l_equal_zero : ldb.
Lemma l_equal x y : local (fun prf => equal prf colo x y). Proof. unfold equal. loc. Qed.
Hint Resolve l_equal : ldb.
Lemma l_select c x y : local (fun prf => select prf colo c x y). Proof. unfold select. loc. Qed.
Hint Resolve l_select : ldb.
Lemma l_maximum x y : local (fun prf => maximum prf colo x y). Proof. unfold maximum. loc. Qed.
Hint Resolve l_maximum : ldb.
Lemma l_cmp_swap x y : local (fun prf => cmp_swap prf colo x y). Proof. unfold cmp_swap. loc. Qed.
Hint Resolve l_cmp_swap : ldb.
Lemma l_relu x : local (fun prf => relu prf colo x). Proof. unfold relu. loc. Qed.
Hint Resolve l_relu : ldb.
Lemma l_mapM {A B} (f : oracle -> A -> M B) xs : (forall x, local (fun prf => f prf x)) -> local (fun prf => mapM (f prf) xs).
Proof. intros H. induction xs as [|x xs IH]; cbn [mapM]; loc; auto. Qed.
Lemma l_b2a_bits g nb x : local (fun prf => b2a_bits prf colo g nb x).
Proof.
  unfold b2a_bits. loc. apply (l_mapM (fun prf t => do b <- bit_at colo x (Z.of_nat t); do a <- b2a_single prf colo g b; do w <- const colo g (2 ^ Z.of_nat t) false; mul_pq prf colo 0 a w)).
  intros t. loc.
Qed.
Hint Resolve l_b2a_bits : ldb.
Lemma l_tree {A} (op : oracle -> A -> A -> M A) fuel : (forall x y, local (fun prf => op prf x y)) -> forall xs, local (fun prf => tree (op prf) fuel xs).
Proof.
  intros H. induction fuel as [|fuel IH]; intros xs; destruct xs as [|x [|y xs]]; cbn [tree]; loc; auto.
Qed.
Lemma l_vector_max fuel : forall xs, local (fun prf => vector_max prf colo fuel xs).
Proof.
  induction fuel as [|fuel IH]; intros xs; destruct xs as [|x [|y xs]]; cbn [vector_max]; loc.
  apply (l_mapM (fun prf p => maximum prf colo (fst p) (snd p))). intros p. loc.
Qed.
Lemma l_pow_loop sc p : forall r t, local (fun prf => pow_loop prf colo sc p r t).
Proof. induction p as [p IH|p IH|]; intros r t; cbn [pow_loop]; destruct r; loc. Qed.
Hint Resolve l_pow_loop : ldb.
Lemma l_pow sc x p : local (fun prf => pow prf colo sc x p). Proof. unfold pow. loc. destruct p; loc. Qed.
Hint Resolve l_pow : ldb.
Lemma l_sort_step acc i xs : local (fun prf => sort_step prf colo acc i xs).
Proof. unfold sort_step. loc. eapply (l_mapM (fun prf ij => cmp_swap prf colo _ _)). intros t. loc. Qed.
Hint Resolve l_sort_step : ldb.
Lemma l_sort_loop acc is_ : forall xs, local (fun prf => sort_loop prf colo acc is_ xs).
Proof. induction is_ as [|i is_ IH]; intros; cbn [sort_loop]; loc. Qed.
Hint Resolve l_sort_loop : ldb.
Lemma l_sort acc xs : local (fun prf => sort_private prf colo acc xs).
Proof. unfold sort_private. destruct xs as [|x xs]; [loc|]. loc. destruct (stages _); loc. Qed.
End Local.

(** * Runs that look the same to one server *)

Definition matched {A} (R : A -> A -> Prop) (r r' : res A) : Prop :=
  match r, r' with Ok a, Ok a' => R a a' | Err e, Err e' => e = e' | _, _ => False end.
(** For all words there are words, the same where nothing is drawn, with which [m'] looks to [d] like [m]; and every
    choice of words with which [m'] looks like that, even only at the beginning, is this one. *)
Definition looks {A} (d : dev) (m m' : oracle -> M A) (R : A -> A -> Prop) : Prop :=
  forall s prf, prf_words prf -> exists prf', prf_words prf' /\
    (forall f k n i, ~ drawn (log_of (m prf s)) f k n i -> prf' f k n i = prf f k n i) /\
    seeds (log_of (m' prf' s)) = seeds (log_of (m prf s)) /\
    state_of (m' prf' s) = state_of (m prf s) /\
    view d (m' prf' s) = view d (m prf s) /\
    matched R (snd (m prf s)) (snd (m' prf' s)) /\
    forall prf'' t t', prf_words prf'' -> view d (m' prf'' s) ++ t' = view d (m prf s) ++ t ->
      forall f k n i, drawn (log_of (m prf s)) f k n i -> prf'' f k n i = prf' f k n i.

Lemma seeds_uses l f k n i : In (f, k, n, i) (seeds l) -> exists d, In (d, k, n, i) (uses l).
Proof.
  unfold seeds, uses. rewrite in_flat_map. intros (e & I & J). destruct e as [|d f' k' n' i']; [destruct J|].
  destruct J as [J|[]]. injection J; intros; subst. exists d. apply in_flat_map. eexists. split; [exact I|]. left. reflexivity.
Qed.
Lemma t_disjoint {A B} (m : M A) (k : M B) s f q n i : tidy m -> tidy k ->
  drawn (log_of (m s)) f q n i -> drawn (log_of (k (state_of (m s)))) f q n i -> False.
Proof.
  intros Tm Tk D D'. apply seeds_uses in D, D'. destruct D as [d D], D' as [d' D'].
  destruct (Tm s) as (_ & F & _). destruct (Tk (state_of (m s))) as (_ & F' & _). rewrite Forall_forall in F, F'.
  specialize (F _ D). specialize (F' _ D'). cbn in F, F'. lia.
Qed.
Lemma view_app {A B} d s s' l l' (r : res A) (r' : res B) : view d (s, l ++ l', r) = view d (s, l, r) ++ view d (s', l', r').
Proof. unfold view. cbn. apply filter_app. Qed.
Lemma view_res {A B} d s s' l (r : res A) (r' : res B) : view d (s, l, r) = view d (s', l, r').
Proof. reflexivity. Qed.

Lemma v_bind {A B} d (m m' : oracle -> M A) (k k' : oracle -> A -> M B) (R : A -> A -> Prop) (Q : B -> B -> Prop) :
  local m' -> (forall a, local (fun prf => k prf a)) ->
  (forall prf, tidy (m prf)) -> (forall prf, tidy (m' prf)) -> (forall prf a, tidy (k prf a)) -> (forall prf a, tidy (k' prf a)) ->
  looks d m m' R -> (forall a a', R a a' -> looks d (fun prf => k prf a) (fun prf => k' prf a') Q) ->
  looks d (fun prf => bind (m prf) (k prf)) (fun prf => bind (m' prf) (k' prf)) Q.
Proof.
  intros Lm Lk Tm Tm' Tk Tk' Hm Hk s prf W. destruct (Hm s prf W) as (prf1 & W1 & O1 & S1_ & St1 & V1 & M1 & U1).
  specialize (Tm prf). pose proof (Tm s) as Tms.
  destruct (m prf s) as [[s1 l1] [a|e]] eqn:Em; destruct (m' prf1 s) as [[s1' l1'] [a'|e']] eqn:Em'; cbn [snd fst log_of state_of matched] in *; try contradiction.
  - unfold log_of, state_of in S1_, St1. cbn [snd fst] in S1_, St1. subst s1'. destruct (Hk a a' M1 s1 prf1 W1) as (prf2 & W2 & O2 & S2_ & St2 & V2 & M2 & U2).
    assert (Ek : k prf a s1 = k prf1 a s1).
    { apply (Lk a). intros f q n i D. symmetry. apply O1. intros D'. unfold log_of in D'. cbn in D'.
      apply (t_disjoint (m prf) (k prf a) s f q n i Tm (Tk prf a)); unfold log_of, state_of; rewrite Em; cbn; assumption. }
    assert (Em2 : m' prf2 s = m' prf1 s).
    { symmetry. apply Lm. intros f q n i D. symmetry. apply O2. intros D'.
      unfold drawn, log_of in D. rewrite Em' in D. cbn [fst snd] in D. rewrite S1_ in D.
      apply (t_disjoint (m prf) (k prf1 a) s f q n i Tm (Tk prf1 a)); unfold log_of, state_of, drawn; rewrite Em; cbn; assumption. }
    exists prf2. split; [exact W2|].
    assert (E1 : bind (m prf) (k prf) s = (fst (fst (k prf1 a s1)), l1 ++ snd (fst (k prf1 a s1)), snd (k prf1 a s1))).
    { unfold bind. rewrite Em, Ek. destruct (k prf1 a s1) as [[? ?] ?]. reflexivity. }
    assert (E2 : bind (m' prf2) (k' prf2) s = (fst (fst (k' prf2 a' s1)), l1' ++ snd (fst (k' prf2 a' s1)), snd (k' prf2 a' s1))).
    { unfold bind. rewrite Em2, Em'. destruct (k' prf2 a' s1) as [[? ?] ?]. reflexivity. }
    rewrite E1, E2. destruct (k prf1 a s1) as [[s2 l2] r2] eqn:Ek1. destruct (k' prf2 a' s1) as [[s2' l2'] r2'] eqn:Ek2.
    unfold log_of, state_of in *. cbn [fst snd] in *.
    split; [|split; [|split; [exact St2|split; [|split; [exact M2|]]]]].
    + intros f q n i D. rewrite O2; [apply O1|]; intros D'; apply D; apply drawn_app; auto.
    + rewrite !seeds_app, S1_, S2_. reflexivity.
    + rewrite (view_app d s2' s2' l1' l2' r2' r2'), (view_app d s2 s2 l1 l2 r2 r2).
      rewrite (view_res d s2' s1 l1' r2' (Ok a')), (view_res d s2 s1 l1 r2 (Ok a)), V1, V2. reflexivity.
    + intros prf'' t t' W'' E f q n i D.
      assert (P1 : forall f q n i, drawn l1 f q n i -> prf'' f q n i = prf1 f q n i).
      { clear f q n i D. rewrite (view_app d s2 s2 l1 l2 r2 r2), <- app_assoc in E.
        destruct (m' prf'' s) as [[s3 l3] r3] eqn:E3.
        assert (X : exists t'', view d (bind (m' prf'') (k' prf'') s) = view d (m' prf'' s) ++ t'').
        { unfold bind. rewrite E3. destruct r3 as [a3|e3].
          - destruct (k' prf'' a3 s3) as [[s4 l4] r4]. exists (view d (s4, l4, r4)). rewrite (view_app d s4 s4 l3 l4 r4 r4). reflexivity.
          - exists []. rewrite app_nil_r. reflexivity. }
        destruct X as [t'' X]. rewrite X, <- app_assoc in E. exact (U1 prf'' _ _ W'' E). }
      assert (E3 : m' prf'' s = m' prf1 s).
      { symmetry. apply Lm. intros g p c j G. symmetry. apply P1. unfold drawn, log_of in G. rewrite Em' in G. cbn [fst snd] in G. rewrite S1_ in G. exact G. }
      rewrite drawn_app in D. destruct D as [D|D].
      * rewrite (P1 _ _ _ _ D). symmetry. apply O2. intros D'.
        apply (t_disjoint (m prf) (k prf1 a) s f q n i Tm (Tk prf1 a)); unfold log_of, state_of; [rewrite Em; exact D|]. rewrite Em. cbn. rewrite Ek1. exact D'.
      * revert f q n i D. apply (U2 prf'' t t' W''). unfold bind in E. rewrite E3, Em' in E. destruct (k' prf'' a' s1) as [[s4 l4] r4].
        rewrite (view_app d s4 s4 l1' l4 r4 r4), (view_app d s2 s2 l1 l2 r2 r2), <- !app_assoc in E.
        rewrite (view_res d s4 s1 l1' r4 (Ok a')), (view_res d s2 s1 l1 r2 (Ok a)), V1 in E. apply app_inv_head in E. exact E.
  - subst e'. unfold log_of, state_of in S1_, St1. cbn [snd fst] in S1_, St1. exists prf1. split; [exact W1|].
    unfold bind. rewrite Em, Em'. unfold log_of, state_of in *. cbn [fst snd] in *.
    split; [exact O1|]. split; [exact S1_|]. split; [exact St1|]. split; [exact V1|]. split; [reflexivity|].
    intros prf'' t t' W'' E. 
    assert (X : exists t'', view d (bind (m' prf'') (k' prf'') s) = view d (m' prf'' s) ++ t'').
    { unfold bind. destruct (m' prf'' s) as [[s3 l3] [a3|e3]].
      - destruct (k' prf'' a3 s3) as [[s4 l4] r4]. exists (view d (s4, l4, r4)). rewrite (view_app d s4 s4 l3 l4 r4 r4). reflexivity.
      - exists []. rewrite app_nil_r. reflexivity. }
    destruct X as [t'' X]. unfold bind in X. rewrite X, <- app_assoc in E. exact (U1 prf'' _ _ W'' E).
Qed.

(** Nothing is drawn. *)
Lemma v_quiet {A} d (m m' : M A) (R : A -> A -> Prop) :
  quiet m -> quiet m' -> (forall s, view d (m' s) = view d (m s) /\ matched R (snd (m s)) (snd (m' s))) -> looks d (fun _ => m) (fun _ => m') R.
Proof.
  intros Q Q' H s prf W. exists prf. destruct (Q s) as [E U], (Q' s) as [E' U'], (H s) as [V M].
  assert (N : forall l, uses l = [] -> seeds l = []).
  { induction l as [|[|] l IH]; [reflexivity|exact IH|discriminate]. }
  apply N in U, U'. split; [exact W|]. split; [reflexivity|]. split; [rewrite U, U'; reflexivity|]. split; [rewrite E, E'; reflexivity|].
  split; [exact V|]. split; [exact M|]. intros prf'' t t' _ _ f k n i D. unfold drawn in D. rewrite U in D. destruct D.
Qed.
Lemma v_ret {A} d (a a' : A) (R : A -> A -> Prop) : R a a' -> looks d (fun _ => ret a) (fun _ => ret a') R.
Proof. intros H. apply v_quiet; [quiet|quiet|]. intros s. cbn. auto. Qed.
Lemma v_raise {A} d e (R : A -> A -> Prop) : looks d (fun _ => raise e) (fun _ => raise e) R.
Proof. apply v_quiet; [quiet|quiet|]. intros s. cbn. auto. Qed.
Lemma v_weaken {A} d (m m' : oracle -> M A) (R Q : A -> A -> Prop) : looks d m m' R -> (forall a a', R a a' -> Q a a') -> looks d m m' Q.
Proof.
  intros H I s prf W. destruct (H s prf W) as (prf' & A1 & A2 & A3 & A4 & A5 & A6 & A7). exists prf'. 
  split; [exact A1|]. split; [exact A2|]. split; [exact A3|]. split; [exact A4|]. split; [exact A5|]. split; [|exact A7].
  unfold matched in *. destruct (snd (m prf s)), (snd (m' prf' s)); auto.
Qed.
