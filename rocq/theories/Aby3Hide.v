(** The operations of ABY3, seen by one server. *)
From Verif Require Import Base TensorModel Aby3Model Aby3Spec Aby3NetModel Aby3TraceModel Aby3TraceSpec Aby3Bits Aby3Proofs Aby3Fresh Aby3View.
From Coq Require Import Lia.

(** * Sharings with the same shares on one server *)

Definition known (d : dev) (a b c a' b' c' : Z) : Prop :=
  match d with S0 => a = a' /\ b = b' | S1 => b = b' /\ c = c' | S2 => c = c' /\ a = a' | _ => False end.
Definition ready (ty : sty) (f : fac) : Prop := fok f /\ (ty = Arith -> exists n, f = FI n).
Definition twin (d : dev) (ty : sty) (f : fac) (sc : bool) (x x' : priv) : Prop :=
  exists a b c a' b' c', x = mk3 ty f sc a b c /\ x' = mk3 ty f sc a' b' c' /\ ready ty f /\
    word f a /\ word f b /\ word f c /\ word f a' /\ word f b' /\ word f c' /\ known d a b c a' b' c'.
Definition twins (d : dev) (x x' : priv) : Prop := exists ty f sc, twin d ty f sc x x'.
Definition ptwin (f : fac) (sc : bool) (q q' : pub) : Prop := exists v, q = mkq f sc v /\ q' = mkq f sc v /\ word f v.

(** * Words as a group *)

Lemma g_word ty f a b : ready ty f -> word f a -> word f b -> word f (gadd ty f a b) /\ word f (gsub ty f a b).
Proof.
  intros [F T] A B. destruct ty, f as [|n]; cbn [gadd gsub fok] in *; try (split; apply word_lxor; assumption || exact I).
  split; apply swrap_range, F.
Qed.
Ltac gcase ty f :=
  match goal with H : ready ty f |- _ => let F := fresh "F" in let T := fresh "T" in destruct H as [F T];
    destruct ty; [destruct (T eq_refl) as [?n T']; subst f|clear T]; cbn [gadd gsub fok word] in * end.
Lemma g_solve ty f u G z : ready ty f -> word f u -> word f G -> word f z -> gadd ty f u (gsub ty f G (gsub ty f (gadd ty f u G) z)) = z.
Proof.
  intros R A B C. gcase ty f.
  - apply (in_s_eqm_eq n); [exact F|apply swrap_range, F|exact C|]. eqm_ring n F.
  - bitblast.
Qed.
Lemma g_inj ty f u G F F' : ready ty f -> word f F -> word f F' -> gadd ty f u (gsub ty f G F) = gadd ty f u (gsub ty f G F') -> F = F'.
Proof.
  intros R A B E. gcase ty f.
  - apply (in_s_eqm_eq n); [exact F0|exact A|exact B|]. rewrite swrap_eq_iff in E by exact F0.
    assert (X : eqm (2 ^ n) (u + (G - F)) (u + (G - F'))) by (rewrite (swrap_eqm n), (swrap_eqm n) in E by exact F0; exact E).
    replace F with (u + G - (u + (G - F))) by ring. rewrite X. apply eqm_eq. ring.
  - assert (X : Z.lxor (Z.lxor u G) (Z.lxor u (Z.lxor G F)) = Z.lxor (Z.lxor u G) (Z.lxor u (Z.lxor G F'))) by (rewrite E; reflexivity).
    transitivity (Z.lxor (Z.lxor u G) (Z.lxor u (Z.lxor G F))); [bitblast|]. rewrite X. bitblast.
Qed.

(** * Changing the word at one place *)

Definition key_eqb (k k' : key) : bool :=
  match k, k' with
  | KP i, KP j | KA i, KA j | KB i, KB j | KS i, KS j => i =? j
  | KL d i, KL e j => dev_eqb d e && (i =? j)
  | _, _ => false
  end.
Lemma dev_eqb_eq d e : dev_eqb d e = true <-> d = e.
Proof. destruct d, e; cbn; split; congruence. Qed.
Lemma key_eqb_eq k k' : key_eqb k k' = true <-> k = k'.
Proof.
  destruct k, k'; cbn; try (split; congruence); rewrite ?Bool.andb_true_iff, ?dev_eqb_eq, ?Z.eqb_eq; (split; [intros H; try destruct H; congruence|intros H; injection H; auto]).
Qed.
Lemma fac_eqb_eq f f' : fac_eqb f f' = true <-> f = f'.
Proof. destruct f, f'; cbn; rewrite ?Z.eqb_eq; split; congruence. Qed.
Definition upd (prf : oracle) (f0 : fac) (k0 : key) (c0 : Z) (i0 : nat) (v : Z) : oracle := fun f k c i =>
  if key_eqb k k0 && Nat.eqb i i0 && (c =? c0) && fac_eqb f f0 then v else prf f k c i.
Lemma upd_words prf f k c i v : prf_words prf -> (fok f -> word f v) -> prf_words (upd prf f k c i v).
Proof.
  intros W H f' k' c' i' F. unfold upd. destruct (key_eqb k' k && Nat.eqb i' i && (c' =? c) && fac_eqb f' f) eqn:E; [|apply W, F].
  rewrite !Bool.andb_true_iff, fac_eqb_eq in E. destruct E as [_ E]. subst f'. apply H, F.
Qed.
Lemma upd_off prf f k c i v f' k' c' i' : (f', k', c', i') <> (f, k, c, i) -> upd prf f k c i v f' k' c' i' = prf f' k' c' i'.
Proof.
  intros H. unfold upd. destruct (key_eqb k' k && Nat.eqb i' i && (c' =? c) && fac_eqb f' f) eqn:E; [|reflexivity].
  rewrite !Bool.andb_true_iff, fac_eqb_eq, key_eqb_eq, Z.eqb_eq, Nat.eqb_eq in E. destruct E as [[[-> ->] ->] ->]. contradiction.
Qed.
Lemma upd_same prf f k c i v : upd prf f k c i v f k c i = v.
Proof.
  unfold upd. replace (key_eqb k k && Nat.eqb i i && (c =? c) && fac_eqb f f) with true; [reflexivity|].
  symmetry. rewrite !Bool.andb_true_iff, fac_eqb_eq, key_eqb_eq, Z.eqb_eq, Nat.eqb_eq. auto.
Qed.

(** * Operations without draws *)

Lemma on_srv colo d v : on colo d (MkV d v) = true.
Proof. unfold on. destruct d; apply Bool.orb_true_r. Qed.
Ltac canon3 := repeat match goal with
  | H : twin _ _ _ _ _ _ |- _ => let a := fresh "a" in let b := fresh "b" in let c := fresh "c" in
      let a' := fresh "a'" in let b' := fresh "b'" in let c' := fresh "c'" in
      destruct H as (a & b & c & a' & b' & c' & -> & -> & ? & ? & ? & ? & ? & ? & ? & ?)
  | H : ptwin _ _ _ _ |- _ => let v := fresh "v" in destruct H as (v & -> & -> & ?) end.
Ltac onrw := rewrite ?on_srv; cbn [andb].
Ltac knownd d := destruct d; cbn [known] in *; try contradiction; repeat match goal with H : _ /\ _ |- _ => destruct H end; subst.
Ltac prove_twin := unfold twin; do 6 eexists; split; [reflexivity|]; split; [reflexivity|]; cbn [known]; repeat match goal with |- _ /\ _ => split end.

Section Quiet.
Context (colo : bool) (d : dev).
Lemma v_const f v sc : fok f -> looks d (fun _ => const colo f v sc) (fun _ => const colo f v sc) (ptwin f sc).
Proof.
  intros F. apply v_quiet; [quiet|quiet|]. intros s. split; [reflexivity|]. unfold const, lit, bind, mk_pub. onrw. cbn.
  exists (fcast f v). split; [reflexivity|]. split; [reflexivity|]. apply word_fcast, F.
Qed.
Lemma v_sharewise g f' ty f sc x x' : twin d ty f sc x x' -> ready ty f' -> (forall v, word f v -> word f' (g v)) ->
  looks d (fun _ => sharewise colo g f' x) (fun _ => sharewise colo g f' x') (twin d ty f' sc).
Proof.
  intros T R' G. canon3. apply v_quiet; [quiet|quiet|]. intros s. unfold sharewise, op1, bind, mk_priv, mk3. cbn [p00 p01 p10 p11 p20 p21 psc pty pfc vz].
  onrw. knownd d; (split; [reflexivity|]; cbn; prove_twin; auto).
Qed.
Lemma v_sharewise2 g sc ty f sx x x' ty2 f2 sy y y' : twin d ty f sx x x' -> twin d ty2 f2 sy y y' -> (forall u v, word f u -> word f2 v -> word f (g u v)) ->
  looks d (fun _ => sharewise2 colo g sc x y) (fun _ => sharewise2 colo g sc x' y') (twin d ty f sc).
Proof.
  intros T T2 G. canon3. apply v_quiet; [quiet|quiet|]. intros s. unfold sharewise2, op2, bind, mk_priv, mk3. cbn [p00 p01 p10 p11 p20 p21 psc pty pfc vz].
  onrw. knownd d; (split; [reflexivity|]; cbn; prove_twin; auto).
Qed.
Lemma v_sharewise_pub g sc ty f sx x x' f2 sy y y' : twin d ty f sx x x' -> ptwin f2 sy y y' -> (forall u v, word f u -> word f2 v -> word f (g u v)) ->
  looks d (fun _ => sharewise_pub colo g sc x y) (fun _ => sharewise_pub colo g sc x' y') (twin d ty f sc).
Proof.
  intros T T2 G. canon3. apply v_quiet; [quiet|quiet|]. intros s. unfold sharewise_pub, op2, bind, mk_priv, mk3. cbn [p00 p01 p10 p11 p20 p21 psc pty pfc vz q0 q1 q2 mkq].
  onrw. knownd d; (split; [reflexivity|]; cbn; prove_twin; auto).
Qed.
Lemma twin_is ty f sc x x' : twin d ty f sc x x' ->
  (pty x = ty /\ pfc x = f /\ psc x = sc) /\ (pty x' = ty /\ pfc x' = f /\ psc x' = sc) /\ ready ty f.
Proof. intros T. canon3. cbn. auto. Qed.
Lemma ptwin_is f sc x x' : ptwin f sc x x' -> x = x' /\ qfc x = f /\ qsc x = sc.
Proof. intros T. canon3. cbn. auto. Qed.
Lemma v_if {A} (b : bool) (m m' n n' : oracle -> M A) R : looks d m m' R -> looks d n n' R ->
  looks d (fun p => if b then m p else n p) (fun p => if b then m' p else n' p) R.
Proof. destruct b; auto. Qed.
Lemma v_assert b : looks d (fun _ => assert_ b) (fun _ => assert_ b) (fun _ _ => b = true).
Proof. destruct b; [apply v_ret; reflexivity|apply v_raise]. Qed.
Lemma v_assert_bind {A} (b : bool) (k k' : oracle -> unit -> M A) R :
  (b = true -> looks d (fun p => k p tt) (fun p => k' p tt) R) -> looks d (fun p => bind (assert_ b) (k p)) (fun p => bind (assert_ b) (k' p)) R.
Proof.
  intros H. destruct b; cbn [assert_].
  - intros s prf W. destruct (H eq_refl s prf W) as (prf' & X). exists prf'.
    assert (E : forall (h : oracle -> unit -> M A) p, bind (ret tt) (h p) s = h p tt s).
    { intros h p. unfold bind, ret. destruct (h p tt s) as [[? ?] ?]. reflexivity. }
    rewrite !E. destruct X as (X1 & X2 & X3 & X4 & X5 & X6 & X7). split; [exact X1|]. split; [exact X2|]. split; [exact X3|]. split; [exact X4|]. split; [exact X5|]. split; [exact X6|].
    intros prf'' t t'. rewrite E. apply X7.
  - assert (E : forall (h : oracle -> unit -> M A), (fun p => bind (raise AssertionError) (h p)) = fun _ => raise AssertionError) by reflexivity.
    rewrite !E. apply v_raise.
Qed.
Lemma v_ext {A} (m m' n n' : oracle -> M A) R : (forall p s, m p s = n p s) -> (forall p s, m' p s = n' p s) -> looks d n n' R -> looks d m m' R.
Proof.
  intros E E' H s prf W. destruct (H s prf W) as (prf' & X). exists prf'. rewrite E, E'.
  destruct X as (X1 & X2 & X3 & X4 & X5 & X6 & X7). split; [exact X1|]. split; [exact X2|]. split; [exact X3|]. split; [exact X4|]. split; [exact X5|]. split; [exact X6|].
  intros prf'' t t'. rewrite E'. apply X7.
Qed.
End Quiet.
Ltac statics := repeat match goal with
  | T : twin ?d ?ty ?f ?sc ?x ?x' |- _ => lazymatch goal with _ : pty x = ty |- _ => fail | _ => destruct (twin_is d ty f sc x x' T) as ((? & ? & ?) & (? & ? & ?) & ?) end
  | T : ptwin ?f ?sc ?x ?x' |- _ => lazymatch goal with _ : qfc x = f |- _ => fail | _ => destruct (ptwin_is f sc x x' T) as (? & ? & ?) end end;
  repeat match goal with
  | H : pty ?x = _ |- context[pty ?x] => rewrite H | H : pfc ?x = _ |- context[pfc ?x] => rewrite H | H : psc ?x = _ |- context[psc ?x] => rewrite H
  | H : qfc ?x = _ |- context[qfc ?x] => rewrite H | H : qsc ?x = _ |- context[qsc ?x] => rewrite H end.
Ltac fokt := match goal with H : ready _ ?f |- fok ?f => exact (proj1 H) end.

Ltac vbind := match goal with |- looks ?d (fun p => bind (@?m p) (@?k p)) (fun q => bind (@?m' q) (@?k' q)) ?Q =>
  eapply (v_bind d m m' k k'); cbv beta; [solve [loc]|solve [intros; loc]|solve [intros; tidy]|solve [intros; tidy]|solve [intros; tidy]|solve [intros; tidy]| |] end.

Section Quiet2.
Context (colo : bool) (d : dev).
Lemma v_add_pp ty f sc x x' ty2 f2 sc2 y y' : twin d ty f sc x x' -> twin d ty2 f2 sc2 y y' ->
  looks d (fun _ => add_pp colo x y) (fun _ => add_pp colo x' y') (twin d ty f sc).
Proof.
  intros T T2. unfold add_pp, is_arith. statics. destruct ty; [|apply v_raise].
  eapply v_sharewise2; [exact T|exact T2|]. intros. apply word_fcast. fokt.
Qed.
Lemma v_sub_pp ty f sc x x' ty2 f2 sc2 y y' : twin d ty f sc x x' -> twin d ty2 f2 sc2 y y' ->
  looks d (fun _ => sub_pp colo x y) (fun _ => sub_pp colo x' y') (twin d ty f sc).
Proof.
  intros T T2. unfold sub_pp, is_arith. statics. destruct ty; [|apply v_raise]. apply (v_assert_bind d _ (fun _ _ => _) (fun _ _ => _)). intros _.
  eapply v_sharewise2; [exact T|exact T2|]. intros. apply word_fcast. fokt.
Qed.
Lemma v_negative ty f sc x x' : twin d ty f sc x x' -> looks d (fun _ => negative colo x) (fun _ => negative colo x') (twin d ty f sc).
Proof. intros T. unfold negative. statics. eapply v_sharewise; [exact T|assumption|]. intros. apply word_fcast. fokt. Qed.
Lemma v_xor_pp ty f sc x x' ty2 f2 sc2 y y' : twin d ty f sc x x' -> twin d ty2 f2 sc2 y y' ->
  looks d (fun _ => xor_pp colo x y) (fun _ => xor_pp colo x' y') (fun z z' => twin d Bool_ f sc z z' /\ ty = Bool_ /\ ty2 = Bool_ /\ f = f2).
Proof.
  intros T T2. unfold xor_pp, is_arith. statics. apply (v_assert_bind d _ (fun _ _ => _) (fun _ _ => _)). intros E.
  rewrite !Bool.andb_true_iff, fac_eqb_eq in E. destruct E as [[E1 E2] ->]. destruct ty; [discriminate|]. destruct ty2; [discriminate|].
  eapply v_weaken; [eapply v_sharewise2; [exact T|exact T2|]|auto]. intros. apply word_lxor; [fokt|assumption|assumption].
Qed.
Lemma v_xor_pq ty f sc x x' f2 sc2 y y' : twin d ty f sc x x' -> ptwin f2 sc2 y y' ->
  looks d (fun _ => xor_pq colo x y) (fun _ => xor_pq colo x' y') (fun z z' => twin d Bool_ f sc z z' /\ ty = Bool_).
Proof.
  intros T T2. unfold xor_pq, is_arith. statics. subst y'. statics. apply (v_assert_bind d _ (fun _ _ => _) (fun _ _ => _)). intros E.
  rewrite !Bool.andb_true_iff, fac_eqb_eq in E. destruct E as [E1 ->]. destruct ty; [discriminate|].
  eapply v_weaken; [eapply v_sharewise_pub; [exact T|exact T2|]|auto]. intros. apply word_lxor; [fokt|assumption|assumption].
Qed.
Lemma v_and_pq ty f sc x x' f2 sc2 y y' : twin d ty f sc x x' -> ptwin f2 sc2 y y' ->
  looks d (fun _ => and_pq colo x y) (fun _ => and_pq colo x' y') (fun z z' => twin d Bool_ f sc z z' /\ ty = Bool_).
Proof.
  intros T T2. unfold and_pq, is_arith. statics. subst y'. statics. apply (v_assert_bind d _ (fun _ _ => _) (fun _ _ => _)). intros E.
  rewrite !Bool.andb_true_iff, fac_eqb_eq in E. destruct E as [E1 ->]. destruct ty; [discriminate|].
  eapply v_weaken; [eapply v_sharewise_pub; [exact T|exact T2|]|auto]. intros. apply word_land; [fokt|assumption|assumption].
Qed.
Lemma v_lshift k ty f sc x x' : twin d ty f sc x x' -> looks d (fun _ => lshift colo x k) (fun _ => lshift colo x' k) (twin d ty f sc).
Proof. intros T. unfold lshift. statics. eapply v_sharewise; [exact T|assumption|]. intros. apply word_fcast. fokt. Qed.
Lemma word_shiftr f k v : fok f -> 0 <= k -> word f v -> word f (Z.shiftr v k).
Proof.
  destruct f as [|n]; cbn [fok word]; intros F K V.
  - destruct V as [->| ->]; [rewrite Z.shiftr_0_l; auto|]. destruct (Z.eq_dec k 0) as [->|N]; [auto|]. left.
    rewrite Z.shiftr_div_pow2 by lia. apply Z.div_small. split; [lia|]. apply Z.pow_gt_1; lia.
  - apply in_s_shiftr; assumption.
Qed.
Lemma v_rshift k ty f sc x x' : 0 <= k -> twin d ty f sc x x' -> looks d (fun _ => rshift colo x k) (fun _ => rshift colo x' k) (twin d ty f sc).
Proof. intros K T. unfold rshift. statics. eapply v_sharewise; [exact T|assumption|]. intros. apply word_shiftr; [fokt|assumption|assumption]. Qed.
Lemma word_wshr f k v : fok f -> 0 <= k -> word f v -> word f (wshr f k v).
Proof.
  intros F K V. unfold wshr. destruct (k =? 0) eqn:E; [exact V|]. apply Z.eqb_neq in E. pose proof (word_shiftr f k v F K V) as W.
  destruct f as [|n]; cbn [fok word fbits] in *.
  - replace (Z.lnot (Z.shiftl (-1) (0 - k))) with 0; [rewrite Z.land_0_r; auto|].
    replace (Z.shiftl (-1) (0 - k)) with (-1); [reflexivity|]. replace (0 - k) with (- k) by lia. rewrite Z.shiftl_opp_r. symmetry. apply Z.bits_inj'. intros i Hi.
    rewrite Z.shiftr_spec by lia. rewrite !Z.bits_m1 by lia. reflexivity.
  - assert (X : Z.lnot (Z.shiftl (-1) (n - k)) = if n - k <? 0 then 0 else Z.ones (n - k)).
    { destruct (n - k <? 0) eqn:L.
      - apply Z.ltb_lt in L. replace (n - k) with (- (k - n)) by lia. rewrite Z.shiftl_opp_r. apply Z.bits_inj'. intros i Hi.
        rewrite Z.lnot_spec by lia. rewrite Z.shiftr_spec by lia. rewrite Z.bits_m1 by lia. rewrite Z.bits_0. reflexivity.
      - apply Z.ltb_ge in L. rewrite Z.shiftl_mul_pow2 by lia. rewrite Z.ones_equiv. unfold Z.lnot. lia. }
    rewrite X. destruct (n - k <? 0) eqn:L.
    + rewrite Z.land_0_r. pose proof (pow2_pos (n - 1) ltac:(lia)). lia.
    + apply Z.ltb_ge in L. rewrite Z.land_ones by lia. pose proof (Z.mod_pos_bound (Z.shiftr v k) (2 ^ (n - k)) ltac:(apply pow2_pos; lia)).
      assert (2 ^ (n - k) <= 2 ^ (n - 1)) by (apply Z.pow_le_mono_r; lia). pose proof (pow2_pos (n - 1) ltac:(lia)). lia.
Qed.
Lemma v_lrshift k ty f sc x x' : 0 <= k -> twin d ty f sc x x' -> looks d (fun _ => logical_rshift colo x k) (fun _ => logical_rshift colo x' k) (twin d ty f sc).
Proof. intros K T. unfold logical_rshift. statics. eapply v_sharewise; [exact T|assumption|]. intros. apply word_wshr; [fokt|assumption|assumption]. Qed.
Lemma v_cast f' ty f sc x x' : ready ty f' -> twin d ty f sc x x' -> looks d (fun _ => cast colo f' x) (fun _ => cast colo f' x') (twin d ty f' sc).
Proof.
  intros F T. unfold cast. statics. destruct (fac_eqb f f') eqn:E.
  - apply v_ret. apply fac_eqb_eq in E. subst f'. exact T.
  - eapply v_sharewise; [exact T|exact F|]. intros. apply word_fcast. exact (proj1 F).
Qed.
Lemma v_bit_at i ty f sc x x' : ty = Bool_ -> twin d ty f sc x x' -> looks d (fun _ => bit_at colo x i) (fun _ => bit_at colo x' i) (twin d ty FB false).
Proof.
  intros B T. unfold bit_at. statics. pose proof (v_sharewise colo d (fun v => fcast FB (Z.land (Z.shiftr v i) 1)) FB ty f sc x x' T) as S.
  vbind.
  - apply S; [split; [exact I|congruence]|]. intros. apply word_fcast. exact I.
  - intros z z' Z. apply v_ret. canon3. unfold set_scaled. cbn. prove_twin; auto.
Qed.
(** The public operand enters the share of servers 0 and 2. *)
Lemma v_add_pq ty f sc x x' f2 sc2 y y' : twin d ty f sc x x' -> ptwin f2 sc2 y y' ->
  looks d (fun _ => add_pq colo x y) (fun _ => add_pq colo x' y') (twin d ty f sc).
Proof.
  intros T (v & -> & -> & Wv). unfold add_pq, is_arith. statics. cbn [qsc qfc mkq]. destruct ty; [|apply v_raise]. apply (v_assert_bind d _ (fun _ _ => _) (fun _ _ => _)). intros _.
  canon3. apply v_quiet; [quiet|quiet|]. intros s. unfold op2, bind, mk_priv, mk3. cbn [p00 p01 p10 p11 p20 p21 psc pty pfc vz q0 q1 q2 mkq].
  onrw. knownd d; (split; [reflexivity|]; cbn; prove_twin; auto; apply word_fcast; fokt).
Qed.
Lemma v_sub_pq ty f sc x x' f2 sc2 y y' : twin d ty f sc x x' -> ptwin f2 sc2 y y' ->
  looks d (fun _ => sub_pq colo x y) (fun _ => sub_pq colo x' y') (twin d ty f sc).
Proof.
  intros T (v & -> & -> & Wv). unfold sub_pq, is_arith. statics. cbn [qsc qfc mkq]. destruct ty; [|apply v_raise]. apply (v_assert_bind d _ (fun _ _ => _) (fun _ _ => _)). intros _.
  canon3. apply v_quiet; [quiet|quiet|]. intros s. unfold op2, bind, mk_priv, mk3. cbn [p00 p01 p10 p11 p20 p21 psc pty pfc vz q0 q1 q2 mkq].
  onrw. knownd d; (split; [reflexivity|]; cbn; prove_twin; auto; apply word_fcast; fokt).
Qed.
Lemma v_sub_qp ty f sc x x' f2 sc2 y y' : twin d ty f sc x x' -> ptwin f2 sc2 y y' ->
  looks d (fun _ => sub_qp colo y x) (fun _ => sub_qp colo y' x') (twin d ty f sc2).
Proof.
  intros T (v & -> & -> & Wv). unfold sub_qp. statics. cbn [qsc qfc mkq].
  canon3. apply v_quiet; [quiet|quiet|]. intros s. unfold op1, op2, bind, mk_priv, mk3. cbn [p00 p01 p10 p11 p20 p21 psc pty pfc vz q0 q1 q2 mkq].
  onrw. knownd d; (split; [reflexivity|]; cbn; prove_twin; auto; apply word_fcast; fokt).
Qed.
Lemma v_not ty f sc x x' : twin d ty f sc x x' -> looks d (fun _ => not_p colo x) (fun _ => not_p colo x') (fun z z' => twin d Bool_ f sc z z' /\ ty = Bool_).
Proof.
  intros T. unfold not_p, is_arith. statics. destruct ty; [apply v_raise|].
  canon3. apply v_quiet; [quiet|quiet|]. intros s. unfold op1, bind, mk_priv, mk3. cbn [p00 p01 p10 p11 p20 p21 psc pty pfc vz].
  onrw. knownd d; (split; [reflexivity|]; cbn; split; [|reflexivity]; prove_twin; auto; apply word_fnot; first [fokt|assumption]).
Qed.
End Quiet2.

(** * Operations that draw finitely many words *)

Definition at_ (p : oracle) (q : fac * key * Z * nat) : Z := match q with (f, k, c, i) => p f k c i end.
Definition fac_at (q : fac * key * Z * nat) : fac := match q with (f, _, _, _) => f end.
Definition pt_eqb (q r : fac * key * Z * nat) : bool :=
  match q, r with (f, k, c, i), (f', k', c', i') => key_eqb k k' && Nat.eqb i i' && (c =? c') && fac_eqb f f' end.
Lemma pt_eqb_eq q r : pt_eqb q r = true <-> q = r.
Proof.
  destruct q as [[[f k] c] i], r as [[[f' k'] c'] i']. cbn. rewrite !Bool.andb_true_iff, fac_eqb_eq, key_eqb_eq, Z.eqb_eq, Nat.eqb_eq.
  split; [intros [[[-> ->] ->] ->]; reflexivity|intros H; injection H; auto].
Qed.
(** Replaces the words at the first [N] places [pts]. *)
Fixpoint put (N : nat) (pts : nat -> fac * key * Z * nat) (h : nat -> Z) (p : oracle) : oracle :=
  match N with
  | O => p
  | S N => fun f k c i => if pt_eqb (f, k, c, i) (pts N) then h N else put N pts h p f k c i
  end.
Lemma put_off N pts h p f k c i : (forall j, (j < N)%nat -> (f, k, c, i) <> pts j) -> put N pts h p f k c i = p f k c i.
Proof.
  induction N as [|N IH]; intros H; cbn [put]; [reflexivity|].
  destruct (pt_eqb (f, k, c, i) (pts N)) eqn:E; [apply pt_eqb_eq in E; exfalso; apply (H N); [lia|exact E]|]. apply IH. intros j J. apply H. lia.
Qed.
Lemma put_at N pts h p j : (forall j k, (j < N)%nat -> (k < N)%nat -> pts j = pts k -> j = k) -> (j < N)%nat -> at_ (put N pts h p) (pts j) = h j.
Proof.
  induction N as [|N IH]; intros D J; [lia|]. unfold at_. destruct (pts j) as [[[f k] c] i] eqn:Q. cbn [put].
  destruct (pt_eqb (f, k, c, i) (pts N)) eqn:E.
  - apply pt_eqb_eq in E. rewrite (D j N J ltac:(lia)); [reflexivity|congruence].
  - assert (j <> N) by (intros ->; rewrite <- Q in E; rewrite (proj2 (pt_eqb_eq _ _) eq_refl) in E; discriminate).
    apply IH; [|lia]. intros a b A B. apply D; lia.
Qed.
Lemma put_words N pts h p : prf_words p -> (forall j, (j < N)%nat -> word (fac_at (pts j)) (h j)) -> prf_words (put N pts h p).
Proof.
  intros W H. induction N as [|N IH]; cbn [put]; [exact W|]. intros f k c i F.
  destruct (pt_eqb (f, k, c, i) (pts N)) eqn:E; [|apply IH; [intros j J; apply H; lia|exact F]].
  apply pt_eqb_eq in E. pose proof (H N ltac:(lia)) as X. rewrite <- E in X. exact X.
Qed.
Lemma v_words {A} d N (pts : state -> nat -> fac * key * Z * nat) (run run' : state -> (nat -> Z) -> state * list ev * res A) (m m' : oracle -> M A) R :
  (forall s j, (j < N)%nat -> fok (fac_at (pts s j))) ->
  (forall s j k, (j < N)%nat -> (k < N)%nat -> pts s j = pts s k -> j = k) ->
  (forall p s, m p s = run s (fun j => at_ p (pts s j))) -> (forall p s, m' p s = run' s (fun j => at_ p (pts s j))) ->
  (forall s g h, (forall j, (j < N)%nat -> g j = h j) -> run s g = run s h) ->
  (forall s g h, (forall j, (j < N)%nat -> g j = h j) -> run' s g = run' s h) ->
  (forall s g q, In q (seeds (log_of (run s g))) <-> exists j, (j < N)%nat /\ q = pts s j) ->
  (forall s g h, seeds (log_of (run' s h)) = seeds (log_of (run s g)) /\ state_of (run' s h) = state_of (run s g)) ->
  (forall s g, (forall j, (j < N)%nat -> word (fac_at (pts s j)) (g j)) -> exists h, (forall j, (j < N)%nat -> word (fac_at (pts s j)) (h j)) /\
     view d (run' s h) = view d (run s g) /\ matched R (snd (run s g)) (snd (run' s h)) /\
     (forall h' t t', (forall j, (j < N)%nat -> word (fac_at (pts s j)) (h' j)) -> view d (run' s h') ++ t' = view d (run s g) ++ t -> forall j, (j < N)%nat -> h' j = h j)) ->
  looks d m m' R.
Proof.
  intros Fk D E E' X X' Sd SS H s prf W.
  assert (WW : forall p, prf_words p -> forall j, (j < N)%nat -> word (fac_at (pts s j)) (at_ p (pts s j))).
  { intros p Wp j J. specialize (Fk s j J). destruct (pts s j) as [[[f k] c] i]. apply Wp. exact Fk. }
  destruct (H s _ (WW prf W)) as (h & Hw & Hv & Hm & Hu).
  set (prf' := put N (pts s) h prf). assert (Er : run' s (fun j => at_ prf' (pts s j)) = run' s h).
  { apply X'. intros j J. apply put_at; [apply D|exact J]. }
  exists prf'. split; [apply put_words; assumption|]. rewrite E, E', Er. split; [|split; [|split; [|split; [exact Hv|split; [exact Hm|]]]]].
  - intros f k c i N'. apply put_off. intros j J Q. apply N'. apply Sd. exists j. auto.
  - apply SS.
  - apply SS.
  - intros prf'' t t' W'' V f k c i I. apply Sd in I. destruct I as (j & J & Q). rewrite E' in V.
    pose proof (Hu _ t t' (WW prf'' W'') V j J) as U. cbv beta in U. rewrite <- (put_at N (pts s) h prf j (D s) J) in U. rewrite <- Q in U. exact U.
Qed.
