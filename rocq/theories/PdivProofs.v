(** Proofs about Pond's division. *)
From Coq Require Import Reals Lra Psatz QArith.
From Verif Require Import Base Factory TensorModel TensorProofs CrtModel CrtProofs CrtFloat CrtProps PondModel PondSpec PondProofs PondTrunc
  PondProps ChebModel ChebSpec ChebProofs PdivModel PdivSpec.
Local Open Scope Z_scope.

Lemma toward_zero_near r v : toward_zero r v -> (Rabs (IZR v - r) <= 1 /\ Rabs (IZR v) <= Rabs r)%R.
Proof.
  intros [H1 H2]. destruct (Rle_dec 0 r) as [C|C].
  - destruct (H1 C) as [A B]. assert (0 <= v)%Z by (apply Z.lt_pred_le, lt_IZR; unfold Z.pred; rewrite plus_IZR; lra). apply IZR_le in H.
    rewrite (Rabs_right r), (Rabs_right (IZR v)) by lra. split; [apply Rabs_le|]; lra.
  - destruct (H2 ltac:(lra)) as [A B]. assert (v <= 0)%Z by (apply Z.lt_succ_r, lt_IZR; rewrite succ_IZR; lra). apply IZR_le in H.
    rewrite (Rabs_left r), (Rabs_left1 (IZR v)) by lra. split; [apply Rabs_le|]; lra.
Qed.
Lemma computed_near a v : computed a v -> (Rabs (IZR v - a) <= 1 + / 2 ^ 40 * Rabs a /\ Rabs (IZR v) <= (1 + / 2 ^ 40) * Rabs a)%R.
Proof.
  intros (r & H & T). destruct (toward_zero_near r v T) as [A B]. split.
  - replace (IZR v - a)%R with ((IZR v - r) + (r - a))%R by ring. eapply Rle_trans; [apply Rabs_triang|]. lra.
  - eapply Rle_trans; [exact B|]. replace r with (a + (r - a))%R by ring. eapply Rle_trans; [apply Rabs_triang|]. lra.
Qed.
Lemma eps_small : (0 < / 2 ^ 40 <= / 1000000000)%R.
Proof. split; [apply Rinv_0_lt_compat; lra|apply Rinv_le_contravar; lra]. Qed.
Lemma computed_zero a v : computed a v -> (Rabs a <= 0.99999)%R -> v = 0.
Proof.
  intros H A. destruct (computed_near a v H) as [_ B]. pose proof eps_small. pose proof (Rabs_pos a).
  assert (Rabs (IZR v) < 1)%R by nra. rewrite <- abs_IZR in *. apply lt_IZR in H2. lia.
Qed.

Section Local.
Context (F : factory) (L : lawful F) (n : nat).
Lemma centred_of v : 2 * Z.abs v < fmod F -> centred F (fof F v) = v.
Proof.
  intros H. unfold centred. rewrite (law_of F L). destruct (Z.leb_spec 0 v).
  - rewrite Z.mod_small by lia. destruct (Z.ltb_spec (2 * v) (fmod F)); lia.
  - replace (v mod fmod F) with (v + fmod F); [destruct (Z.ltb_spec (2 * (v + fmod F)) (fmod F)); lia|].
    rewrite <- (Z.mod_small (v + fmod F) (fmod F)) by lia. replace (v + fmod F) with (v + 1 * fmod F) by lia. apply Z_mod_plus_full.
Qed.
Lemma public_local_ok f t v : denotes F n t true v -> (forall v0 v1 s, t = Pub v0 v1 s -> forall i, (i < n)%nat -> 2 * Z.abs (v i) < fmod F) ->
  (exists v0 v1 s, t = Pub v0 v1 s) -> yields F (public_local F f t) (fun z => denotes F n z true (fun i => f (v i)) /\ exists v0 v1, z = Pub v0 v1 true).
Proof.
  intros D HB (v0 & v1 & s & ->). pose proof D as (-> & D0 & D1 & W0 & W1 & Hv). specialize (HB v0 v1 true eq_refl).
  assert (G : forall w : pv F, okT F n (pval w) -> (forall i, (i < n)%nat -> eqm (fmod F) (tval F (pval w) i) (v i)) ->
    map (fun e : felt F => fof F (f (centred F e))) (pval w) = map (fun i => fof F (f (v i))) (seq 0 n)).
  { intros w W H. rewrite (ten_of F L n (pval w) v W H), map_map. apply map_ext_in. intros i Hi. apply in_seq in Hi. rewrite centred_of by (apply HB; lia). reflexivity. }
  unfold public_local, yields. cbn [bind op1 snd fst]. rewrite (G v0), (G v1) by (auto; intros; apply Hv; assumption).
  rewrite (mk_pub_ok F n) by (cbn [pdev pval]; auto using okT_of). cbn [snd]. eexists. split; [reflexivity|]. split; [|eauto].
  cbn [denotes pdev pval]. repeat match goal with |- _ /\ _ => split end; auto using okT_of. intros i Hi. split; apply (tval_of F L); exact Hi.
Qed.
End Local.

Lemma denotes_eq F n t sc u v : (forall i, (i < n)%nat -> u i = v i) -> denotes F n t sc u -> denotes F n t sc v.
Proof.
  intros E. destruct t; cbn [denotes]; intros H; repeat match type of H with _ /\ _ => let H' := fresh in destruct H as [H' H] end;
    repeat match goal with |- _ /\ _ => split end; try assumption; intros i Hi; rewrite <- (E i Hi); auto.
Qed.

Section Div.
Context (p : precision) (n : nat).
Notation F := (ring p). Notation c := (cfg p). Notation s := (scaling_factor c).
Local Open Scope R_scope.
Lemma s_small : 6561 <= IZR s <= 65536.
Proof. destruct p; cbn [cfg]; [change (scaling_factor fixed64) with 6561%Z|change (scaling_factor fixed100) with 65536%Z]; lra. Qed.
(** A product with any public tensor. *)
Lemma product_quotient (G : good p) r x k v (K : nat -> Z) A C (P : nat -> R -> Prop) : drawn p n (fun _ => r) -> denotes F n x true v -> denotes F n k true K ->
  (forall i, (i < n)%nat -> Rabs (worth p (v i)) <= A) -> (forall i, (i < n)%nat -> Rabs (worth p (K i)) <= C) -> A * C <= 2 ^ 30 ->
  (forall i z, (i < n)%nat -> Rabs (z - worth p (v i) * worth p (K i)) <= unit_of p -> P i z) ->
  outcome p n (mul F BMul (fops p) c r x k) P.
Proof.
  intros Hd Dx Dk HA HC B HP. eapply outcome_of.
  - refine (mul_near F (ring_lawful p) (fops p) c n (limit p) (factor_ok p) (limit_ok p) _ r x k _ _ 0 0 A C _ (input_near _ _ _ _ _ Dx) (input_near _ _ _ _ _ Dk) _ _ _).
    + intros; apply trunc_ok; assumption.
    + apply (drawn_rok p n _ Hd O).
    + intros i Hi. rewrite <- worth_div. apply HA. exact Hi.
    + intros i Hi. rewrite <- worth_div. apply HC. exact Hi.
    + lra.
  - intros i z Hi H. apply HP; [exact Hi|]. cbv beta in H. rewrite <- !worth_div in H. eapply Rle_trans; [exact H|]. unfold unit_of. rewrite worth_div.
    unfold Rdiv. lra.
Qed.
Lemma unit_pos : 0 < unit_of p /\ unit_of p = / IZR s.
Proof. unfold unit_of. rewrite worth_div. pose proof s_small. unfold Rdiv. rewrite Rmult_1_l. split; [apply Rinv_0_lt_compat; lra|reflexivity]. Qed.
(** The inverse in fixed point. *)
Lemma inverse_worth K y : y <> 0 -> computed (IZR s / y) K ->
  Rabs (worth p K - / y) <= unit_of p + / 2 ^ 40 * Rabs (/ y) /\ Rabs (worth p K) <= (1 + / 2 ^ 40) * Rabs (/ y).
Proof.
  intros Hy H. destruct (computed_near _ _ H) as [A B]. pose proof s_small. destruct unit_pos as [U0 U]. rewrite worth_div. unfold Rdiv in *.
  assert (E : Rabs (IZR s * / y) = IZR s * Rabs (/ y)) by (rewrite Rabs_mult, (Rabs_right (IZR s)) by lra; reflexivity). rewrite E in *. split.
  - replace (IZR K * / IZR s - / y) with ((IZR K - IZR s * / y) * / IZR s) by (field; lra). rewrite Rabs_mult, (Rabs_right (/ IZR s)) by (rewrite <- U; lra).
    rewrite U. apply (Rmult_le_reg_r (IZR s)); [lra|]. rewrite Rmult_assoc, Rinv_l, Rmult_1_r by lra. eapply Rle_trans; [exact A|].
    rewrite Rmult_plus_distr_r, Rinv_l by lra. lra.
  - rewrite Rabs_mult, (Rabs_right (/ IZR s)) by (rewrite <- U; lra). apply (Rmult_le_reg_r (IZR s)); [lra|]. rewrite Rmult_assoc, Rinv_l, Rmult_1_r by lra. lra.
Qed.
Lemma quotient_of x y k z : y <> 0 -> Rabs (k - / y) <= unit_of p + / 2 ^ 40 * Rabs (/ y) -> Rabs (z - x * k) <= unit_of p -> quotient p x y z.
Proof.
  intros Hy Hk Hz. unfold quotient. replace (z - x / y) with ((z - x * k) + x * (k - / y)) by (field; exact Hy). eapply Rle_trans; [apply Rabs_triang|].
  rewrite Rabs_mult. unfold Rdiv. rewrite Rabs_mult. pose proof (Rabs_pos x). pose proof (Rmult_le_compat_l (Rabs x) _ _ H Hk). lra.
Qed.
Lemma worth_small v : Rabs (worth p v) <= 2 ^ 13 -> (2 * Z.abs v < fmod F)%Z.
Proof.
  intros H. rewrite worth_div in H. pose proof s_small. assert (Rabs (IZR v) <= 2 ^ 13 * 65536).
  { replace (IZR v) with (IZR v / IZR s * IZR s) by (field; lra). rewrite Rabs_mult, (Rabs_right (IZR s)) by lra. pose proof (Rabs_pos (IZR v / IZR s)). nra. }
  rewrite <- abs_IZR in H1. replace (2 ^ 13 * 65536) with (IZR (2 ^ 29)) in H1 by (change (2 ^ 29)%Z with 536870912%Z; lra). apply le_IZR in H1.
  assert (2 ^ 31 <= fmod F)%Z by (destruct p; vm_compute; congruence). lia.
Qed.
Lemma constant_ok x v (K : Z) sc : denotes F n x sc v ->
  yields F (bind (fresh Srv0 (vconst F (entries F x) K)) (fun k0 => bind (fresh Srv1 (vconst F (entries F x) K)) (fun k1 => mk_pub k0 k1 sc))) (fun k => denotes F n k sc (fun _ => K) /\ exists v0 v1, k = Pub v0 v1 sc).
Proof.
  intros D. assert (E : entries F x = n).
  { destruct x; cbn [denotes entries] in *.
    - destruct D as (_ & _ & _ & W & _). apply (okT_len F _ _ W).
    - destruct D as (_ & _ & _ & W & _). apply (okT_len F _ _ W).
    - destruct D as (_ & _ & _ & _ & _ & _ & _ & _ & _ & _ & _ & W & _). apply (okT_len F _ _ W). }
  rewrite E. unfold yields. cbn [bind fresh snd fst]. pose proof (ring_lawful p) as L.
  rewrite (mk_pub_ok F n) by (cbn [pdev pval]; auto using okT_vconst). cbn [snd]. eexists. split; [reflexivity|]. split; [|eauto].
  cbn [denotes pdev pval]. repeat match goal with |- _ /\ _ => split end; auto using okT_vconst. intros i Hi. split; apply (tval_vconst F L n); assumption.
Qed.
Lemma outcome_bind m (Q : ptensor F -> Prop) k P : yields F m Q -> (forall a, Q a -> outcome p n (k a) P) -> outcome p n (bind m k) P.
Proof. intros H K. unfold outcome. eapply (bind_near F m Q k); [exact H|]. intros a Ha. apply (K a Ha). Qed.
Lemma bind_assoc3 {A B' C' : Type} (m1 : M F A) (m2 : A -> M F B') (m3 : A -> B' -> M F C') (k : C' -> M F (ptensor F)) P :
  outcome p n (bind (bind m1 (fun a => bind (m2 a) (m3 a))) k) P -> outcome p n (bind m1 (fun a => bind (m2 a) (fun b => bind (m3 a b) k))) P.
Proof.
  unfold outcome, yields. intros (z & E & H). exists z. split; [|exact H]. revert E. unfold bind. destruct (snd m1) as [a|]; cbn [snd]; [|exact (fun e => e)].
  destruct (snd (m2 a)) as [b|]; cbn [snd]; [|exact (fun e => e)]. destruct (snd (m3 a b)); exact (fun e => e).
Qed.
End Div.
