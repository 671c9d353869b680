(** Proofs about ABY3's exponentials. *)
From Coq Require Import Reals Lra Psatz.
From Verif Require Aby3Hide.
From Verif Require Import Base TensorModel TensorProofs Aby3Model Aby3Spec Aby3Proofs Aby3Bits Aby3Circ Aby3Cmp Aby3Trunc Aby3NetModel Aby3NetSpec Aby3Net FpModel FpSpec FpProofs FpRecip FpLogModel FpLogReal FpLogSpec FpLogProofs FpLogMain FpSqrtProofs FpExpModel FpExpSpec FpExpReal FpExpProofs.
Open Scope Z_scope.

(** * Bits *)
Lemma wshr_bits n k x i : 0 < k < n -> 0 <= i -> Z.testbit (wshr (FI n) k x) i = (i <? n - k) && Z.testbit x (i + k).
Proof.
  intros Hk Hi. unfold wshr. destruct (Z.eqb_spec k 0); [lia|]. cbn [fbits]. rewrite Z.land_spec, Z.shiftr_spec by lia. rewrite Z.lnot_spec by lia. rewrite Z.shiftl_spec by lia.
  destruct (Z.ltb_spec i (n - k)).
  - rewrite (Z.testbit_neg_r (-1)) by lia. cbn [negb andb]. rewrite andb_true_r. reflexivity.
  - rewrite Z.bits_m1 by lia. cbn [negb andb]. apply andb_false_r.
Qed.
Lemma low_bits n k v : 0 < k -> k + 5 <= n -> Z.land (wshr (FI n) k v) 31 = (v / 2 ^ k) mod 32.
Proof.
  intros Hk Hn. change 32 with (2 ^ 5). rewrite <- Z.shiftr_div_pow2, <- Z.land_ones by lia. change (Z.ones 5) with 31.
  apply Z.bits_inj'. intros i Hi. rewrite !Z.land_spec, wshr_bits, Z.shiftr_spec by lia. change 31 with (Z.ones 5).
  destruct (Z_lt_le_dec i 5).
  - destruct (Z.ltb_spec i (n - k)); [reflexivity|lia].
  - rewrite Z.ones_spec_high by lia. rewrite !andb_false_r. reflexivity.
Qed.
Lemma top_shift n v : 1 < n -> in_s n v -> wshr (FI n) (n - 1) v = Z.b2z (v <? 0).
Proof.
  intros Hn Hv. apply Z.bits_inj'. intros i Hi. rewrite wshr_bits by lia. replace (n - (n - 1)) with 1 by lia.
  unfold in_s in Hv. destruct (Z.ltb_spec i 1).
  - assert (i = 0) by lia. subst i. cbn [andb]. rewrite Z.add_0_l, Z.b2z_bit0. destruct (Z.ltb_spec v 0).
    + rewrite <- (Z.opp_involutive v), Z.bits_opp by lia. rewrite Z.bits_above_log2 by (lia || (destruct (Z.eq_dec (Z.pred (- v)) 0) as [-> | ]; [cbn; lia|apply Z.log2_lt_pow2; lia])). reflexivity.
    + rewrite Z.bits_above_log2; [reflexivity|lia|]. destruct (Z.eq_dec v 0) as [-> | ]; [cbn; lia|apply Z.log2_lt_pow2; lia].
  - cbn [andb]. symmetry. destruct (v <? 0); cbn [Z.b2z]; [apply Z.bits_above_log2; cbn; lia|apply Z.bits_0].
Qed.
Lemma pow2_product w : 0 <= w < 32 -> zprod (map (fun i => (2 ^ 2 ^ Z.of_nat i - 1) * Z.b2z (Z.testbit w (Z.of_nat i)) + 1) (seq 0 5)) = 2 ^ w.
Proof.
  intros Hw. assert (H : forallb (fun j => zprod (map (fun i => (2 ^ 2 ^ Z.of_nat i - 1) * Z.b2z (Z.testbit (Z.of_nat j) (Z.of_nat i)) + 1) (seq 0 5)) =? 2 ^ Z.of_nat j) (seq 0 32) = true) by (vm_compute; reflexivity).
  rewrite forallb_forall in H. specialize (H (Z.to_nat w)). rewrite Z2Nat.id in H by lia. apply Z.eqb_eq, H, in_seq. lia.
Qed.

(** * Powers of two *)
Lemma Rpower2_Z w : 0 <= w -> Rpower 2 (IZR w) = IZR (2 ^ w).
Proof.
  intros Hw. unfold Rpower. rewrite <- ln_pow2 by exact Hw. apply exp_ln, IZR_lt, pow2_pos, Hw.
Qed.
Lemma real_split k v : 0 <= k -> (real_of k v = IZR (v / 2 ^ k) + real_of k (v mod 2 ^ k))%R.
Proof.
  intros Hk. pose proof (pow2_pos k Hk) as Hp. pose proof (Z.div_mod v (2 ^ k) ltac:(lia)) as D. unfold real_of. rewrite D at 1. rewrite plus_IZR, mult_IZR.
  field. apply not_0_IZR. lia.
Qed.
Lemma pow2_split k v : 0 <= k -> (pow2 (real_of k v) = pow2 (IZR (v / 2 ^ k)) * pow2 (real_of k (v mod 2 ^ k)))%R.
Proof. intros Hk. unfold pow2. rewrite <- Rpower_plus. f_equal. apply real_split, Hk. Qed.
(** The value whose power is computed: [v] modulo 32. *)
Lemma pow2_mod32 k v : 0 <= k -> (pow2 (real_of k (v mod (32 * 2 ^ k))) = IZR (2 ^ ((v / 2 ^ k) mod 32)) * pow2 (real_of k (v mod 2 ^ k)))%R.
Proof.
  intros Hk. pose proof (pow2_pos k Hk) as Hp. rewrite pow2_split by exact Hk.
  assert (E : v mod (32 * 2 ^ k) = v mod 2 ^ k + 2 ^ k * ((v / 2 ^ k) mod 32)) by (rewrite (Z.mul_comm 32); apply Z.rem_mul_r; lia).
  rewrite E. rewrite (Z.mul_comm (2 ^ k)), Z.mod_add, Z.div_add by lia. rewrite Zmod_mod. rewrite (Z.div_small (v mod 2 ^ k)) by (apply Z.mod_pos_bound, Hp). rewrite Z.add_0_l.
  unfold pow2 at 1. rewrite Rpower2_Z by (apply Z.mod_pos_bound; lia). reflexivity.
Qed.
Lemma pow2_shift k v : 0 <= k -> - 32 * 2 ^ k <= v < 0 -> (pow2 (real_of k (v mod (32 * 2 ^ k))) / IZR (2 ^ 32) = pow2 (real_of k v))%R.
Proof.
  intros Hk Hv. pose proof (pow2_pos k Hk) as Hp. assert (E : v mod (32 * 2 ^ k) = v + 32 * 2 ^ k) by (symmetry; apply (Z.mod_unique _ _ (-1)); lia).
  rewrite E, real_add by exact Hk. replace (real_of k (32 * 2 ^ k)) with (IZR 32) by (unfold real_of; rewrite mult_IZR; field; apply not_0_IZR; lia).
  unfold pow2. rewrite Rpower_plus, Rpower2_Z by lia. field. apply not_0_IZR. lia.
Qed.

Lemma real01 k F : 0 <= F < 2 ^ k -> (0 <= real_of k F <= 1)%R.
Proof.
  intros HF. unfold real_of. assert (P : (0 < IZR (2 ^ k))%R) by (apply IZR_lt; lia). assert (Q : (0 <= IZR F <= IZR (2 ^ k))%R) by (split; apply IZR_le; lia).
  split; [apply Rmult_le_pos; [lra|left; apply Rinv_0_lt_compat, P]|]. apply (Rmult_le_reg_r (IZR (2 ^ k)) _ _ P). unfold Rdiv. rewrite Rmult_assoc, Rinv_l by lra. lra.
Qed.
Lemma shifted_fits n k w U : 0 <= k -> k + 34 <= n - 2 -> 0 <= w < 32 -> Z.abs U < 4 * 2 ^ k -> fits n (U * 2 ^ w).
Proof.
  intros Hk Hn Hw HU. assert (Q : 1 <= 2 ^ w <= 2 ^ 31) by (split; [pose proof (pow2_pos w); lia|apply Z.pow_le_mono_r; lia]).
  assert (T : 4 * 2 ^ k * 2 ^ 31 <= 2 ^ (n - 2)) by (change 4 with (2 ^ 2); rewrite <- !Z.pow_add_r by lia; apply Z.pow_le_mono_r; lia).
  assert (A : Z.abs (U * 2 ^ w) < 4 * 2 ^ k * 2 ^ 31).
  { rewrite Z.abs_mul, (Z.abs_eq (2 ^ w)) by lia. apply Z.le_lt_trans with (Z.abs U * 2 ^ 31); [apply Z.mul_le_mono_nonneg_l; lia|apply Z.mul_lt_mono_pos_r; lia]. }
  unfold fits. clear - A T. lia.
Qed.
Lemma real_shifted k w U : 0 <= k -> (real_of k (U * 2 ^ w) = IZR (2 ^ w) * real_of k U)%R.
Proof. intros Hk. unfold real_of. rewrite mult_IZR. field. apply not_0_IZR. pose proof (pow2_pos k Hk). lia. Qed.

Section Ops.
Context (prf : fac -> key -> Z -> nat -> Z) (colo : bool) (Hprf : prf_words prf).
Context (n k : Z) (Hcfg : exp_config n k).

Lemma lshr_ok x u j : 0 < j < n -> boolean (FI n) x u -> yields (logical_rshift colo x j) (fun z => boolean (FI n) z (wshr (FI n) j u) /\ psc z = psc x).
Proof.
  clear prf Hprf Hcfg k. intros Hj Hx. unfold logical_rshift. assert (Fx : pfc x = FI n) by apply Hx. rewrite Fx.
  apply (sharewise_bool_ok colo (wshr (FI n) j) (FI n) (FI n) x u Hx).
  - intros a Ha. apply Aby3Hide.word_wshr; [cbn; lia|lia|exact Ha].
  - intros a b _ _. apply Z.bits_inj'. intros i Hi. rewrite Z.lxor_spec, !wshr_bits, Z.lxor_spec by lia. destruct (i <? n - j); reflexivity.
  - cbn [fok]. lia.
Qed.
Lemma top_bits x v : 1 < n -> boolean (FI n) x v -> in_s n v -> yields (do s <- logical_rshift colo x (n - 1); cast colo FB s) (fun z => boolean FB z (Z.b2z (v <? 0))).
Proof.
  clear prf Hprf Hcfg k. intros Hn Hx Hv.
  assert (B : yields (logical_rshift colo x (n - 1)) bits01).
  { destruct (bool_inv _ _ _ Hx) as (a & b & c & -> & Ha & Hb & Hc & _). unfold logical_rshift, sharewise, mk3. cbn [p00 p01 p10 p11 p20 p21 psc pty pfc].
    yrun. unfold bits01. cbn [p00 p10 p20 vz]. rewrite !top_shift by assumption. destruct (a <? 0), (b <? 0), (c <? 0); cbn; auto. }
  eapply yb. { intros s. destruct (lshr_ok x v (n - 1) ltac:(lia) Hx s) as (z & E & H). destruct (B s) as (z' & E' & H'). rewrite E in E'. inversion E'. subst z'. exists z. split; [exact E|]. exact (conj H H'). }
  intros s ((Hs & _) & Hb). eapply y_weaken; [apply (cast_FB_ok colo n s _ ltac:(lia) Hs Hb)|]. intros z (Hz & _). rewrite top_shift in Hz by assumption. exact Hz.
Qed.

Lemma small_word z : 0 <= z < 2 ^ (n - 1) -> in_s n z.
Proof. unfold in_s. lia. Qed.
Lemma pow2_factor_ok x w i : boolean (FI n) x w -> (i < 5)%nat ->
  yields (pow2_factor prf colo x i) (fun z => arith n z ((2 ^ 2 ^ Z.of_nat i - 1) * Z.b2z (Z.testbit w (Z.of_nat i)) + 1) /\ psc z = false).
Proof.
  intros Hx Hi. destruct (ex_facts n k Hcfg) as (N1 & N0 & K0 & KK & K1 & N3 & K11 & Kn & N34 & _). unfold pow2_factor. assert (Fx : pfc x = FI n) by apply Hx. rewrite Fx.
  eapply yb; [apply (bit_of_ok colo n (Z.of_nat i) x w N0 Hx)|]. intros b (Hb & Sb).
  assert (P : 2 <= 2 ^ 2 ^ Z.of_nat i <= 65536).
  { assert (Q : 1 <= 2 ^ Z.of_nat i <= 16) by (split; [pose proof (pow2_pos (Z.of_nat i)); lia|change 16 with (2 ^ 4); apply Z.pow_le_mono_r; lia]).
    split; [change 2 with (2 ^ 1) at 1|change 65536 with (2 ^ 16)]; apply Z.pow_le_mono_r; lia. }
  assert (B : 65536 < 2 ^ (n - 1)) by (change 65536 with (2 ^ 16); apply Z.pow_lt_mono_r; lia).
  set (t := 2 ^ 2 ^ Z.of_nat i) in *. clearbody t.
  eapply yb; [apply (const_ok colo (FI n) (t - 1) false N0)|]. intros q (Hq & Sq). cbn [fcast] in Hq. rewrite swrap_id in Hq by (exact N0 || (apply small_word; lia)).
  eapply yb; [apply (mul_ab_qp_ok prf colo Hprf n q b (t - 1) (Z.b2z (Z.testbit w (Z.of_nat i))) N0 Hq (proj2 Hb))|]. intros d (Hd & Sd).
  set (beta := Z.b2z (Z.testbit w (Z.of_nat i))) in *. assert (Hbeta : 0 <= beta <= 1) by (unfold beta; destruct (Z.testbit w (Z.of_nat i)); cbn; lia). clearbody beta.
  rewrite swrap_id in Hd by (exact N0 || (apply small_word; nia)).
  eapply yb; [apply (const_ok colo (FI n) 1 false N0)|]. intros one (Ho & So). cbn [fcast] in Ho. rewrite swrap_id in Ho by (exact N0 || (apply small_word; lia)).
  eapply y_weaken; [apply (add_pq_ok colo n d one _ _ N0 Hd Ho ltac:(congruence))|]. intros z (Hz & Sz). split; [|congruence].
  rewrite swrap_id in Hz by (exact N0 || (apply small_word; nia)). rewrite (Z.mul_comm (t - 1)). exact Hz.
Qed.
Lemma pow2_from_bits_ok x w : boolean (FI n) x w -> 0 <= w < 32 -> yields (pow2_from_bits prf colo k 5 x) (fun d => arith n d (2 ^ w) /\ psc d = false).
Proof.
  intros Hx Hw. destruct (ex_facts n k Hcfg) as (N1 & N0 & K0 & KK & K1 & N3 & K11 & Kn & N34 & _). unfold pow2_from_bits.
  set (g := fun i => (2 ^ 2 ^ Z.of_nat i - 1) * Z.b2z (Z.testbit w (Z.of_nat i)) + 1).
  eapply yb. { apply (mapM_ok (pow2_factor prf colo x) (fun i v => (i < 5)%nat /\ v = g i) (fun z v => arith n z v /\ psc z = false) (seq 0 5) (map g (seq 0 5))).
    - clear. assert (G : forall l, Forall (fun i => (i < 5)%nat) l -> Forall2 (fun i v => (i < 5)%nat /\ v = g i) l (map g l)).
      { intros l H. induction H as [|i l Hi H IH]; cbn [map]; constructor; [split; [exact Hi|reflexivity]|exact IH]. }
      apply G, Forall_forall. intros i Hi. apply in_seq in Hi. lia.
    - intros i v (Hi & ->). apply pow2_factor_ok; assumption. }
  intros ds Hds. eapply yb. { apply (prod_ok prf colo Hprf n k ds _ N0 Hds). intros E. subst ds. inversion Hds. }
  intros d (Hd & Sd). apply y_assert; [rewrite Sd; reflexivity|]. apply y_ret. split; [|exact Sd]. unfold g in Hd. rewrite pow2_product in Hd by exact Hw.
  rewrite swrap_id in Hd; [exact Hd|exact N0|]. apply small_word. split; [pose proof (pow2_pos w); lia|]. apply Z.pow_lt_mono_r; lia.
Qed.
Lemma select_zero_ok c z (beta : bool) u : 0 < n -> boolean FB c (Z.b2z beta) -> arith n z u ->
  yields (select_zero prf colo c z) (fun w => arith n w (if beta then 0 else u) /\ psc w = psc z).
Proof.
  clear Hcfg k. intros Hn Hc Hz. unfold select_zero. assert (Fz : pfc z = FI n) by apply Hz. rewrite Fz.
  assert (Iz : in_s n 0) by (unfold in_s; pose proof (pow2_pos (n - 1)); lia).
  assert (Iu : in_s n u) by (destruct (arith_inv _ _ _ Hz) as (? & ? & ? & _ & _ & _ & _ & D & _); exact D).
  eapply yb; [apply (const_ok colo (FI n) 0 (psc z) Hn)|]. intros q (Hq & Sq). cbn [fcast] in Hq. rewrite swrap_id in Hq by assumption.
  eapply yb; [apply (sub_qp_ok colo n q z u 0 Hn Hz Hq)|]. intros d (Hd & Sd).
  eapply yb; [apply (mul_ab_pp_ok prf colo Hprf n d c _ _ Hn Hd (proj2 Hc))|]. intros e (He & Se).
  eapply y_weaken; [apply (add_pp_ok colo n e z _ _ Hn He Hz)|]. intros w (Hw & Sw). rewrite (sel_value n beta u 0 Hn Iu Iz) in Hw.
  split; [exact Hw|congruence].
Qed.

(** 2 to the power of [v] modulo 32, times the error of the polynomial. *)
Lemma exp2_parts_ok cs x v : arith n x v -> psc x = true -> excoeffs_for k cs ->
  yields (exp2_parts prf colo k cs x) (fun bg => boolean (FI n) (fst bg) v /\ psc (snd bg) = true /\ exists G, arith n (snd bg) G /\ fits n G /\
    let P := pow2 (real_of k (v mod (32 * 2 ^ k))) in (Rabs (real_of k G - P) <= (pade_error k + 16 * ulp k) * P)%R).
Proof.
  intros Hx Sx Hc. destruct (ex_facts n k Hcfg) as (N1 & N0 & K0 & KK & K1 & N3 & K11 & Kn & N34 & Had & Fc & Hu). unfold exp2_parts. assert (Fx : pfc x = FI n) by apply Hx. rewrite Fx.
  pose proof (pow2_pos k K0) as Hp. assert (L : 2 ^ k < 2 ^ (n - 1)) by (apply Z.pow_lt_mono_r; lia).
  eapply yb; [apply (const_ok colo (FI n) (2 ^ k - 1) false N0)|]. intros fm (Hfm & _). cbn [fcast] in Hfm. rewrite swrap_id in Hfm by (exact N0 || (apply small_word; lia)).
  assert (L5 : 31 < 2 ^ (n - 1)) by (apply Z.lt_trans with (2 ^ 5); [reflexivity|apply Z.pow_lt_mono_r; lia]).
  eapply yb; [apply (const_ok colo (FI n) 31 false N0)|]. intros im (Him & _). cbn [fcast] in Him. rewrite swrap_id in Him by (exact N0 || (apply small_word; lia)).
  eapply yb; [apply (a2b_ok prf colo Hprf n x v None n Had Hx eq_refl ltac:(lia))|]. intros bx (Sbx & Hbx). rewrite Z.ltb_irrefl in Hbx.
  eapply yb; [apply (lshr_ok bx v k ltac:(lia) Hbx)|]. intros ix (Hix & Six).
  eapply yb; [apply (and_pq_ok colo (FI n) ix im _ _ N0 Hix Him)|]. intros i5 (Hi5 & _). rewrite low_bits in Hi5 by lia.
  eapply yb; [apply (and_pq_ok colo (FI n) bx fm _ _ N0 Hbx Hfm)|]. intros fx (Hfx & Sfx).
  assert (Em : Z.land v (2 ^ k - 1) = v mod 2 ^ k) by (rewrite <- Z.land_ones by exact K0; rewrite Z.ones_equiv; f_equal; lia). rewrite Em in Hfx. clear Em.
  set (w := (v / 2 ^ k) mod 32) in *. assert (Hw : 0 <= w < 32) by (apply Z.mod_pos_bound; lia).
  assert (Hi5' : boolean (FI n) (unscale i5) w) by exact Hi5.
  eapply yb; [apply (pow2_from_bits_ok (unscale i5) w Hi5' Hw)|]. intros d (Hd & Sd).
  assert (Hfx' : boolean (FI n) (rescale fx) (v mod 2 ^ k)) by exact Hfx.
  eapply yb; [apply (b2a_bits_ok prf colo Hprf n k (rescale fx) _ N1 (conj K1 Kn) Hfx')|]. intros fa (Hfa & Sfa). rewrite Zmod_mod in Hfa.
  set (F := v mod 2 ^ k) in *. assert (HF : 0 <= F < 2 ^ k) by (apply Z.mod_pos_bound, Hp).
  eapply yb; [apply (exp2_pade_ok prf colo Hprf n k Hcfg cs fa F Hfa Sfa HF Hc)|]. intros u (Su & U & HU & EU).
  pose proof (pow2_mod32 k v K0) as EP. fold w F in EP. fold (pow2 (real_of k F)) in EU.
  assert (P2 : (1 <= pow2 (real_of k F) <= 2)%R).
  { unfold pow2. pose proof (real01 k F HF) as Q.
    split; [apply Rpower2_ge1, Q|]. rewrite <- (Rpower_1 2) at 2 by lra. apply Rle_Rpower; lra. }
  set (p := pow2 (real_of k F)) in *. assert (PE : (0 <= pade_error k <= 0.002)%R) by (unfold pade_error; destruct (k <? 13), (k <? 17), (k <? 20); lra).
  assert (BU : Z.abs U < 4 * 2 ^ k).
  { apply lt_IZR. rewrite abs_IZR, mult_IZR. assert (Pk : (0 < IZR (2 ^ k))%R) by (apply IZR_lt, Hp).
    assert (RU : (Rabs (real_of k U) <= 3)%R) by (apply abs2 in EU; apply abs2; nra). unfold real_of, Rdiv in RU. rewrite Rabs_mult, (Rabs_right (/ _)) in RU by (left; apply Rinv_0_lt_compat, Pk).
    apply (Rmult_le_compat_r (IZR (2 ^ k))) in RU; [|lra]. rewrite Rmult_assoc, Rinv_l, Rmult_1_r in RU by lra. lra. }
  pose proof (shifted_fits n k w U K0 N34 Hw BU) as FG.
  eapply yb; [apply (mul_pp_unscaled_ok prf colo Hprf n k u d U (2 ^ w) N0 HU Hd ltac:(rewrite Sd; apply andb_false_r))|]. intros g (Hg & Sg).
  rewrite swrap_id in Hg by (exact N0 || exact (fits_in n _ N1 FG)).
  apply y_ret. cbn [fst snd]. split; [exact Hbx|]. split; [rewrite Sg, Su; reflexivity|]. exists (U * 2 ^ w). split; [exact Hg|]. split; [exact FG|].
  cbv zeta. rewrite EP. pose proof (real_shifted k w U K0) as ER.
  rewrite ER, <- Rmult_minus_distr_l, Rabs_mult. assert (W0 : (0 < IZR (2 ^ w))%R) by (apply IZR_lt, pow2_pos, Hw). rewrite (Rabs_right (IZR (2 ^ w))) by lra.
  replace ((pade_error k + 16 * ulp k) * (IZR (2 ^ w) * p))%R with (IZR (2 ^ w) * ((pade_error k + 16 * ulp k) * p))%R by ring.
  apply Rmult_le_compat_l; [lra|]. eapply Rle_trans; [exact EU|]. nra.
Qed.

(** The comparison with [- k]. *)
Lemma out_of_range v : in_s n v -> v < 2 ^ (n - 2) -> (swrap n (v - - k * 2 ^ k) <? 0) = (v <? - k * 2 ^ k).
Proof.
  intros Hv Hv2. destruct (ex_facts n k Hcfg) as (N1 & N0 & K0 & KK & K1 & N3 & K11 & Kn & N34 & _). clear Hcfg prf colo Hprf.
  assert (E : 2 ^ (n - 1) = 2 * 2 ^ (n - 2)) by (rewrite (pow2_half (n - 1)) by lia; do 2 f_equal; lia).
  assert (Kb : k < 2 ^ k) by (apply Z.pow_gt_lin_r; lia).
  assert (T : k * 2 ^ k <= 2 ^ (n - 2)). { apply Z.le_trans with (2 ^ k * 2 ^ k); [apply Z.mul_le_mono_nonneg_r; [apply Z.pow_nonneg|]; lia|]. rewrite <- Z.pow_add_r by lia. apply Z.pow_le_mono_r; lia. }
  assert (T0 : 0 <= k * 2 ^ k) by (apply Z.mul_nonneg_nonneg; [|apply Z.pow_nonneg]; lia).
  replace (v - - k * 2 ^ k) with (v + k * 2 ^ k) by ring. replace (- k * 2 ^ k) with (- (k * 2 ^ k)) by ring. set (t := k * 2 ^ k) in *. clearbody t.
  unfold in_s in Hv. rewrite swrap_id; [|exact N0|unfold in_s; lia]. destruct (Z.ltb_spec (v + t) 0), (Z.ltb_spec v (- t)); lia.
Qed.
Lemma pow2_below v : v < - k * 2 ^ k -> (0 <= pow2 (real_of k v) <= ulp k)%R.
Proof.
  intros Hv. destruct (ex_facts n k Hcfg) as (N1 & N0 & K0 & KK & K1 & _). clear Hcfg prf colo Hprf.
  unfold pow2. split; [left; apply exp_pos|]. unfold ulp. rewrite <- (Rpower2_Z k K0), <- Rpower_Ropp. apply Rle_Rpower; [lra|].
  assert (P : (0 < IZR (2 ^ k))%R) by (apply IZR_lt, pow2_pos, K0). unfold real_of. apply (Rmult_le_reg_r (IZR (2 ^ k)) _ _ P). unfold Rdiv. rewrite Rmult_assoc, Rinv_l, Rmult_1_r by lra.
  rewrite <- opp_IZR, <- mult_IZR. apply IZR_le. lia.
Qed.

Lemma exp2_ok cs sign x v : arith n x v -> psc x = true -> excoeffs_for k cs -> sign_fits sign v -> v < 2 ^ (n - 2) -> (k <= 32 \/ - 32 * 2 ^ k <= v) ->
  yields (fp_exp2 prf colo k cs sign x) (fun z => psc z = true /\ exists r, arith n z r /\
    if 0 <=? v then let P := pow2 (real_of k (v mod (32 * 2 ^ k))) in (Rabs (real_of k r - P) <= (pade_error k + 16 * ulp k) * P)%R
    else exp_within k 16 (pow2 (real_of k v)) (real_of k r)).
Proof.
  intros Hx Sx Hc Hs Hv2 Hlow. destruct (ex_facts n k Hcfg) as (N1 & N0 & K0 & KK & K1 & N3 & K11 & Kn & N34 & Had & Fc & Hu).
  assert (Hv : in_s n v) by (destruct (arith_inv _ _ _ Hx) as (? & ? & ? & _ & _ & _ & _ & D & _); exact D).
  unfold fp_exp2. eapply yb; [apply (exp2_parts_ok cs x v Hx Sx Hc)|]. intros (bx & g) (Hbx & Sg & G & HG & FG & EG). cbn [fst snd] in *. cbv zeta in EG.
  eapply yb; [apply (trunc_round prf colo Hprf n k 32 g G N1 K0 ltac:(lia) ltac:(lia) HG Sg FG)|]. intros small (Ss & T & RT & HT).
  apply (real_trunc k 32 _ _ K0 ltac:(lia)) in RT.
  assert (Fx : pfc x = FI n) by apply Hx. rewrite Fx. cbn [fbits].
  assert (PE : (0 <= pade_error k <= 0.002)%R) by (unfold pade_error; destruct (k <? 13), (k <? 17), (k <? 20); lra).
  assert (SM : v < 0 -> - 32 * 2 ^ k <= v -> exp_within k 16 (pow2 (real_of k v)) (real_of k T)).
  { intros V1 V2. unfold exp_within. rewrite <- (pow2_shift k v K0 (conj V2 V1)). set (P := pow2 (real_of k (v mod (32 * 2 ^ k)))) in *.
    assert (Q : (Rabs (real_of k G / IZR (2 ^ 32) - P / IZR (2 ^ 32)) <= (pade_error k + 16 * ulp k) * (P / IZR (2 ^ 32)))%R).
    { assert (Q0 : (0 < / IZR (2 ^ 32))%R) by (apply Rinv_0_lt_compat, IZR_lt; reflexivity). unfold Rdiv. set (q := (/ IZR (2 ^ 32))%R) in *. clearbody q.
      rewrite <- Rmult_minus_distr_r, Rabs_mult, (Rabs_right q) by lra. rewrite <- Rmult_assoc. apply Rmult_le_compat_r; [lra|exact EG]. }
    set (gq := (real_of k G / IZR (2 ^ 32))%R) in *. set (pq := (P / IZR (2 ^ 32))%R) in *. clearbody gq pq. clear - Q RT. apply abs2 in Q, RT. apply abs2. lra. }
  set (V := if v <? 0 then T else G).
  eapply (yb _ (fun z => psc z = true /\ exists r, arith n z r /\ (match sign with EPos => r = G | ENeg => r = T | EAny => r = V end))).
  { destruct sign.
    - apply y_ret. split; [exact Sg|]. exists G. split; [exact HG|reflexivity].
    - apply y_ret. split; [exact Ss|]. exists T. split; [exact HT|reflexivity].
    - change (yields (do s <- logical_rshift colo bx (n - 1); do s0 <- cast colo FB s; select prf colo s0 g small) (fun z => psc z = true /\ exists r, arith n z r /\ r = V)).
      assert (TB := top_bits bx v N1 Hbx Hv).
      intros st. destruct (TB st) as (c & Ec & Hcb).
      assert (SE := select_arith_ok prf colo Hprf n c g small (v <? 0) G T N0 Hcb HG HT ltac:(congruence)).
      revert Ec. unfold bind. destruct (logical_rshift colo bx (n - 1) st) as ((st1 & e1) & [s0|er]); cbn [snd]; [|discriminate].
      destruct (cast colo FB s0 st1) as ((st2 & e2) & [s1|er]); cbn [snd]; [|discriminate]. intros Ec. inversion Ec; subst s1.
      destruct (SE st2) as (z & Ez & Hz & Sz). destruct (select prf colo c g small st2) as ((st3 & e3) & rz). cbn [snd] in *. subst rz.
      exists z. split; [reflexivity|]. split; [congruence|]. exists V. split; [exact Hz|reflexivity]. }
  intros z (Sz & r & Hz & Er).
  assert (OK0 : 0 <= v -> sign <> ENeg -> r = G) by (intros V0 NE; destruct sign; [exact Er|congruence|]; rewrite Er; unfold V; destruct (Z.ltb_spec v 0); [lia|reflexivity]).
  assert (OK1 : v < 0 -> sign <> EPos -> r = T) by (intros V0 NE; destruct sign; [congruence|exact Er|]; rewrite Er; unfold V; destruct (Z.ltb_spec v 0); [reflexivity|lia]).
  assert (Z0 : 0 <= k * 2 ^ k) by (apply Z.mul_nonneg_nonneg; [exact K0|apply Z.pow_nonneg; lia]).
  assert (FIN : forall rr, sign <> EPos -> rr = (if v <? - k * 2 ^ k then 0 else r) ->
    if 0 <=? v then let P := pow2 (real_of k (v mod (32 * 2 ^ k))) in (Rabs (real_of k rr - P) <= (pade_error k + 16 * ulp k) * P)%R else exp_within k 16 (pow2 (real_of k v)) (real_of k rr)).
  { intros rr NP ->. replace (- k * 2 ^ k) with (- (k * 2 ^ k)) in * by ring. destruct (Z.leb_spec 0 v) as [V0|V0].
    - cbv zeta. destruct (Z.ltb_spec v (- (k * 2 ^ k))) as [V1|V1]; [clear - V0 V1 Z0; lia|]. rewrite OK0; [exact EG|exact V0|]. intros ->. cbn [sign_fits] in Hs. clear - Hs V0. lia.
    - destruct (Z.ltb_spec v (- (k * 2 ^ k))) as [V1|V1].
      + pose proof (pow2_below v ltac:(clear - V1; lia)) as B. replace (real_of k 0) with 0%R by (unfold real_of, Rdiv; rewrite Rmult_0_l; reflexivity).
        unfold exp_within. apply abs2. set (p := pow2 (real_of k v)) in *. clearbody p. assert (0 <= (pade_error k + 16 * ulp k) * p)%R by (apply Rmult_le_pos; lra). lra.
      + rewrite (OK1 V0 NP). apply SM; [exact V0|]. destruct Hlow as [HL|HL]; [|exact HL].
        assert (k * 2 ^ k <= 32 * 2 ^ k) by (apply Z.mul_le_mono_nonneg_r; [apply Z.pow_nonneg; lia|exact HL]). lia. }
  assert (REST : sign <> EPos -> yields (do lim <- const colo (FI n) (- k * 2 ^ k) true; do out <- less_than_pq prf colo x lim; select_zero prf colo out z)
    (fun z => psc z = true /\ exists r, arith n z r /\
      if 0 <=? v then let P := pow2 (real_of k (v mod (32 * 2 ^ k))) in (Rabs (real_of k r - P) <= (pade_error k + 16 * ulp k) * P)%R else exp_within k 16 (pow2 (real_of k v)) (real_of k r))).
  { intros NP. eapply yb; [apply (const_ok colo (FI n) (- k * 2 ^ k) true N0)|]. intros lim (Hl & Sl). cbn [fcast] in Hl.
    assert (Il : in_s n (- k * 2 ^ k)).
    { apply (fits_in n _ N1). unfold fits. assert (Kb : k < 2 ^ k) by (apply Z.pow_gt_lin_r; clear - K0; lia).
      assert (T2 : k * 2 ^ k <= 2 ^ (n - 2)). { apply Z.le_trans with (2 ^ k * 2 ^ k); [apply Z.mul_le_mono_nonneg_r; [apply Z.pow_nonneg; clear; lia|clear - Kb; lia]|]. rewrite <- Z.pow_add_r by exact K0. apply Z.pow_le_mono_r; [reflexivity|exact KK]. }
      replace (- k * 2 ^ k) with (- (k * 2 ^ k)) by ring. pose proof (pow2_pos (n - 2) ltac:(clear - N34 K0; lia)) as Pp. clear - T2 Z0 Pp. lia. }
    rewrite swrap_id in Hl by (exact N0 || exact Il).
    assert (Psz : pow2_size n) by (destruct Had as [-> | ->]; [exists 6%nat|exists 7%nat]; split; reflexivity || lia).
    eapply yb; [apply (less_than_pq_ok prf colo Hprf n x lim v _ Psz Hx Hl ltac:(congruence))|]. intros out (Ho & _). rewrite (out_of_range v Hv Hv2) in Ho.
    eapply y_weaken; [apply (select_zero_ok out z _ r N0 Ho Hz)|]. intros w (Hw & Sw). split; [congruence|]. eexists. split; [exact Hw|]. apply FIN; [exact NP|reflexivity]. }
  destruct sign.
  - apply y_ret. split; [exact Sz|]. exists r. split; [exact Hz|]. cbn [sign_fits] in Hs. destruct (Z.leb_spec 0 v) as [V0|V0]; [|clear - Hs V0; lia]. rewrite Er. exact EG.
  - apply REST. discriminate.
  - apply REST. discriminate.
Qed.

(** The scaled argument of [exp]. *)
Lemma two_le d : (0 <= d <= / 2 -> Rpower 2 d <= 1 + d)%R.
Proof.
  clear. intros Hd. unfold Rpower. rewrite <- (exp_ln (1 + d)) by lra. pose proof ln2_tight as L.
  assert (H : (d * ln 2 <= ln (1 + d))%R).
  { eapply Rle_trans; [|apply ln_lower; lra]. apply div_ge; [nra|]. set (l := ln 2) in *. clearbody l. assert (D2 : (0 <= d * d <= / 4)%R) by nra. assert (Q : (l * (6 + 6 * d + d * d) <= 6 + 3 * d)%R) by nra. nra. }
  destruct H as [H| ->]; [left; apply exp_increasing, H|apply Rle_refl].
Qed.
Lemma scaled_power x y d : (0 <= d <= / 2 -> Rabs (y - x * / ln 2) <= d -> Rabs (pow2 y - exp x) <= d * exp x)%R.
Proof.
  clear. intros Hd Hy. pose proof ln2_tight as L. assert (E : exp x = pow2 (x * / ln 2)) by (unfold pow2, Rpower; f_equal; field; lra). rewrite E.
  set (t := (x * / ln 2)%R) in *. replace y with (t + (y - t))%R by ring. unfold pow2. rewrite Rpower_plus. pose proof (exp_pos (t * ln 2)) as P. fold (Rpower 2 t) in P. set (p := Rpower 2 t) in *.
  set (e := (y - t)%R) in *. apply abs2 in Hy.
  assert (U : (Rpower 2 e <= 1 + d)%R) by (eapply Rle_trans; [apply Rle_Rpower with (m := d); lra|apply two_le, Hd]).
  assert (W : (1 - d <= Rpower 2 e)%R).
  { apply Rle_trans with (Rpower 2 (- d)); [|apply Rle_Rpower; lra]. rewrite Rpower_Ropp. pose proof (two_le d Hd) as T. assert (Q : (0 < Rpower 2 d)%R) by apply exp_pos.
    apply (Rmult_le_reg_r (Rpower 2 d) _ _ Q). rewrite Rinv_l by lra. nra. }
  clearbody p. apply abs2. nra.
Qed.

Lemma exp2_domain_ok cs sign x v : arith n x v -> psc x = true -> excoeffs_for k cs -> sign_fits sign v -> exp2_domain k v ->
  yields (fp_exp2 prf colo k cs sign x) (fun z => psc z = true /\ exists r, arith n z r /\ exp_within k 16 (pow2 (real_of k v)) (real_of k r)).
Proof.
  intros Hx Sx Hc Hs (Hhi & Hlo). destruct (ex_facts n k Hcfg) as (N1 & N0 & K0 & KK & K1 & N3 & K11 & Kn & N34 & Had & Fc & Hu).
  assert (H2 : v < 2 ^ (n - 2)). { apply Z.lt_le_trans with (2 ^ 5 * 2 ^ k); [exact Hhi|]. rewrite <- Z.pow_add_r by lia. apply Z.pow_le_mono_r; lia. }
  eapply y_weaken; [apply (exp2_ok cs sign x v Hx Sx Hc Hs H2 Hlo)|]. intros z (Sz & r & Hr & Er). split; [exact Sz|]. exists r. split; [exact Hr|].
  destruct (Z.leb_spec 0 v) as [V0|V0]; [|exact Er]. cbv zeta in Er. rewrite Z.mod_small in Er by (clear - V0 Hhi; lia). unfold exp_within. lra.
Qed.
Lemma exp_ok le cs sign x v : arith n x v -> psc x = true -> excoeffs_for k cs -> encodes k le (/ ln 2) -> sign_fits sign v -> exp_domain k v ->
  yields (fp_exp prf colo k le cs sign x) (fun z => psc z = true /\ exists r, arith n z r /\ natural_within k (real_of k v) (real_of k r)).
Proof.
  intros Hx Sx Hc Hle Hs (Hhi & Hlo). destruct (ex_facts n k Hcfg) as (N1 & N0 & K0 & KK & K1 & N3 & K11 & Kn & N34 & Had & Fc & Hu). pose proof (scale_R k K11) as Hsc.
  assert (Hp : 2048 <= 2 ^ k) by (change 2048 with (2 ^ 11); apply Z.pow_le_mono_r; [reflexivity|exact K11]).
  assert (Eh : 2 ^ k = 2 * 2 ^ (k - 1)) by (apply pow2_half; exact K1).
  pose proof ln2_tight as L2. assert (IL : (1.4426 <= / ln 2 <= 1.4427)%R).
  { assert (P : (0 < ln 2)%R) by lra. split; apply (Rmult_le_reg_r (ln 2) _ _ P); rewrite Rinv_l by lra; lra. }
  assert (Ele := Hle). apply (real_enc k _ _ K0) in Ele.
  assert (Ble : (Rabs (real_of k le) <= 1.4432)%R) by (apply abs2; apply abs2 in Ele; lra).
  (* the argument *)
  set (X := real_of k v). assert (Ps : (0 < IZR (2 ^ k))%R) by lra.
  assert (EX : IZR v = (X * IZR (2 ^ k))%R) by (unfold X, real_of; field; lra).
  assert (X22 : (X <= 22)%R). { apply IZR_le in Hhi. rewrite mult_IZR, EX in Hhi. apply (Rmult_le_reg_r (IZR (2 ^ k)) _ _ Ps). exact Hhi. }
  assert (XB : (Rabs X <= IZR (2 ^ k) / 2 - 1)%R).
  { assert (Q : - (2 ^ (k - 1) - 1) * 2 ^ k <= v). { destruct Hlo as [HL|(_ & HL)]; [|exact HL]. apply Z.le_trans with (- 22 * 2 ^ k); [|exact HL]. apply Z.mul_le_mono_nonneg_r; clear - Hp Eh; lia. }
    apply IZR_le in Q. rewrite mult_IZR, EX, opp_IZR, minus_IZR in Q. apply (Rmult_le_reg_r (IZR (2 ^ k)) _ _ Ps) in Q.
    assert (Eh' : IZR (2 ^ k) = (2 * IZR (2 ^ (k - 1)))%R) by (rewrite <- mult_IZR; f_equal; exact Eh). apply abs2. lra. }
  set (d := ((Rabs X + 1) * ulp k)%R).
  assert (Us : (ulp k * IZR (2 ^ k) = 1)%R) by (unfold ulp; apply Rinv_l; lra).
  assert (Hd : (0 <= d <= / 2)%R).
  { pose proof (Rabs_pos X) as XP. unfold d. split; [apply Rmult_le_pos; lra|]. apply Rle_trans with ((IZR (2 ^ k) / 2) * ulp k)%R; [apply Rmult_le_compat_r; lra|]. lra. }
  unfold fp_exp. assert (Fx : pfc x = FI n) by apply Hx. rewrite Fx.
  eapply yb; [apply (konst colo n k _ Fc le 1.4432 Ble); lra|]. intros w (Hw & Sw).
  eapply yb. { apply (mul_pq_round prf colo Hprf n k x w v le N1 K0 KK Hx Hw Sx Sw). apply (fits_real n k _ _ (IZR (2 ^ k) / 2 * 1.4432) K1 N3); [|lra].
    apply Rmult_le_compat; [apply Rabs_pos|apply Rabs_pos|fold X; lra|exact Ble]. }
  intros a (Sa & A & RA & HA). assert (RA' := RA). apply (real_mul k _ _ _ K0) in RA. fold X in RA.
  assert (EA : (Rabs (real_of k A - X * / ln 2) <= d)%R).
  { assert (Q : (Rabs (X * real_of k le - X * / ln 2) <= Rabs X * ulp k)%R) by (rewrite <- Rmult_minus_distr_l, Rabs_mult; apply Rmult_le_compat_l; [apply Rabs_pos|exact Ele]).
    unfold d. apply abs2 in RA, Q. apply abs2. lra. }
  assert (EAz : IZR A = (real_of k A * IZR (2 ^ k))%R) by (unfold real_of; field; lra).
  assert (Dom : exp2_domain k A).
  { split.
    - apply lt_IZR. rewrite mult_IZR, EAz. apply Rmult_lt_compat_r; [exact Ps|]. apply abs2 in EA. destruct (Rle_dec 0 X) as [X0|X0].
      + assert (D22 : (d <= 23 / 2048)%R) by (unfold d; rewrite Rabs_right by lra; assert ((X + 1) * ulp k <= 23 * / 2048)%R by (apply Rmult_le_compat; lra); lra).
        assert (X * / ln 2 <= 22 * 1.4427)%R by (apply Rmult_le_compat; lra). lra.
      + assert (X * / ln 2 <= 0)%R by nra. lra.
    - destruct Hlo as [HL|(HL & _)]; [right|left; exact HL]. apply le_IZR. rewrite mult_IZR, EAz. apply Rmult_le_compat_r; [lra|].
      assert (XL : (-22 <= X)%R). { apply IZR_le in HL. rewrite mult_IZR, EX in HL. apply (Rmult_le_reg_r (IZR (2 ^ k)) _ _ Ps). exact HL. }
      assert (AX : (Rabs X <= 22)%R) by (apply abs2; lra). pose proof (Rabs_pos X) as XP.
      assert (D22 : (d <= 23 / 2048)%R) by (unfold d; assert ((Rabs X + 1) * ulp k <= 23 * / 2048)%R by (apply Rmult_le_compat; lra); lra).
      apply abs2 in EA. assert (-22 * 1.4427 <= X * / ln 2)%R by (destruct (Rle_dec 0 X); nra). lra. }
  assert (Lle : 2 ^ k + 1 <= le).
  { apply le_IZR. rewrite plus_IZR. unfold encodes in Hle. apply abs2 in Hle. nra. }
  assert (SA : sign_fits sign A).
  { destruct RA' as (RA' & _). assert (HP : 0 < 2 ^ k) by lia. clear - Hs Lle RA' HP. set (s := 2 ^ k) in *. clearbody s. destruct sign; cbn [sign_fits] in *; [| |exact I].
    - assert (0 <= v * le / s) by (apply Z.div_pos; nia). destruct RA' as [-> | ->]; lia.
    - assert (v * le / s < -1) by (apply Z.div_lt_upper_bound; nia). destruct RA' as [-> | ->]; lia. }
  eapply y_weaken; [apply (exp2_domain_ok cs sign a A HA Sa Hc SA Dom)|]. intros z (Sz & r & Hr & Er). split; [exact Sz|]. exists r. split; [exact Hr|].
  unfold natural_within. fold X. fold d. unfold exp_within in Er. pose proof (scaled_power X (real_of k A) d Hd EA) as SP. pose proof (exp_pos X) as EP.
  assert (PE : (0 <= pade_error k <= 0.002)%R) by (unfold pade_error; destruct (k <? 13), (k <? 17), (k <? 20); lra).
  set (p := pow2 (real_of k A)) in *. set (e := exp X) in *. set (q := (pade_error k + 16 * ulp k)%R) in *. assert (Q0 : (0 <= q)%R) by (unfold q; lra). clearbody p e q.
  assert (PB : (q * p <= q * ((1 + d) * e))%R) by (apply Rmult_le_compat_l; [exact Q0|]; apply abs2 in SP; lra).
  apply abs2 in SP, Er. apply abs2. lra.
Qed.
End Ops.
