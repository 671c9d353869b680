(** Accuracy of the reciprocal of [FpModel]: the error analysis of [FpReal] applied to the program. *)
From Coq Require Import Reals Lra Psatz.
From Verif Require Import Base TensorModel TensorProofs Aby3Model Aby3Spec Aby3Bits Aby3Proofs Aby3Trunc Adder Aby3Circ Aby3Cmp Aby3Net FpModel FpSpec FpProofs FpReal.
Open Scope Z_scope.

Lemma rounded_R k X r : 0 <= k -> rounded k X r -> (Rabs (IZR r - IZR X / IZR (2 ^ k)) <= 1)%R.
Proof.
  intros Hk [Hr _]. pose proof (pow2_pos k Hk) as Hp. pose proof (Z.div_mod X (2 ^ k) ltac:(lia)) as D. pose proof (Z.mod_pos_bound X (2 ^ k) Hp) as B.
  assert (H1 : - 2 ^ k <= r * 2 ^ k - X <= 2 ^ k) by (destruct Hr as [-> | ->]; nia). clear D B Hr.
  assert (Rp : (0 < IZR (2 ^ k))%R) by (apply IZR_lt; exact Hp).
  destruct H1 as [H1 H2]. apply IZR_le in H1, H2. rewrite opp_IZR in H1. rewrite minus_IZR, mult_IZR in H1, H2.
  set (s := IZR (2 ^ k)) in *. clearbody s. apply Rabs_le_iff.
  split; apply Rmult_le_reg_r with s; try exact Rp; replace ((IZR r - IZR X / s) * s)%R with (IZR r * s - IZR X)%R by (field; lra); lra.
Qed.
Lemma fits_R n k X : 0 < k -> 3 * k + 1 < n - 2 -> (Rabs (IZR X) <= 1.5 * (IZR (2 ^ k) * IZR (2 ^ k) * IZR (2 ^ k)))%R -> fits n X.
Proof.
  intros Hk Hn H. pose proof (pow2_pos k ltac:(lia)) as Hp.
  assert (H2 : (IZR (Z.abs X) < IZR (2 * (2 ^ k * 2 ^ k * 2 ^ k)))%R).
  { rewrite abs_IZR, !mult_IZR. assert (Rp : (0 < IZR (2 ^ k))%R) by (apply IZR_lt; exact Hp).
    assert (0 < IZR (2 ^ k) * IZR (2 ^ k) * IZR (2 ^ k))%R by (repeat apply Rmult_lt_0_compat; exact Rp). lra. }
  apply lt_IZR in H2. rewrite <- !Z.pow_add_r in H2 by lia. rewrite <- Z.pow_succ_r in H2 by lia.
  assert (2 ^ Z.succ (k + k + k) <= 2 ^ (n - 2)) by (apply Z.pow_le_mono_r; lia). unfold fits. lia.
Qed.
Lemma fits_in n X : 1 < n -> fits n X -> in_s n X.
Proof. intros Hn H. unfold fits, in_s in *. assert (E1 : 2 ^ (n - 1) = 2 * 2 ^ (n - 2)) by (rewrite (pow2_half (n - 1)) by lia; do 2 f_equal; lia). pose proof (pow2_pos (n - 2)). lia. Qed.

(** The residual of an approximation [a] of the reciprocal of [v]. *)
Definition resid (k v a : Z) : R := (Rabs (1 - IZR a * IZR v / (IZR (2 ^ k) * IZR (2 ^ k))))%R.
(** The bound reached after one round. *)
Definition target (k v : Z) : R := (0.0000062 + 2.2 * / IZR (2 ^ k) + 1.13 * Rabs (IZR v / (IZR (2 ^ k) * IZR (2 ^ k))))%R.

Section Ops.
Context (prf : fac -> key -> Z -> nat -> Z) (colo : bool) (Hprf : prf_words prf).
Context (n k m : Z) (Hcfg : fp_config n k m) (Hk11 : 11 <= k).

Lemma cfg_facts : 1 < n /\ 0 < n /\ 0 <= k /\ k + k <= n - 2 /\ 0 < k /\ 3 * k + 1 < n - 2 /\ 0 < m.
Proof. clear Hk11. destruct Hcfg as (Ha & Hk & Hm & Hn). clear - Ha Hk Hm Hn. lia. Qed.
Lemma scale_R : (2048 <= IZR (2 ^ k))%R.
Proof. change 2048%R with (IZR (2 ^ 11)). apply IZR_le. apply Z.pow_le_mono_r; lia. Qed.
Lemma scale_cubes s : (2048 <= s -> s <= 0.01 * (s * s * s) /\ s * s <= 0.01 * (s * s * s) /\ 0 < s * s * s)%R.
Proof.
  intros H. assert (A : (2048 * 2048 <= s * s)%R) by nra. assert (B : (2048 * (s * s) <= s * s * s)%R) by nra. split; [|split]; nra.
Qed.

Lemma step_ok one x a v A : arith n x v -> psc x = true -> arith n a A -> psc a = true -> public (FI n) one (2 ^ k) -> qsc one = true ->
  v <> 0 -> 64 * Z.abs v <= 2 ^ k * 2 ^ k -> (resid k v A <= 0.09)%R ->
  yields (recip_step prf colo k one x a) (fun z => psc z = true /\ exists A', arith n z A' /\ (resid k v A' <= target k v)%R /\ (resid k v A' <= 0.09)%R).
Proof.
  intros Hx Sx Ha Sa Hone Sone Hv0 Hv HA. destruct cfg_facts as (N1 & N0 & K0 & KK & K1 & N3 & _).
  pose proof scale_R as Hs. set (s := IZR (2 ^ k)) in *. destruct (scale_cubes s Hs) as (C1 & C2 & C3).
  assert (HV : (Rabs (IZR v) * 64 <= s * s)%R). { apply IZR_le in Hv. rewrite !mult_IZR, abs_IZR in Hv. fold s in Hv. lra. }
  assert (HV1 : (1 <= Rabs (IZR v))%R). { rewrite <- abs_IZR. apply IZR_le. lia. }
  assert (RA : (Rabs (1 - IZR A * IZR v / (s * s)) <= 0.09)%R) by exact HA.
  unfold recip_step.
  assert (F : fits n (v * A)).
  { apply (fits_R n k _ K1 N3). fold s. rewrite mult_IZR. eapply Rle_trans; [exact (Va_bound s (IZR v) (IZR A) Hs HV RA HV1)|]. lra. }
  eapply yb; [apply (mul_round prf colo Hprf n k x a v A N1 K0 KK Hx Ha Sx Sa F)|]. intros zt (Szt & t & Rt & Hzt). clear F.
  apply (rounded_R k _ _ K0) in Rt. fold s in Rt. rewrite mult_IZR in Rt.
  eapply yb; [apply (sub_qp_ok colo n one zt _ _ N0 Hzt Hone)|]. intros zr (Hzr & Szr).
  assert (Er : IZR (2 ^ k - t) = (s - IZR t)%R) by (rewrite minus_IZR; reflexivity).
  pose proof (res_bound s (IZR v) (IZR A) (IZR t) _ Hs RA Rt Er) as Br.
  rewrite swrap_id in Hzr; [|exact N0|]. 2:{ apply (fits_in n _ N1), (fits_R n k _ K1 N3). fold s. eapply Rle_trans; [exact Br|]. lra. }
  set (res := 2 ^ k - t) in *. rewrite Sone in Szr.
  assert (F : fits n (res * res)).
  { apply (fits_R n k _ K1 N3). fold s. rewrite mult_IZR. eapply Rle_trans; [apply (mul_bound _ _ _ _ Br Br)|]. nra. }
  eapply yb; [apply (mul_round prf colo Hprf n k zr zr res res N1 K0 KK Hzr Hzr Szr Szr F)|]. intros zr2 (Szr2 & res2 & Rr2 & Hzr2). clear F.
  apply (rounded_R k _ _ K0) in Rr2. fold s in Rr2. rewrite mult_IZR in Rr2.
  pose proof (res2_bound s (IZR v) (IZR A) (IZR t) _ _ Hs RA Rt Er Rr2) as Br2.
  eapply yb; [apply (add_qp_ok colo n one zr2 _ _ N0 Hzr2 Hone); congruence|]. intros zu (Hzu & Szu).
  rewrite swrap_id in Hzu; [|exact N0|].
  2:{ apply (fits_in n _ N1), (fits_R n k _ K1 N3). fold s. rewrite plus_IZR. fold s. apply Rabs_le_iff in Br2. apply Rabs_le. lra. }
  assert (F : fits n (A * (2 ^ k + res2))).
  { apply (fits_R n k _ K1 N3). fold s. rewrite mult_IZR, plus_IZR. fold s.
    eapply Rle_trans; [exact (au_bound s (IZR v) (IZR A) (IZR t) _ _ Hs HV RA Rt Er Rr2 HV1)|]. lra. }
  eapply yb; [apply (mul_round prf colo Hprf n k a zu _ _ N1 K0 KK Ha Hzu Sa); [congruence|exact F]|]. intros zt1 (Szt1 & t1 & Rt1 & Hzt1). clear F.
  apply (rounded_R k _ _ K0) in Rt1. fold s in Rt1. rewrite mult_IZR, plus_IZR in Rt1. fold s in Rt1.
  eapply yb; [apply (add_pp_ok colo n zr zr2 _ _ N0 Hzr Hzr2)|]. intros zw (Hzw & Szw).
  rewrite swrap_id in Hzw; [|exact N0|].
  2:{ apply (fits_in n _ N1), (fits_R n k _ K1 N3). fold s. rewrite plus_IZR. apply Rabs_le_iff in Br2, Br. apply Rabs_le. lra. }
  assert (F : fits n (t1 * (res + res2))).
  { apply (fits_R n k _ K1 N3). fold s. rewrite mult_IZR, plus_IZR.
    eapply Rle_trans; [exact (tw_bound s (IZR v) (IZR A) (IZR t) _ _ _ Hs HV RA Rt Er Rr2 Rt1 HV1)|]. lra. }
  eapply yb; [apply (mul_round prf colo Hprf n k zt1 zw _ _ N1 K0 KK Hzt1 Hzw Szt1); [congruence|exact F]|]. intros zt2 (Szt2 & t2 & Rt2 & Hzt2). clear F.
  apply (rounded_R k _ _ K0) in Rt2. fold s in Rt2. rewrite mult_IZR, plus_IZR in Rt2.
  eapply y_weaken; [apply (add_pp_ok colo n a zt2 _ _ N0 Ha Hzt2)|]. intros z (Hz & Sz).
  rewrite swrap_id in Hz; [|exact N0|].
  2:{ apply (fits_in n _ N1), (fits_R n k _ K1 N3). fold s. rewrite plus_IZR.
      pose proof (t2_bound s (IZR v) (IZR A) (IZR t) _ _ _ _ Hs HV RA Rt Er Rr2 Rt1 Rt2 HV1) as B1. pose proof (a_bound s (IZR v) (IZR A) Hs HV RA HV1) as B2.
      apply Rabs_le_iff in B1, B2. apply Rabs_le. lra. }
  split; [congruence|]. exists (A + t2). split; [exact Hz|]. unfold resid, target. rewrite plus_IZR. fold s. split.
  - exact (step_R s (IZR v) (IZR A) (IZR t) _ _ _ _ Hs RA Rt Er Rr2 Rt1 Rt2).
  - exact (step_keeps s (IZR v) (IZR A) (IZR t) _ _ _ _ Hs HV RA Rt Er Rr2 Rt1 Rt2).
Qed.

Lemma loop_ok c : forall one x a v A, arith n x v -> psc x = true -> arith n a A -> psc a = true -> public (FI n) one (2 ^ k) -> qsc one = true ->
  v <> 0 -> 64 * Z.abs v <= 2 ^ k * 2 ^ k -> (resid k v A <= 0.09)%R ->
  yields (recip_loop prf colo k c one x a) (fun z => psc z = true /\ exists A', arith n z A' /\ (resid k v A' <= 0.09)%R /\ (c = O /\ A' = A \/ resid k v A' <= target k v)%R).
Proof.
  induction c as [|c IH]; intros one x a v A Hx Sx Ha Sa Hone Sone Hv0 Hv HA; cbn [recip_loop].
  - apply y_ret. split; [exact Sa|]. exists A. auto.
  - eapply yb; [apply (step_ok one x a v A); assumption|]. intros a' (Sa' & A' & Ha' & B1 & B2).
    eapply y_weaken; [apply (IH one x a' v A'); assumption|]. intros z (Sz & A'' & Hz & B3 & B4).
    split; [exact Sz|]. exists A''. split; [exact Hz|]. split; [exact B3|]. right. destruct B4 as [[_ ->] | B4]; assumption.
Qed.

(** With a zero first approximation the iteration stays at zero. *)
Lemma zero_step_ok one x a v : arith n x v -> psc x = true -> arith n a 0 -> psc a = true -> public (FI n) one (2 ^ k) -> qsc one = true ->
  yields (recip_step prf colo k one x a) (fun z => psc z = true /\ arith n z 0).
Proof. clear Hk11.
  intros Hx Sx Ha Sa Hone Sone. destruct cfg_facts as (N1 & N0 & K0 & KK & K1 & N3 & _).
  pose proof (pow2_pos k K0) as Pk. assert (P2 : 2 ^ k * 2 ^ k < 2 ^ (n - 2)) by (rewrite <- Z.pow_add_r by lia; apply Z.pow_lt_mono_r; lia).
  assert (P1 : 2 * 2 ^ k < 2 ^ (n - 2)) by (rewrite <- Z.pow_succ_r by lia; apply Z.pow_lt_mono_r; lia).
  assert (F0 : fits n 0) by (unfold fits; lia). unfold recip_step.
  eapply yb; [apply (mul_exact prf colo Hprf n k x a v 0 0 N1 K0 KK Hx Ha Sx Sa); [rewrite Z.mul_0_r; exact F0|ring]|]. intros zt (Szt & Hzt).
  eapply yb; [apply (sub_qp_ok colo n one zt _ _ N0 Hzt Hone)|]. intros zr (Hzr & Szr).
  rewrite Z.sub_0_r, swrap_id in Hzr; [|exact N0|apply (fits_in n _ N1); unfold fits; lia]. rewrite Sone in Szr.
  eapply yb; [apply (mul_exact prf colo Hprf n k zr zr _ _ (2 ^ k) N1 K0 KK Hzr Hzr Szr Szr); [unfold fits; lia|ring]|]. intros zr2 (Szr2 & Hzr2).
  eapply yb; [apply (add_qp_ok colo n one zr2 _ _ N0 Hzr2 Hone); congruence|]. intros zu (Hzu & Szu).
  rewrite swrap_id in Hzu; [|exact N0|apply (fits_in n _ N1); unfold fits; clear - P1 Pk; lia].
  eapply yb; [apply (mul_exact prf colo Hprf n k a zu 0 _ 0 N1 K0 KK Ha Hzu Sa); [congruence|rewrite Z.mul_0_l; exact F0|ring]|]. intros zt1 (Szt1 & Hzt1).
  eapply yb; [apply (add_pp_ok colo n zr zr2 _ _ N0 Hzr Hzr2)|]. intros zw (Hzw & Szw).
  rewrite swrap_id in Hzw; [|exact N0|apply (fits_in n _ N1); unfold fits; clear - P1 Pk; lia].
  eapply yb; [apply (mul_exact prf colo Hprf n k zt1 zw 0 _ 0 N1 K0 KK Hzt1 Hzw Szt1); [congruence|rewrite Z.mul_0_l; exact F0|ring]|]. intros zt2 (Szt2 & Hzt2).
  eapply y_weaken; [apply (add_pp_ok colo n a zt2 _ _ N0 Ha Hzt2)|]. intros z (Hz & Sz).
  rewrite swrap_id in Hz; [|exact N0|apply (fits_in n _ N1); exact F0]. split; [congruence|exact Hz].
Qed.
Lemma zero_loop_ok c : forall one x a v, arith n x v -> psc x = true -> arith n a 0 -> psc a = true -> public (FI n) one (2 ^ k) -> qsc one = true ->
  yields (recip_loop prf colo k c one x a) (fun z => psc z = true /\ arith n z 0).
Proof. clear Hk11.
  induction c as [|c IH]; intros one x a v Hx Sx Ha Sa Hone Sone; cbn [recip_loop].
  - apply y_ret. auto.
  - eapply yb; [apply (zero_step_ok one x a v); assumption|]. intros a' (Sa' & Ha'). apply (IH one x a' v); assumption.
Qed.

(** The size of the constant and of the first factor. *)
Lemma const_R : (Rabs (IZR (recip_const k) - 2.9281928 * IZR (2 ^ k)) <= 1)%R.
Proof. clear Hk11.
  unfold recip_const. destruct cfg_facts as (_ & _ & K0 & _). pose proof (pow2_pos k K0) as Pk.
  pose proof (Z.div_mod (29281928 * 2 ^ k) 10000000 ltac:(lia)) as D. pose proof (Z.mod_pos_bound (29281928 * 2 ^ k) 10000000 ltac:(lia)) as B.
  set (c := 29281928 * 2 ^ k / 10000000) in *. set (p := 2 ^ k) in *. clearbody c p.
  assert (H : - 10000000 <= 10000000 * c - 29281928 * p <= 0) by lia. destruct H as [H1 H2]. apply IZR_le in H1, H2.
  rewrite minus_IZR, !mult_IZR in H1, H2. apply Rabs_le. lra.
Qed.
Lemma const_range : 0 <= recip_const k < 3 * 2 ^ k.
Proof. clear Hk11.
  unfold recip_const. destruct cfg_facts as (_ & _ & K0 & _). pose proof (pow2_pos k K0) as Pk. split; [apply Z.div_pos; lia|]. apply Z.div_lt_upper_bound; lia.
Qed.

Lemma first_ok x v nonsigned precision : arith n x v -> psc x = true -> ranged m nonsigned v -> Z.abs v < 2 ^ (m - 1) -> v <> 0 -> m + 5 <= 2 * k ->
  yields (fp_recip prf colo k m x nonsigned precision) (fun z => psc z = true /\ exists A', arith n z A' /\ (resid k v A' <= 0.09)%R /\ (precision <> O -> resid k v A' <= target k v)%R).
Proof.
  intros Hx Sx Hr Hv Hv0 Hmk. destruct cfg_facts as (N1 & N0 & K0 & KK & K1 & N3 & M1). pose proof (pow2_pos k K0) as Pk.
  assert (Fx : pfc x = FI n) by apply Hx. unfold fp_recip. rewrite Fx.
  assert (Hv64 : 64 * Z.abs v <= 2 ^ k * 2 ^ k).
  { rewrite <- Z.pow_add_r by (clear - K0; lia). assert (H : 2 ^ 6 * 2 ^ (m - 1) <= 2 ^ (k + k)) by (clear - M1 K0 Hmk; rewrite <- Z.pow_add_r by lia; apply Z.pow_le_mono_r; lia).
    change (2 ^ 6) with 64 in H. clear - H Hv. lia. }
  eapply yb; [apply (normalize_ok prf colo Hprf n k m x v nonsigned Hcfg Hx Sx Hr)|]. intros [sgf ex]. cbn [fst snd]. cbv zeta.
  assert (Hab : 0 < Z.abs v) by lia. rewrite swrap_below by lia. intros (Ssgf & Sex & (g & Rg & Hsgf) & Hex).
  pose proof (Z.log2_nonneg (Z.abs v)) as L0. pose proof (Z.log2_spec (Z.abs v) Hab) as [L1 L2].
  assert (Lm : Z.log2 (Z.abs v) < m - 1) by (apply Z.log2_lt_pow2; assumption).
  unfold expo in Rg, Hex. destruct (Z.ltb_spec 0 (Z.abs v)) as [_|?]; [|lia].
  set (j := Z.log2 (Z.abs v)) in *. set (E := 2 ^ (2 * k - 1 - j)) in *. assert (PE : 0 < E) by (apply pow2_pos; lia).
  set (w := Z.abs v) in *. set (p := 2 ^ k) in *.
  assert (HS : p * p <= 2 * (w * E) /\ w * E < p * p).
  { assert (E1 : p * p = 2 ^ Z.succ j * E) by (unfold p, E; rewrite <- !Z.pow_add_r by lia; f_equal; lia).
    rewrite Z.pow_succ_r in E1, L2 by exact L0. clear - E1 L1 L2 PE. nia. }
  assert (Hg : 0 <= g <= p).
  { destruct Rg as [Rg _]. fold p in Rg. assert (w * E / p < p) by (apply Z.div_lt_upper_bound; lia). assert (0 <= w * E / p) by (apply Z.div_pos; lia). lia. }
  assert (XE : 2 * E <= p * p).
  { assert (E1 : p * p = 2 ^ Z.succ j * E) by (unfold p, E; rewrite <- !Z.pow_add_r by lia; f_equal; lia).
    rewrite Z.pow_succ_r in E1 by exact L0. pose proof (pow2_pos j L0). clear - E1 PE H. nia. }
  assert (HEp : E < p * p) by (clear - XE PE; lia).
  assert (PN : 2 * (p * (p * p)) < 2 ^ (n - 2)).
  { unfold p. rewrite <- !Z.pow_add_r, <- Z.pow_succ_r by lia. apply Z.pow_lt_mono_r; lia. }
  assert (PN1 : 4 * p < 2 ^ (n - 2)). { clear - PN Pk HEp PE Hk11. assert (2 ^ 11 <= p) by (apply Z.pow_le_mono_r; lia). change (2 ^ 11) with 2048 in *. nia. }
  eapply yb; [apply (const_ok colo (FI n) p true N0)|]. intros one (Hone & Sone). cbn [fcast] in Hone. rewrite swrap_id in Hone; [|exact N0|apply (fits_in n _ N1); unfold fits; clear - PN1 Pk; lia].
  eapply yb; [apply (const_ok colo (FI n) 2 false N0)|]. intros two (Htwo & Stwo). cbn [fcast] in Htwo. rewrite swrap_id in Htwo; [|exact N0|apply (fits_in n _ N1); unfold fits; clear - PN1 Pk; lia].
  eapply yb; [apply (mul_pq_unscaled_ok prf colo n k sgf two _ _ N0 Hsgf Htwo); rewrite Stwo, Ssgf; reflexivity|]. intros t (Ht & St).
  rewrite swrap_id in Ht; [|exact N0|apply (fits_in n _ N1); unfold fits; clear - PN1 Pk Hg; lia].
  pose proof const_range as HC. fold p in HC.
  eapply yb; [apply (const_ok colo (FI n) (recip_const k) true N0)|]. intros c (Hc & Sc). cbn [fcast] in Hc. rewrite swrap_id in Hc; [|exact N0|apply (fits_in n _ N1); unfold fits; clear - PN1 Pk HC; lia].
  eapply yb; [apply (sub_qp_ok colo n c t _ _ N0 Ht Hc)|]. intros inv (Hinv & Sinv).
  rewrite swrap_id in Hinv; [|exact N0|apply (fits_in n _ N1); unfold fits; clear - PN1 Pk HC Hg; lia].
  set (sg := sign_of nonsigned v) in *.
  assert (Hsg : (sg = 1 \/ sg = -1) /\ v = sg * w).
  { unfold sg, w. clear - Hr Hv0. destruct nonsigned; cbn [sign_of]; cbn in Hr.
    - split; [auto|]. lia.
    - destruct (Z.ltb_spec v 0); [rewrite Z.sgn_neg by lia|rewrite Z.sgn_pos by lia]; split; auto; lia. }
  destruct Hsg as [Hsg Ev].
  assert (F : fits n ((recip_const k - g * 2) * (sg * E))).
  { unfold fits.
    assert (X : Z.abs (recip_const k - g * 2) <= 3 * p) by (clear - HC Hg; lia).
    set (y := recip_const k - g * 2) in *. set (N := 2 ^ (n - 2)) in *. clearbody y N E p w sg. clear - X XE PN Hsg PE Pk.
    assert (Z.abs (y * E) <= 3 * p * E). { rewrite Z.abs_mul, (Z.abs_eq E) by lia. nia. }
    assert (2 * (p * E) <= p * (p * p)) by nia. destruct Hsg as [-> | ->]; lia. }
  eapply yb; [apply (mul_round prf colo Hprf n k inv ex _ _ N1 K0 KK Hinv Hex); [congruence|exact Sex|exact F]|].
  intros a (Sa & A & RA & Ha).
  assert (HA : (resid k v A <= 0.09)%R).
  { unfold resid. fold p. pose proof scale_R as Hs. fold p in Hs. pose proof const_R as HCR. fold p in HCR.
    apply (rounded_R k _ _ K0) in RA, Rg. fold p in RA, Rg. rewrite !mult_IZR, minus_IZR, mult_IZR in RA. rewrite mult_IZR in Rg.
    destruct HS as [HS1 HS2]. apply IZR_le in HS1. apply IZR_lt in HS2. rewrite mult_IZR, (mult_IZR 2), (mult_IZR w) in HS1. rewrite !mult_IZR in HS2. apply IZR_le in Hv64. rewrite !mult_IZR in Hv64.
    assert (Wv : IZR w = Rabs (IZR v)) by (unfold w; apply abs_IZR).
    assert (Ev' : IZR v = (IZR sg * IZR w)%R) by (rewrite <- mult_IZR; f_equal; exact Ev).
    set (s := IZR p) in *. rewrite Wv in HS1, HS2, Rg, Ev', Hv64.
    apply (first_R s (IZR v) (IZR E) (Rabs (IZR v) * IZR E / s) (IZR g) (IZR (recip_const k)) (IZR (recip_const k) - IZR g * 2) (IZR A) (IZR sg)); try assumption.
    - lra.
    - assert (s0 : (0 < s)%R) by lra. split; apply Rmult_le_reg_r with s; try exact s0; replace (Rabs (IZR v) * IZR E / s * s)%R with (Rabs (IZR v) * IZR E)%R by (field; lra); lra.
    - destruct Hsg as [-> | ->]; cbn; lra.
    - field. lra.
    - lra. }
  eapply y_weaken; [apply (loop_ok precision one x a v A); assumption|]. intros z (Sz & A' & Hz & B1 & B2).
  split; [exact Sz|]. exists A'. split; [exact Hz|]. split; [exact B1|]. intros Hp. destruct B2 as [[B2 _] | B2]; [contradiction|exact B2].
Qed.

Lemma top_half_ok x v nonsigned precision : arith n x v -> psc x = true -> ranged m nonsigned v -> 2 ^ (m - 1) <= Z.abs v \/ v = 0 ->
  yields (fp_recip prf colo k m x nonsigned precision) (fun z => psc z = true /\ arith n z 0).
Proof. clear Hk11.
  intros Hx Sx Hr Hv. destruct cfg_facts as (N1 & N0 & K0 & KK & K1 & N3 & M1). pose proof (pow2_pos k K0) as Pk. pose proof (pow2_pos m ltac:(lia)) as Pm.
  assert (Fx : pfc x = FI n) by apply Hx. unfold fp_recip. rewrite Fx.
  eapply yb; [apply (normalize_ok prf colo Hprf n k m x v nonsigned Hcfg Hx Sx Hr)|]. intros [sgf ex]. cbn [fst snd]. cbv zeta.
  assert (E0 : expo k (swrap m (Z.abs v)) = 0).
  { destruct Hv as [Hv| ->].
    - apply expo_above; [exact M1|]. destruct nonsigned; cbn in Hr; lia.
    - change (Z.abs 0) with 0. rewrite swrap_below; [reflexivity|exact M1|]. split; [lia|apply pow2_pos; lia]. }
  rewrite E0, !Z.mul_0_r. intros (Ssgf & Sex & (g & Rg & Hsgf) & Hex).
  destruct Rg as [_ Rg]. rewrite Z.mod_0_l, Z.div_0_l in Rg by lia. rewrite (Rg eq_refl) in Hsgf. clear Rg.
  pose proof const_range as HC. set (p := 2 ^ k) in *.
  assert (PN1 : 4 * p < 2 ^ (n - 2)) by (unfold p; change 4 with (2 ^ 2); rewrite <- Z.pow_add_r by lia; apply Z.pow_lt_mono_r; lia).
  assert (F0 : fits n 0) by (unfold fits; lia).
  eapply yb; [apply (const_ok colo (FI n) p true N0)|]. intros one (Hone & Sone). cbn [fcast] in Hone. rewrite swrap_id in Hone; [|exact N0|apply (fits_in n _ N1); unfold fits; clear - PN1 Pk; lia].
  eapply yb; [apply (const_ok colo (FI n) 2 false N0)|]. intros two (Htwo & Stwo). cbn [fcast] in Htwo. rewrite swrap_id in Htwo; [|exact N0|apply (fits_in n _ N1); unfold fits; clear - PN1 Pk; lia].
  eapply yb; [apply (mul_pq_unscaled_ok prf colo n k sgf two _ _ N0 Hsgf Htwo); rewrite Stwo, Ssgf; reflexivity|]. intros t (Ht & St).
  rewrite swrap_id in Ht; [|exact N0|apply (fits_in n _ N1); exact F0].
  eapply yb; [apply (const_ok colo (FI n) (recip_const k) true N0)|]. intros c (Hc & Sc). cbn [fcast] in Hc. rewrite swrap_id in Hc; [|exact N0|apply (fits_in n _ N1); unfold fits; clear - PN1 Pk HC; lia].
  eapply yb; [apply (sub_qp_ok colo n c t _ _ N0 Ht Hc)|]. intros inv (Hinv & Sinv).
  rewrite swrap_id in Hinv; [|exact N0|apply (fits_in n _ N1); unfold fits; clear - PN1 Pk HC; lia].
  eapply yb; [apply (mul_exact prf colo Hprf n k inv ex _ 0 0 N1 K0 KK Hinv Hex); [congruence|exact Sex|rewrite Z.mul_0_r; exact F0|ring]|].
  intros a (Sa & Ha). apply (zero_loop_ok precision one x a v); assumption.
Qed.
End Ops.
