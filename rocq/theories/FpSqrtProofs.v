(** Proofs about ABY3's inverse square root. *)
From Coq Require Import Reals Lra Psatz.
From Verif Require Import Base TensorModel TensorProofs Aby3Model Aby3Spec Aby3Proofs Aby3Bits Aby3Circ Aby3Cmp Aby3Trunc Aby3Net FpModel FpSpec FpProofs FpRecip FpLogModel FpLogReal FpLogSpec FpLogProofs FpLogMain FpSqrtModel FpSqrtSpec FpSqrtReal.
Open Scope Z_scope.

(** * Powers of two *)
Lemma rev_pow2 n i : 0 < i < n -> rev_bits n (2 ^ i) = 2 ^ (n - 1 - i).
Proof.
  intros Hi. apply Z.bits_inj'. intros t Ht. rewrite rev_bits_spec by lia. rewrite !Z.pow2_bits_eqb by lia.
  destruct (Z.eqb_spec (n - 1 - i) t), (Z.eqb_spec i (n - 1 - Z.min t (n - 1))); reflexivity || lia.
Qed.
Lemma gather_pow2 n p : 0 <= p < n -> n mod 2 = 0 -> gather2 n 0 (Z.lor (2 ^ p) (Z.shiftr (2 ^ p) 1)) = 2 ^ (p / 2).
Proof.
  intros Hp Hn. apply Z.bits_inj'. intros j Hj. rewrite gather2_bits by lia. rewrite Z.lor_spec, Z.shiftr_spec by lia.
  pose proof (Z.div_mod p 2 ltac:(lia)) as D. pose proof (Z.mod_pos_bound p 2 ltac:(lia)) as B. pose proof (Z.div_mod n 2 ltac:(lia)) as E.
  rewrite !Z.pow2_bits_eqb by lia.
  destruct (Z.eqb_spec (p / 2) j), (Z.ltb_spec j (n / 2)), (Z.eqb_spec p (0 + 2 * j)), (Z.eqb_spec p (0 + 2 * j + 1)); cbn [andb orb]; reflexivity || lia.
Qed.
Lemma odd_bit a : Z.testbit a 0 = Z.odd a.
Proof. apply Z.bit0_odd. Qed.

Lemma real_sub k a b : 0 <= k -> real_of k (a - b) = (real_of k a - real_of k b)%R.
Proof. intros Hk. unfold real_of. rewrite minus_IZR. field. apply not_0_IZR. pose proof (pow2_pos k Hk). lia. Qed.
(** A truncation by [j] bits. *)
Lemma real_trunc k j X r : 0 <= k -> 0 <= j -> rounded j X r -> (Rabs (real_of k r - real_of k X / IZR (2 ^ j)) <= ulp k)%R.
Proof.
  intros Hk Hj H. pose proof (rounded_R j _ r Hj H) as R1. unfold real_of, ulp.
  assert (P : (0 < IZR (2 ^ k))%R) by (apply IZR_lt, pow2_pos, Hk). assert (Q : (0 < IZR (2 ^ j))%R) by (apply IZR_lt, pow2_pos, Hj).
  set (s := IZR (2 ^ k)) in *. set (q := IZR (2 ^ j)) in *.
  replace (IZR r / s - IZR X / s / q)%R with ((IZR r - IZR X / q) * / s)%R by (field; lra).
  rewrite Rabs_mult, (Rabs_right (/ s)) by (left; apply Rinv_0_lt_compat, P).
  rewrite <- (Rmult_1_l (/ s)) at 2. apply Rmult_le_compat_r; [left; apply Rinv_0_lt_compat, P|exact R1].
Qed.

Section Ops.
Context (prf : fac -> key -> Z -> nat -> Z) (colo : bool) (Hprf : prf_words prf).

(** The lowest bit of a boolean sharing. *)
Lemma extract0_ok n x u : 1 < n -> boolean (FI n) x u ->
  yields (bit_extract prf colo x 0) (fun z => boolean FB z (Z.b2z (Z.odd u)) /\ psc z = false).
Proof.
  intros Hn Hx. assert (N0 : 0 < n) by lia. unfold bit_extract. assert (Fx : pfc x = FI n) by apply Hx. assert (Ax : is_arith x = false) by (unfold is_arith; destruct Hx as (_ & -> & _); reflexivity).
  rewrite Fx, Ax. eapply yb; [apply (const_ok colo (FI n) 1 false N0)|]. intros mask (Hm & _).
  assert (I1 : in_s n 1). { unfold in_s. assert (2 ^ 1 <= 2 ^ (n - 1)) by (apply Z.pow_le_mono_r; lia). change (2 ^ 1) with 2 in *. lia. }
  cbn [fcast] in Hm. rewrite swrap_id in Hm by assumption.
  eapply yb; [apply (rshift_bool_ok colo n x u 0 N0 ltac:(lia) Hx)|]. intros z (Hz & _). rewrite Z.shiftr_0_r in Hz.
  eapply yb; [apply (and_one_ok colo n z mask u N0 Hz Hm)|]. intros z1 (Hz1 & _ & B1).
  eapply yb; [apply (cast_FB_ok colo n z1 _ N0 Hz1 B1)|]. intros z2 (Hz2 & _).
  apply y_ret. split; [|reflexivity]. rewrite <- odd_bit. exact Hz2.
Qed.
Lemma gather_ok n x u : 1 < n -> boolean (FI n) x u ->
  yields (bit_gather2 colo x) (fun z => boolean (FI n) z (gather2 n 0 u) /\ psc z = psc x).
Proof.
  intros Hn Hx. unfold bit_gather2. apply y_assert. { unfold is_arith. destruct Hx as (_ & -> & _). reflexivity. }
  assert (Fx : pfc x = FI n) by apply Hx. rewrite Fx. cbn [fbits].
  apply (sharewise_bool_ok colo (gather2 n 0) (FI n) (FI n) x u Hx).
  - intros a _. cbn [word]. apply Aby3Cmp.gather2_word; lia.
  - intros a b _ _. apply gather2_lxor. lia.
  - cbn [fok]. lia.
Qed.

(** The bit above the top bit. *)
Lemma above_top_ok n x w : adder_size n -> arith n x w -> 0 < w < 2 ^ (n - 2) ->
  yields (above_top prf colo x) (fun z => boolean (FI n) z (2 ^ (Z.log2 w + 1)) /\ psc z = psc x).
Proof.
  intros Ha Hx Hw. assert (N : 8 <= n) by (destruct Ha; lia). assert (N0 : 0 < n) by lia. unfold above_top. assert (Fx : pfc x = FI n) by apply Hx. rewrite Fx. cbn [fbits].
  assert (E1 : 2 ^ (n - 1) = 2 * 2 ^ (n - 2)) by (rewrite (pow2_half (n - 1)) by lia; do 2 f_equal; lia).
  assert (HJ : Z.log2 w < n - 2) by (apply Z.log2_lt_pow2; lia). pose proof (Z.log2_nonneg w) as J0.
  eapply yb; [apply (a2b_ok prf colo Hprf n x w (Some n) n Ha Hx eq_refl ltac:(lia))|]. intros b (Sb & Hb). rewrite Z.ltb_irrefl in Hb.
  eapply yb; [apply (or_loop_ok prf colo Hprf n N0 (log2c n) 1 b w ltac:(lia) Hb)|]. intros y (Hy & Sy).
  eapply yb; [apply (rshift_bool_ok colo n y _ 1 N0 ltac:(lia) Hy)|]. intros y1 (Hy1 & Sy1).
  eapply yb; [apply (xor_pp_ok colo (FI n) y y1 _ _ N0 Hy Hy1)|]. intros z (Hz & Sz).
  pose proof (top_ok n w N0 ltac:(unfold in_s; lia)) as T. cbv zeta in T. rewrite T in Hz. unfold top in Hz. destruct (Z.ltb_spec 0 w); [|lia].
  eapply y_weaken; [apply (lshift_bool_ok colo n z _ 1 N0 Hz)|]. intros r (Hr & Sr). split; [|congruence].
  rewrite Z.shiftl_mul_pow2, <- Z.pow_add_r in Hr by lia. rewrite swrap_id in Hr; [exact Hr|exact N0|].
  unfold in_s. pose proof (pow2_pos (Z.log2 w + 1) ltac:(lia)). assert (2 ^ (Z.log2 w + 1) <= 2 ^ (n - 2)) by (apply Z.pow_le_mono_r; lia). pose proof (pow2_pos (n - 2) ltac:(lia)). lia.
Qed.

Context (n k : Z) (Hcfg : sqrt_config n k).
Lemma sq_facts : 1 < n /\ 0 < n /\ 0 <= k /\ k + k <= n - 2 /\ 0 < k /\ 3 * k + 1 < n - 2 /\ 16 <= k /\ 11 <= k /\ 0 < n / 2 - k <= k /\ adder_size n /\ n mod 2 = 0 /\ fp_config n k (k + 1) /\ (0 < ulp k <= / 65536)%R.
Proof.
  clear prf colo Hprf. destruct Hcfg as (Ha & H4 & H3). assert (K : 16 <= k) by lia.
  assert (S : (65536 <= IZR (2 ^ k))%R). { change 65536%R with (IZR (2 ^ 16)). apply IZR_le, Z.pow_le_mono_r; lia. }
  assert (Hd : 0 < n / 2 - k <= k) by (destruct Ha as [-> | ->]; [change (64 / 2) with 32|change (128 / 2) with 64]; lia).
  repeat match goal with |- _ /\ _ => split; [first [lia | exact Ha | exact Hd | idtac]|] end.
  - unfold fp_config. repeat split; try lia. 
  - apply Rinv_0_lt_compat; lra.
  - apply Rinv_le_contravar; lra.
Qed.

(** The polynomial. *)
Lemma sqrt_poly_ok c b N w : (0.4999 <= w <= 0.7073)%R -> (real_of k N = w * w)%R -> arith n b N -> psc b = true -> sqcoeffs_for n k c ->
  yields (sqrt_poly prf colo k c b) (fun z => psc z = true /\ exists Y, arith n z Y /\ (Rabs (real_of k Y * w - 1) <= 0.0076)%R).
Proof.
  intros Hw EN Hb Sb (H2 & H1 & H0 & _). destruct sq_facts as (N1 & N0 & K0 & KK & K1 & N3 & K16 & K11 & Hs & Ha & Ev & Fc & Hu). pose proof (scale_R k K11) as Hsc.
  apply (real_enc k _ _ K0) in H2, H1, H0. unfold sqrt_poly. assert (Fb : pfc b = FI n) by apply Hb. rewrite Fb.
  assert (B2 : (Rabs (real_of k (sq2 c)) <= 5)%R) by (apply abs2; apply abs2 in H2; lra).
  assert (B1 : (Rabs (real_of k (sq1 c)) <= 6)%R) by (apply abs2; apply abs2 in H1; lra).
  assert (B0 : (Rabs (real_of k (sq0 c)) <= 4)%R) by (apply abs2; apply abs2 in H0; lra).
  assert (BN : (Rabs (real_of k N) <= 1)%R) by (rewrite EN; apply abs2; nra).
  eapply yb; [apply (konst colo n k _ Fc (sq2 c) 5 B2); lra|]. intros w2 (Hw2 & Sw2).
  eapply yb. { apply (mul_pq_round prf colo Hprf n k b w2 N (sq2 c) N1 K0 KK Hb Hw2 Sb Sw2). apply (fits_real n k _ _ (1 * 5) K1 N3); [apply Rmult_le_compat; auto using Rabs_pos|lra]. }
  intros t (St & T1 & R1 & Ht). apply (real_mul k _ _ _ K0) in R1.
  eapply yb; [apply (konst colo n k _ Fc (sq1 c) 6 B1); lra|]. intros w1 (Hw1 & Sw1).
  assert (BT1 : (Rabs (real_of k T1) <= 5.1)%R).
  { assert (P : (Rabs (real_of k N * real_of k (sq2 c)) <= 1 * 5)%R) by (rewrite Rabs_mult; apply Rmult_le_compat; auto using Rabs_pos). apply abs2; apply abs2 in R1, P; lra. }
  assert (BT2 : (Rabs (real_of k (T1 - sq1 c)) <= 11.1)%R) by (rewrite real_sub by exact K0; apply abs2; apply abs2 in BT1, B1; lra).
  eapply yb; [apply (sub_pq_ok colo n t w1 T1 (sq1 c) N0 Ht Hw1 ltac:(congruence))|]. intros t2 (Ht2 & St2).
  rewrite swrap_id in Ht2; [|exact N0|exact (small_real n k _ 11.1 K1 N3 BT2 ltac:(lra))]. 
  eapply yb. { apply (mul_round prf colo Hprf n k t2 b _ N N1 K0 KK Ht2 Hb ltac:(congruence) Sb). apply (fits_real n k _ _ (11.1 * 1) K1 N3); [apply Rmult_le_compat; auto using Rabs_pos|lra]. }
  intros t3 (St3 & T3 & R3 & Ht3). apply (real_mul k _ _ _ K0) in R3. rewrite real_sub in R3 by exact K0.
  eapply yb; [apply (konst colo n k _ Fc (sq0 c) 4 B0); lra|]. intros w0 (Hw0 & Sw0). rewrite EN in R1, R3.
  pose proof (seed_err (ulp k) w _ _ _ _ _ Hu Hw H2 H1 H0 R1 R3) as SE.
  assert (BT3 : (Rabs (real_of k T3 + real_of k (sq0 c)) <= 3)%R).
  { apply abs2 in SE. apply abs2. split; apply Rnot_lt_le; intros X; nra. }
  eapply y_weaken; [apply (addc colo n k _ Fc t3 w0 T3 (sq0 c) 3 Ht3 St3 Hw0 Sw0 BT3); lra|].
  intros z (Hz & Sz). split; [exact Sz|]. exists (T3 + sq0 c). split; [exact Hz|]. rewrite real_add by exact K0. exact SE.
Qed.

(** One Newton step. *)
Lemma sqrt_step_ok b y N Y w : (0.4999 <= w <= 0.7073)%R -> (real_of k N = w * w)%R -> arith n b N -> psc b = true -> arith n y Y -> psc y = true ->
  (Rabs (real_of k Y * w - 1) <= 0.0076)%R ->
  yields (sqrt_step prf colo k b y) (fun z => psc z = true /\ exists Y', arith n z Y' /\ (Rabs (real_of k Y' * w - 1) <= 0.0001 + 3.5 * ulp k)%R).
Proof.
  intros Hw EN Hb Sb Hy Sy HY. destruct sq_facts as (N1 & N0 & K0 & KK & K1 & N3 & K16 & K11 & Hs & Ha & Ev & Fc & Hu). pose proof (scale_R k K11) as Hsc.
  unfold sqrt_step. assert (Fb : pfc b = FI n) by apply Hb. rewrite Fb.
  assert (BY : (Rabs (real_of k Y) <= 2.02)%R). { apply abs2 in HY. apply abs2. split; apply Rnot_lt_le; intros X; nra. }
  assert (BN : (Rabs (real_of k N) <= 0.51)%R) by (rewrite EN; apply abs2; nra).
  eapply yb. { apply (mul_round prf colo Hprf n k b y N Y N1 K0 KK Hb Hy Sb Sy). apply (fits_real n k _ _ (0.51 * 2.02) K1 N3); [apply Rmult_le_compat; auto using Rabs_pos|lra]. }
  intros t1 (S1 & A1 & R1 & H1). apply (real_mul k _ _ _ K0) in R1.
  assert (B1 : (Rabs (real_of k A1) <= 1.04)%R).
  { assert (P : (Rabs (real_of k N * real_of k Y) <= 0.51 * 2.02)%R) by (rewrite Rabs_mult; apply Rmult_le_compat; auto using Rabs_pos). apply abs2; apply abs2 in R1, P; lra. }
  eapply yb. { apply (mul_round prf colo Hprf n k t1 y A1 Y N1 K0 KK H1 Hy S1 Sy). apply (fits_real n k _ _ (1.04 * 2.02) K1 N3); [apply Rmult_le_compat; auto using Rabs_pos|lra]. }
  intros t2 (S2 & A2 & R2 & H2). apply (real_mul k _ _ _ K0) in R2.
  assert (B2 : (Rabs (real_of k A2) <= 2.2)%R).
  { assert (P : (Rabs (real_of k A1 * real_of k Y) <= 1.04 * 2.02)%R) by (rewrite Rabs_mult; apply Rmult_le_compat; auto using Rabs_pos). apply abs2; apply abs2 in R2, P; lra. }
  assert (R3 : real_of k (3 * 2 ^ k) = 3%R). { unfold real_of. rewrite mult_IZR. field. lra. }
  eapply yb; [apply (konst colo n k _ Fc (3 * 2 ^ k) 3); rewrite ?R3, ?Rabs_right; lra|]. intros three (H3 & S3).
  eapply yb; [apply (sub_qp_ok colo n three t2 _ _ N0 H2 H3)|]. intros t3 (Ht3 & St3).
  assert (B3 : (Rabs (real_of k (3 * 2 ^ k - A2)) <= 5.2)%R) by (rewrite real_sub, R3 by exact K0; apply abs2; apply abs2 in B2; lra).
  rewrite swrap_id in Ht3; [|exact N0|exact (small_real n k _ 5.2 K1 N3 B3 ltac:(lra))].
  assert (BD : (Rabs (real_of k Y * real_of k (3 * 2 ^ k - A2)) <= 2.02 * 5.2)%R) by (rewrite Rabs_mult; apply Rmult_le_compat; auto using Rabs_pos).
  eapply yb. { apply (mul_round prf colo Hprf n k y t3 Y _ N1 K0 KK Hy Ht3 Sy ltac:(congruence)). apply (fits_real n k _ _ (2.02 * 5.2) K1 N3); [rewrite <- Rabs_mult; exact BD|lra]. }
  intros t4 (S4 & D & R4 & H4). apply (real_mul k _ _ _ K0) in R4.
  assert (BD' : (Rabs (real_of k D) <= 11)%R) by (apply abs2; apply abs2 in BD, R4; lra).
  rewrite real_sub, R3 in R4 by exact K0.
  assert (FD : fits n D).
  { rewrite <- (Z.mul_1_r D). apply (fits_real n k D 1 11 K1 N3); [|lra]. replace 11%R with (11 * 1)%R by ring. apply Rmult_le_compat; auto using Rabs_pos.
    unfold real_of. rewrite Rabs_right; [|apply Rle_ge, Rmult_le_pos; [lra|left; apply Rinv_0_lt_compat; lra]]. unfold Rdiv. rewrite Rmult_1_l. unfold ulp in Hu. lra. }
  eapply y_weaken; [apply (trunc_round prf colo Hprf n k 1 t4 D N1 K0 ltac:(lia) ltac:(lia) H4 S4 FD)|].
  intros z (Sz & Y' & RY & Hz). split; [exact Sz|]. exists Y'. split; [exact Hz|]. apply (real_trunc k 1 _ _ K0 ltac:(lia)) in RY. change (IZR (2 ^ 1)) with 2%R in RY.
  rewrite EN in R1. exact (newton_R (ulp k) w _ _ _ _ _ Hu Hw HY R1 R2 R4 RY).
Qed.
Definition seed_error (r : nat) : R := match r with O => 0.0076 | S _ => (0.0001 + 3.5 * ulp k)%R end.
Lemma sqrt_loop_ok b N w : (0.4999 <= w <= 0.7073)%R -> (real_of k N = w * w)%R -> arith n b N -> psc b = true -> forall r y Y, arith n y Y -> psc y = true ->
  (Rabs (real_of k Y * w - 1) <= 0.0076)%R ->
  yields (sqrt_loop prf colo k r b y) (fun z => psc z = true /\ exists Y', arith n z Y' /\ (Rabs (real_of k Y' * w - 1) <= seed_error r)%R).
Proof.
  intros Hw EN Hb Sb. destruct sq_facts as (_ & _ & _ & _ & _ & _ & _ & _ & _ & _ & _ & _ & Hu). induction r as [|r IH]; intros y Y Hy Sy HY; cbn [sqrt_loop].
  - apply y_ret. eauto.
  - eapply yb; [apply (sqrt_step_ok b y N Y w Hw EN Hb Sb Hy Sy HY)|]. intros y' (Sy' & Y' & Hy' & HY').
    destruct r as [|r]; [cbn [sqrt_loop]; apply y_ret; eauto|]. apply (IH y' Y' Hy' Sy'). lra.
Qed.
End Ops.
