(** The error of ABY3's logarithms. *)
From Coq Require Import Reals Lra Psatz.
From Verif Require Import Base TensorModel TensorProofs Aby3Model Aby3Spec Aby3Proofs Aby3Bits Aby3Circ Aby3Cmp Aby3Trunc Aby3Net FpModel FpSpec FpProofs FpRecip FpLogModel FpLogReal FpLogSpec FpLogProofs.
Open Scope Z_scope.

(** * Real numbers *)
Open Scope R_scope.
Lemma abs2 x y : Rabs x <= y <-> - y <= x <= y.
Proof. split; [intros H; pose proof (Rle_abs x); pose proof (Rle_abs (- x)); rewrite Rabs_Ropp in *; lra|intros [A B]; apply Rabs_le; lra]. Qed.
Lemma prod_err A B a b ea eb mb : Rabs (A - a) <= ea -> Rabs (B - b) <= eb -> Rabs B <= mb -> Rabs (A * B - a * b) <= ea * mb + Rabs a * eb.
Proof.
  intros HA HB HM. replace (A * B - a * b) with ((A - a) * B + a * (B - b)) by ring. eapply Rle_trans; [apply Rabs_triang|]. rewrite !Rabs_mult.
  pose proof (Rabs_pos (A - a)). pose proof (Rabs_pos B). pose proof (Rabs_pos a). pose proof (Rabs_pos (B - b)).
  apply Rplus_le_compat; [apply Rmult_le_compat; lra|apply Rmult_le_compat_l; lra].
Qed.
Lemma poly_R u al phi F C2 C1 C0 T1 T3 : 0 < u <= / 2048 -> 0 < al <= 1 -> 1 <= phi <= 2 -> Rabs (F - phi) <= u ->
  Rabs (C2 - -0.4326728 * al) <= u -> Rabs (C1 - 2.276597 * al) <= u -> Rabs (C0 - -1.843924 * al) <= u ->
  Rabs (T1 - F * C2) <= u -> Rabs (T3 - (T1 + C1) * F) <= u -> Rabs (T3 + C0 - al * poly phi) <= 13 * u.
Proof.
  intros Hu Hal Hphi HF H2 H1 H0 HT1 HT3.
  assert (BF : Rabs F <= 2.001) by (apply abs2; apply abs2 in HF; lra).
  pose proof (prod_err C2 F (-0.4326728 * al) phi u u 2.001 H2 HF BF) as P1. rewrite (Rabs_left1 (-0.4326728 * al)) in P1 by lra.
  rewrite (Rmult_comm C2) in P1.
  assert (E1 : Rabs (T1 + C1 - (-0.4326728 * al * phi + 2.276597 * al)) <= 4.45 * u).
  { apply abs2 in P1, HT1, H1. apply abs2. assert (0.4326728 * al * u <= 0.4326728 * u) by nra. lra. }
  pose proof (prod_err (T1 + C1) F (-0.4326728 * al * phi + 2.276597 * al) phi (4.45 * u) u 2.001 E1 HF BF) as P2.
  rewrite (Rabs_right (-0.4326728 * al * phi + 2.276597 * al)) in P2 by nra.
  assert (B : (-0.4326728 * al * phi + 2.276597 * al) * u <= 1.85 * u) by (apply Rmult_le_compat_r; nra).
  apply abs2 in P2, HT3, H0. apply abs2. unfold poly. lra.
Qed.
Lemma poly_near al phi : 0 < al <= 1 -> 1 <= phi <= 2 -> Rabs (al * poly phi - al * (ln phi / ln 2)) <= 0.022 * al.
Proof.
  intros Hal Hphi. pose proof ln2_bounds as [L _]. pose proof (poly_upper phi Hphi) as U. pose proof (poly_lower phi Hphi) as W.
  assert (E : ln phi = ln phi / ln 2 * ln 2) by (field; lra). rewrite E in U, W.
  set (y := ln phi / ln 2) in *. set (l := ln 2) in *. set (p := poly phi) in *. clearbody y l p. clear E.
  assert (A : p - y <= 0.022) by nra. assert (B : -0.022 <= p - y) by nra. apply abs2. split; nra.
Qed.
Open Scope Z_scope.

Lemma ln_pow2 i : 0 <= i -> ln (IZR (2 ^ i)) = (IZR i * ln 2)%R.
Proof.
  intros Hi. rewrite <- (Z2Nat.id i Hi). induction (Z.to_nat i) as [|c IH]; [cbn; rewrite ln_1; ring|].
  rewrite Nat2Z.inj_succ, Z.pow_succ_r by lia. rewrite mult_IZR, ln_mult; [|lra|apply IZR_lt, pow2_pos; lia]. rewrite IH, succ_IZR. ring.
Qed.

(** * The program *)

Lemma real_mul k a b r : 0 <= k -> rounded k (a * b) r -> (Rabs (real_of k r - real_of k a * real_of k b) <= ulp k)%R.
Proof.
  intros Hk H. pose proof (rounded_R k _ r Hk H) as R1. rewrite mult_IZR in R1. unfold real_of, ulp.
  assert (P : (0 < IZR (2 ^ k))%R) by (apply IZR_lt, pow2_pos, Hk). set (s := IZR (2 ^ k)) in *.
  replace (IZR r / s - IZR a / s * (IZR b / s))%R with ((IZR r - IZR a * IZR b / s) * / s)%R by (field; lra).
  rewrite Rabs_mult, (Rabs_right (/ s)) by (left; apply Rinv_0_lt_compat, P).
  rewrite <- (Rmult_1_l (/ s)) at 2. apply Rmult_le_compat_r; [left; apply Rinv_0_lt_compat, P|exact R1].
Qed.
Lemma real_enc k c r : 0 <= k -> encodes k c r -> (Rabs (real_of k c - r) <= ulp k)%R.
Proof.
  intros Hk H. unfold encodes, real_of, ulp in *. assert (P : (0 < IZR (2 ^ k))%R) by (apply IZR_lt, pow2_pos, Hk). set (s := IZR (2 ^ k)) in *.
  replace (IZR c / s - r)%R with ((IZR c - r * s) * / s)%R by (field; lra).
  rewrite Rabs_mult, (Rabs_right (/ s)) by (left; apply Rinv_0_lt_compat, P).
  rewrite <- (Rmult_1_l (/ s)) at 2. apply Rmult_le_compat_r; [left; apply Rinv_0_lt_compat, P|exact H].
Qed.
Lemma real_add k a b : 0 <= k -> real_of k (a + b) = (real_of k a + real_of k b)%R.
Proof. intros Hk. unfold real_of. rewrite plus_IZR. field. apply not_0_IZR. pose proof (pow2_pos k Hk). lia. Qed.
(** A product of values below [2^(k/2)] or so fits in a word. *)
Lemma fits_real n k a b B : 0 < k -> 3 * k + 1 < n - 2 -> (Rabs (real_of k a) * Rabs (real_of k b) <= B)%R -> (B <= 1.5 * IZR (2 ^ k))%R -> fits n (a * b).
Proof.
  intros Hk Hn H HB. apply (fits_R n k); [exact Hk|exact Hn|]. assert (P : (0 < IZR (2 ^ k))%R) by (apply IZR_lt, pow2_pos; lia).
  rewrite mult_IZR, Rabs_mult. unfold real_of, Rdiv in H. rewrite !Rabs_mult in H. rewrite (Rabs_right (/ IZR (2 ^ k))) in H by (left; apply Rinv_0_lt_compat, P).
  set (s := IZR (2 ^ k)) in *. set (x := Rabs (IZR a)) in *. set (y := Rabs (IZR b)) in *.
  assert (E : (x * y = x * / s * (y * / s) * (s * s))%R) by (field; lra). rewrite E.
  replace (1.5 * (s * s * s))%R with ((1.5 * s) * (s * s))%R by ring. apply Rmult_le_compat_r; [nra|lra].
Qed.
Lemma small_real n k a B : 0 < k -> 3 * k + 1 < n - 2 -> (Rabs (real_of k a) <= B)%R -> (B <= 1.5 * IZR (2 ^ k))%R -> in_s n a.
Proof.
  intros Hk Hn H HB. apply fits_in; [lia|]. apply (fits_R n k); [exact Hk|exact Hn|]. assert (P : (1 <= IZR (2 ^ k))%R) by (apply IZR_le; pose proof (pow2_pos k); lia).
  unfold real_of, Rdiv in H. rewrite !Rabs_mult in H. rewrite (Rabs_right (/ IZR (2 ^ k))) in H by (left; apply Rinv_0_lt_compat; lra).
  set (s := IZR (2 ^ k)) in *. set (x := Rabs (IZR a)) in *. pose proof (Rabs_pos (IZR a)) as X0. fold x in X0.
  assert (E : (x = x * / s * s)%R) by (field; lra). rewrite E.
  replace (1.5 * (s * s * s))%R with ((1.5 * s * s) * s)%R by ring. apply Rmult_le_compat_r; [lra|]. nra.
Qed.

Section Ops.
Context (prf : fac -> key -> Z -> nat -> Z) (colo : bool) (Hprf : prf_words prf).
Context (n k m : Z) (Hcfg : fp_config n k m) (Hk11 : 11 <= k).

Lemma log_facts : 1 < n /\ 0 < n /\ 0 <= k /\ k + k <= n - 2 /\ 0 < k /\ 3 * k + 1 < n - 2 /\ 0 < m < n /\ m < 2 * k /\ 4 <= n /\ adder_size n.
Proof. clear prf colo Hprf Hk11. destruct Hcfg as (Ha & Hk & Hm & Hn). split; [lia|]. split; [lia|]. split; [lia|]. split; [lia|]. split; [lia|]. split; [lia|]. split; [lia|]. split; [lia|]. split; [lia|exact Ha]. Qed.
Lemma ulp_bounds : (0 < ulp k <= / 2048)%R.
Proof.
  pose proof (scale_R k Hk11) as H. unfold ulp. split; [apply Rinv_0_lt_compat; lra|]. apply Rinv_le_contravar; lra.
Qed.

Lemma konst c B : (Rabs (real_of k c) <= B)%R -> (B <= 1.5 * IZR (2 ^ k))%R -> yields (const colo (FI n) c true) (fun w => public (FI n) w c /\ qsc w = true).
Proof.
  clear Hk11. intros Hc HB. destruct log_facts as (N1 & N0 & K0 & KK & K1 & N3 & _).
  eapply y_weaken; [apply (const_ok colo (FI n) c true N0)|]. intros w (Hw & Sw). split; [|exact Sw]. cbn [fcast] in Hw.
  rewrite swrap_id in Hw; [exact Hw|exact N0|]. exact (small_real n k c B K1 N3 Hc HB).
Qed.
Lemma addc x y u v B : arith n x u -> psc x = true -> public (FI n) y v -> qsc y = true -> (Rabs (real_of k u + real_of k v) <= B)%R -> (B <= 1.5 * IZR (2 ^ k))%R ->
  yields (add_pq colo x y) (fun z => arith n z (u + v) /\ psc z = true).
Proof.
  clear Hk11. intros Hx Sx Hy Sy H HB. destruct log_facts as (N1 & N0 & K0 & KK & K1 & N3 & _).
  eapply y_weaken; [apply (add_pq_ok colo n x y u v N0 Hx Hy); congruence|]. intros z (Hz & Sz). split; [|congruence].
  rewrite swrap_id in Hz; [exact Hz|exact N0|]. rewrite <- real_add in H by exact K0. exact (small_real n k _ B K1 N3 H HB).
Qed.

Lemma poly_ok al phi c f F : (0 < al <= 1)%R -> (1 <= phi <= 2)%R -> arith n f F -> psc f = true -> (Rabs (real_of k F - phi) <= ulp k)%R ->
  encodes k (co2 c) (-0.4326728 * al) -> encodes k (co1 c) (2.276597 * al) -> encodes k (co0 c) (-1.843924 * al) ->
  yields (log_poly prf colo k c f) (fun z => psc z = true /\ exists P, arith n z P /\ (Rabs (real_of k P - al * poly phi) <= 13 * ulp k)%R).
Proof.
  intros Hal Hphi Hf Sf HF H2 H1 H0. destruct log_facts as (N1 & N0 & K0 & KK & K1 & N3 & _). pose proof ulp_bounds as Hu. pose proof (scale_R k Hk11) as Hs.
  apply (real_enc k _ _ K0) in H2, H1, H0. unfold log_poly. assert (Ff : pfc f = FI n) by apply Hf. rewrite Ff.
  assert (B2 : (Rabs (real_of k (co2 c)) <= 1)%R) by (apply abs2; apply abs2 in H2; lra).
  assert (B1 : (Rabs (real_of k (co1 c)) <= 3)%R) by (apply abs2; apply abs2 in H1; lra).
  assert (B0 : (Rabs (real_of k (co0 c)) <= 2)%R) by (apply abs2; apply abs2 in H0; lra).
  assert (BF : (Rabs (real_of k F) <= 2.001)%R) by (apply abs2; apply abs2 in HF; lra).
  eapply yb; [apply (konst (co2 c) 1 B2); lra|]. intros w2 (Hw2 & Sw2).
  eapply yb. { apply (mul_pq_round prf colo Hprf n k f w2 F (co2 c) N1 K0 KK Hf Hw2 Sf Sw2). apply (fits_real n k _ _ (2.001 * 1) K1 N3); [apply Rmult_le_compat; auto using Rabs_pos|lra]. }
  intros t (St & T1 & R1 & Ht). apply (real_mul k _ _ _ K0) in R1.
  eapply yb; [apply (konst (co1 c) 3 B1); lra|]. intros w1 (Hw1 & Sw1).
  pose proof (prod_err (real_of k F) (real_of k (co2 c)) 0 0 2.001 1 1) as PE. rewrite !Rminus_0_r, Rabs_R0, !Rmult_0_l in PE. specialize (PE BF B2 B2).
  assert (BT1 : (Rabs (real_of k T1) <= 2.1)%R) by (apply abs2; apply abs2 in R1, PE; lra).
  assert (BT2 : (Rabs (real_of k T1 + real_of k (co1 c)) <= 5.1)%R) by (apply abs2; apply abs2 in BT1, B1; lra).
  eapply yb; [apply (addc t w1 T1 (co1 c) 5.1 Ht St Hw1 Sw1 BT2); lra|]. intros t2 (Ht2 & St2).
  eapply yb. { apply (mul_round prf colo Hprf n k t2 f _ F N1 K0 KK Ht2 Hf St2 Sf). apply (fits_real n k _ _ (5.1 * 2.001) K1 N3); [rewrite real_add by exact K0; apply Rmult_le_compat; auto using Rabs_pos|lra]. }
  intros t3 (St3 & T3 & R3 & Ht3). apply (real_mul k _ _ _ K0) in R3. rewrite real_add in R3 by exact K0.
  eapply yb; [apply (konst (co0 c) 2 B0); lra|]. intros w0 (Hw0 & Sw0).
  pose proof (poly_R (ulp k) al phi (real_of k F) (real_of k (co2 c)) (real_of k (co1 c)) (real_of k (co0 c)) (real_of k T1) (real_of k T3) Hu Hal Hphi HF H2 H1 H0 R1 R3) as PR.
  assert (BP : (Rabs (al * poly phi) <= 4)%R).
  { apply abs2. assert (-0.01 <= poly phi <= 2)%R by (unfold poly; nra). nra. }
  eapply y_weaken; [apply (addc t3 w0 T3 (co0 c) 5 Ht3 St3 Hw0 Sw0); [apply abs2; apply abs2 in PR, BP; lra|lra]|].
  intros z (Hz & Sz). split; [exact Sz|]. exists (T3 + co0 c). split; [exact Hz|]. rewrite real_add by exact K0. exact PR.
Qed.

Lemma poly_zero c f al : arith n f 0 -> psc f = true -> (0 < al <= 1)%R ->
  encodes k (co2 c) (-0.4326728 * al) -> encodes k (co1 c) (2.276597 * al) -> encodes k (co0 c) (-1.843924 * al) ->
  yields (log_poly prf colo k c f) (fun z => psc z = true /\ arith n z (co0 c)).
Proof.
  intros Hf Sf Hal H2 H1 H0. destruct log_facts as (N1 & N0 & K0 & KK & K1 & N3 & _). pose proof ulp_bounds as Hu. pose proof (scale_R k Hk11) as Hs.
  apply (real_enc k _ _ K0) in H2, H1, H0. unfold log_poly. assert (Ff : pfc f = FI n) by apply Hf. rewrite Ff.
  assert (B2 : (Rabs (real_of k (co2 c)) <= 1)%R) by (apply abs2; apply abs2 in H2; lra).
  assert (B1 : (Rabs (real_of k (co1 c)) <= 3)%R) by (apply abs2; apply abs2 in H1; lra).
  assert (B0 : (Rabs (real_of k (co0 c)) <= 2)%R) by (apply abs2; apply abs2 in H0; lra).
  assert (RZ : real_of k 0 = 0%R) by (unfold real_of; field; apply not_0_IZR; pose proof (pow2_pos k K0); lia).
  assert (F0 : fits n 0) by (apply (fits_real n k 0 0 0 K1 N3); [rewrite RZ, Rabs_R0|]; lra).
  assert (RD : forall r, rounded k 0 r -> r = 0) by (intros r (_ & Hr); pose proof (pow2_pos k K0); rewrite Z.mod_0_l, Z.div_0_l in Hr by lia; auto).
  eapply yb; [apply (konst (co2 c) 1 B2); lra|]. intros w2 (Hw2 & Sw2).
  eapply yb; [apply (mul_pq_round prf colo Hprf n k f w2 0 (co2 c) N1 K0 KK Hf Hw2 Sf Sw2); exact F0|]. intros t (St & T1 & R1 & Ht). rewrite (RD T1 R1) in Ht.
  eapply yb; [apply (konst (co1 c) 3 B1); lra|]. intros w1 (Hw1 & Sw1).
  eapply yb; [apply (addc t w1 0 (co1 c) 3 Ht St Hw1 Sw1); rewrite ?RZ, ?Rplus_0_l; lra|]. intros t2 (Ht2 & St2).
  eapply yb; [apply (mul_round prf colo Hprf n k t2 f _ 0 N1 K0 KK Ht2 Hf St2 Sf); rewrite Z.mul_0_r; exact F0|]. intros t3 (St3 & T3 & R3 & Ht3).
  rewrite Z.mul_0_r in R3. rewrite (RD T3 R3) in Ht3.
  eapply yb; [apply (konst (co0 c) 2 B0); lra|]. intros w0 (Hw0 & Sw0).
  eapply y_weaken; [apply (addc t3 w0 0 (co0 c) 2 Ht3 St3 Hw0 Sw0); rewrite ?RZ, ?Rplus_0_l; lra|]. intros z (Hz & Sz). auto.
Qed.

Lemma exponent_ok z w : boolean (FI n) z (top w) -> w < 2 ^ (2 * k) ->
  yields (log_exponent prf colo k z) (fun e => arith n e (lexpo k w) /\ psc e = true).
Proof.
  clear Hk11. intros Hz Hw. destruct log_facts as (N1 & N0 & K0 & KK & K1 & N3 & _). unfold log_exponent. assert (Fz : pfc z = FI n) by apply Hz. rewrite Fz. cbn [fbits].
  eapply yb; [apply (bit_reverse_ok colo n z _ N0 Hz)|]. intros r (Hr & Sr).
  eapply yb; [apply (rshift_bool_ok colo n r _ (n - 2 * k - 1) N0 ltac:(lia) Hr)|]. intros r1 (Hr1 & Sr1).
  eapply yb; [apply (b2a_bits_ok prf colo Hprf n (2 * k) r1 _ N1 ltac:(lia) Hr1)|]. intros e (He & Se).
  rewrite (lexpo_ok n k w K1 ltac:(lia) Hw) in He. apply y_ret. split; [exact He|reflexivity].
Qed.

Lemma integer_ok z w al adj : boolean (FI n) z (top w) -> w < 2 ^ (m - 1) -> (0 < al <= 1)%R -> match adj with None => al = 1%R | Some a => encodes k a al end ->
  let J := if 0 <? w then Z.log2 w else 0 in
  yields (log_integer prf colo k adj z) (fun l => psc l = true /\ exists L, arith n l L /\ (Rabs (real_of k L - IZR (J - k) * al) <= (Rabs (IZR (J - k)) + 1) * ulp k)%R).
Proof.
  intros Hz Hw Hal Hadj J. destruct log_facts as (N1 & N0 & K0 & KK & K1 & N3 & M0 & MK & N4 & Ha). pose proof ulp_bounds as Hu. pose proof (scale_R k Hk11) as Hs.
  assert (HJ : 0 <= J < m).
  { unfold J. destruct (Z.ltb_spec 0 w); [|lia]. split; [apply Z.log2_nonneg|]. assert (Z.log2 w < m - 1) by (apply Z.log2_lt_pow2; assumption). lia. }
  assert (Hwn : w < 2 ^ n) by (eapply Z.lt_trans; [exact Hw|apply Z.pow_lt_mono_r; lia]).
  assert (Hlb : 0 < log_bits n < n /\ n <= 2 ^ log_bits n) by (clear - Ha; destruct Ha as [-> | ->]; vm_compute; repeat split; congruence).
  unfold log_integer. assert (Fz : pfc z = FI n) by apply Hz. rewrite Fz. cbn [fbits].
  eapply yb; [apply (xor_indices_ok colo n z _ N4 Hz)|]. intros i (Hi & Si). rewrite (xor_bits_top n w N0 Hwn) in Hi. fold J in Hi.
  eapply yb; [apply (b2a_bits_ok prf colo Hprf n (log_bits n) i _ N1 ltac:(lia) Hi)|]. intros l (Hl & Sl). rewrite Z.mod_small in Hl by lia.
  eapply yb; [apply (lshift_arith_ok colo n l J k N0 K0 Hl)|]. intros l1 (Hl1 & Sl1).
  assert (RS : forall a, real_of k (a * 2 ^ k) = IZR a). { intros a. unfold real_of. rewrite mult_IZR. field. apply not_0_IZR. pose proof (pow2_pos k K0). lia. }
  assert (Ks : (IZR (2 * k) <= IZR (2 ^ k))%R).
  { apply IZR_le. clear - Hk11. assert (H : forall c : nat, 2 * (Z.of_nat c + 11) <= 2 ^ (Z.of_nat c + 11)).
    { induction c as [|c IH]; [discriminate|]. rewrite Nat2Z.inj_succ. replace (Z.succ (Z.of_nat c) + 11) with (Z.succ (Z.of_nat c + 11)) by lia. rewrite Z.pow_succ_r by lia. lia. }
    specialize (H (Z.to_nat (k - 11))). rewrite Z2Nat.id in H by lia. replace (k - 11 + 11) with k in H by lia. exact H. }
  rewrite mult_IZR in Ks. assert (KR : (11 <= IZR k)%R) by (apply IZR_le; exact Hk11).
  assert (JR : (0 <= IZR J <= 2 * IZR k)%R) by (split; [apply IZR_le; lia|rewrite <- mult_IZR; apply IZR_le; lia]).
  assert (I1 : in_s n (J * 2 ^ k)) by (apply (small_real n k _ (2 * IZR k) K1 N3); [rewrite RS, Rabs_right; lra|lra]).
  assert (DR : (Rabs (IZR (J - k)) <= IZR k)%R) by (rewrite minus_IZR; apply abs2; lra).
  rewrite swrap_id in Hl1 by (exact N0 || exact I1).
  eapply yb; [apply (konst (k * 2 ^ k) (IZR k)); [rewrite RS, Rabs_right; lra|lra]|]. intros c (Hc & Sc).
  eapply yb; [apply (sub_pq_ok colo n (rescale l1) c _ _ N0 Hl1 Hc Sc)|]. intros d (Hd & Sd).
  replace (J * 2 ^ k - k * 2 ^ k) with ((J - k) * 2 ^ k) in Hd by ring.
  rewrite swrap_id in Hd; [|exact N0|apply (small_real n k _ (IZR k) K1 N3); [rewrite RS; exact DR|lra]].
  destruct adj as [a|].
  - apply (real_enc k _ _ K0) in Hadj. assert (BA : (Rabs (real_of k a) <= 1.1)%R) by (apply abs2; apply abs2 in Hadj; lra).
    eapply yb; [apply (konst a 1.1 BA); lra|]. intros wa (Hwa & Swa).
    eapply y_weaken. { apply (mul_pq_round prf colo Hprf n k d wa _ a N1 K0 KK Hd Hwa Sd Swa). apply (fits_real n k _ _ (IZR k * 1.1) K1 N3); [rewrite RS; apply Rmult_le_compat; auto using Rabs_pos|lra]. }
    intros t (St & L & RL & Ht). split; [exact St|]. exists L. split; [exact Ht|]. apply (real_mul k _ _ _ K0) in RL. rewrite RS in RL.
    pose proof (prod_err (IZR (J - k)) (real_of k a) (IZR (J - k)) al 0 (ulp k) 1.1) as PE. rewrite Rminus_eq_0, Rabs_R0 in PE. specialize (PE ltac:(lra) Hadj BA).
    apply abs2 in PE, RL. apply abs2. lra.
  - apply y_ret. split; [exact Sd|]. eexists. split; [exact Hd|]. rewrite RS, Hadj, Rmult_1_r, Rminus_eq_0, Rabs_R0. apply Rmult_le_pos; [|lra]. pose proof (Rabs_pos (IZR (J - k))). lra.
Qed.

Lemma log_ok c x v b : arith n x v -> psc x = true -> 1 < v < 2 ^ (m - 1) -> (2 <= b)%R -> coeffs_for k b c ->
  yields (fp_log prf colo k m c x) (fun z => exists r, arith n z r /\
    (Rabs (real_of k r - log_to b (real_of k v)) <= 0.022 * (ln 2 / ln b) + (IZR k + 13) * ulp k)%R).
Proof.
  intros Hx Sx Hv Hb (H2 & H1 & H0 & Hadj). destruct log_facts as (N1 & N0 & K0 & KK & K1 & N3 & M0 & MK & N4 & Ha). pose proof ulp_bounds as Hu. pose proof (scale_R k Hk11) as Hs.
  pose proof ln2_bounds as [L2 _]. assert (Lb : (ln 2 <= ln b)%R) by (destruct (Req_dec b 2) as [->|?]; [lra|left; apply ln_increasing; lra]).
  set (al := (ln 2 / ln b)%R) in *.
  assert (Hal : (0 < al <= 1)%R). { unfold al. split; [apply Rdiv_lt_0_compat; lra|]. apply div_le; lra. }
  assert (Hadj' : match coadj c with None => al = 1%R | Some a => encodes k a al end).
  { destruct (coadj c); [exact Hadj|]. unfold al. rewrite Hadj. field. lra. }
  unfold fp_log. rewrite Sx. apply y_assert; [reflexivity|]. apply y_assert; [apply Z.ltb_lt, MK|].
  eapply yb; [apply (top_bit_ok prf colo Hprf n m x v Ha M0 Hx)|]. intros z (Hz & Sz). rewrite swrap_below in Hz by lia.
  assert (Hw2k : v < 2 ^ (2 * k)) by (eapply Z.lt_trans; [apply Hv|apply Z.pow_lt_mono_r; lia]).
  eapply yb; [apply (exponent_ok z v Hz Hw2k)|]. intros e (He & Se).
  eapply yb; [apply (integer_ok z v al (coadj c) Hz (proj2 Hv) Hal Hadj')|]. intros l (Sl & L & Hl & BL).
  destruct (Z.ltb_spec 0 v) as [_|?] in BL; [|lia]. unfold lexpo in He. destruct (Z.ltb_spec 1 v) as [_|?] in He; [|lia].
  pose proof (Z.log2_spec v ltac:(lia)) as [V1 V2]. set (j := Z.log2 v) in *.
  assert (J1 : 0 < j) by (apply Z.log2_pos; lia). assert (Jm : j < m - 1) by (apply Z.log2_lt_pow2; lia).
  set (E := 2 ^ (2 * k - j)) in *. assert (PE : 0 < E) by (apply pow2_pos; lia).
  assert (PP : 2 ^ j * E = 2 ^ k * 2 ^ k) by (unfold E; rewrite <- !Z.pow_add_r by lia; f_equal; lia).
  rewrite Z.pow_succ_r in V2 by lia. set (s := IZR (2 ^ k)) in *.
  set (phi := (real_of k v * real_of k E)%R).
  assert (Ephi : (phi * IZR (2 ^ j) = IZR v)%R).
  { unfold phi, real_of. fold s. apply (f_equal IZR) in PP. rewrite !mult_IZR in PP. fold s in PP. assert (s <> 0%R) by lra.
    replace (IZR v / s * (IZR E / s) * IZR (2 ^ j))%R with (IZR v * (IZR (2 ^ j) * IZR E) / (s * s))%R by (field; assumption). rewrite PP. field. assumption. }
  assert (Pj : (0 < IZR (2 ^ j))%R) by (apply IZR_lt, pow2_pos; lia).
  assert (Hphi : (1 <= phi <= 2)%R).
  { apply IZR_le in V1. apply IZR_lt in V2. rewrite mult_IZR in V2. rewrite <- Ephi in V1, V2. set (q := IZR (2 ^ j)) in *. clearbody q. clear - V1 V2 Pj. nra. }
  assert (FE : fits n (v * E)).
  { apply (fits_real n k v E 2 K1 N3); [|fold s; lra]. rewrite <- Rabs_mult. fold phi. rewrite Rabs_right; lra. }
  eapply yb; [apply (mul_round prf colo Hprf n k x e v E N1 K0 KK Hx He Sx Se FE)|]. intros f (Sf & F & RF & Hf).
  apply (real_mul k _ _ _ K0) in RF. fold phi in RF.
  eapply yb; [apply (poly_ok al phi c f F Hal Hphi Hf Sf RF H2 H1 H0)|]. intros p (Sp & P & Hp & BP).
  assert (KR : (11 <= IZR k)%R) by (apply IZR_le; exact Hk11).
  assert (DR : (Rabs (IZR (j - k)) <= IZR k - 1)%R) by (rewrite <- minus_IZR; apply abs2; rewrite <- opp_IZR; split; apply IZR_le; lia).
  pose proof (poly_near al phi Hal Hphi) as PN.
  assert (EL : log_to b (real_of k v) = (IZR (j - k) * al + al * (ln phi / ln 2))%R).
  { unfold log_to, real_of. fold s. rewrite <- Ephi.
    unfold Rdiv. rewrite ln_mult; [|apply Rmult_lt_0_compat; lra|apply Rinv_0_lt_compat; lra]. rewrite ln_mult by lra. rewrite ln_Rinv by lra.
    unfold s. rewrite !ln_pow2 by lia. rewrite minus_IZR. unfold al. field. lra. }
  assert (Ks : (IZR k <= s)%R).
  { apply IZR_le. clear - K0. apply Z.lt_le_incl, Z.pow_gt_lin_r; lia. }
  assert (Bpn : (Rabs (ln phi / ln 2) <= 2)%R).
  { clear - PN Hal BP Hphi L2. assert (A : (0 <= ln phi <= ln 2)%R). { rewrite <- ln_1. split; [destruct (Req_dec phi 1) as [->|?]; [lra|left; apply ln_increasing; lra]|destruct (Req_dec phi 2) as [->|?]; [lra|left; apply ln_increasing; lra]]. }
    rewrite Rabs_right; [apply div_le; lra|]. apply Rle_ge, Rmult_le_pos; [lra|left; apply Rinv_0_lt_compat; lra]. }
  assert (BA : (Rabs (real_of k P + real_of k L) <= IZR k + 4)%R).
  { assert (X : (Rabs (IZR (j - k) * al) <= IZR k - 1)%R) by (rewrite Rabs_mult, (Rabs_right al) by lra; pose proof (Rabs_pos (IZR (j - k))); nra).
    assert (Y : (Rabs (al * (ln phi / ln 2)) <= 2)%R) by (rewrite Rabs_mult, (Rabs_right al) by lra; pose proof (Rabs_pos (ln phi / ln 2)); nra).
    assert (W : ((Rabs (IZR (j - k)) + 1) * ulp k <= 1)%R).
    { unfold ulp. fold s. apply Rle_trans with (s * / s)%R; [|right; field; lra]. apply Rmult_le_compat_r; [left; apply Rinv_0_lt_compat; lra|lra]. }
    apply abs2 in X, Y, BL, BP, PN. apply abs2. lra. }
  eapply y_weaken; [apply (add_pp_ok colo n p l P L N0 Hp Hl)|]. intros r (Hr & Sr).
  exists (P + L). split.
  - rewrite swrap_id in Hr; [exact Hr|exact N0|]. rewrite <- real_add in BA by exact K0. apply (small_real n k _ _ K1 N3 BA). fold s. lra.
  - rewrite real_add by exact K0. rewrite EL.
    assert (W : ((Rabs (IZR (j - k)) + 1) * ulp k <= IZR k * ulp k)%R) by (apply Rmult_le_compat_r; lra).
    apply abs2 in BL, BP, PN. apply abs2. lra.
Qed.

Lemma log_lost c x v b w : arith n x v -> psc x = true -> swrap m v = w -> w <= 1 -> (2 <= b)%R -> coeffs_for k b c ->
  yields (fp_log prf colo k m c x) (fun z => exists r, arith n z r /\
    (Rabs (real_of k r - (- IZR k - 1.843924) * (ln 2 / ln b)) <= (IZR k + 2) * ulp k)%R).
Proof.
  intros Hx Sx Hwv Hw Hb (H2 & H1 & H0 & Hadj). destruct log_facts as (N1 & N0 & K0 & KK & K1 & N3 & M0 & MK & N4 & Ha). pose proof ulp_bounds as Hu. pose proof (scale_R k Hk11) as Hs.
  pose proof ln2_bounds as [L2 _]. assert (Lb : (ln 2 <= ln b)%R) by (destruct (Req_dec b 2) as [->|?]; [lra|left; apply ln_increasing; lra]).
  set (al := (ln 2 / ln b)%R) in *.
  assert (Hal : (0 < al <= 1)%R). { unfold al. split; [apply Rdiv_lt_0_compat; lra|]. apply div_le; lra. }
  assert (Hadj' : match coadj c with None => al = 1%R | Some a => encodes k a al end).
  { destruct (coadj c); [exact Hadj|]. unfold al. rewrite Hadj. field. lra. }
  unfold fp_log. rewrite Sx. apply y_assert; [reflexivity|]. apply y_assert; [apply Z.ltb_lt, MK|].
  eapply yb; [apply (top_bit_ok prf colo Hprf n m x v Ha M0 Hx)|]. intros z (Hz & Sz). rewrite Hwv in Hz.
  pose proof (pow2_pos (2 * k) ltac:(lia)) as P2. assert (P1 : 1 < 2 ^ (m - 1)) by (apply Z.pow_gt_1; destruct Hcfg as (_ & X & _); lia).
  assert (P3 : 2 ^ 1 <= 2 ^ (2 * k)) by (apply Z.pow_le_mono_r; lia). change (2 ^ 1) with 2 in P3.
  eapply yb; [apply (exponent_ok z w Hz); lia|]. intros e (He & Se).
  eapply yb; [apply (integer_ok z w al (coadj c) Hz ltac:(lia) Hal Hadj')|]. intros l (Sl & L & Hl & BL).
  unfold lexpo in He. destruct (Z.ltb_spec 1 w) as [?|_] in He; [lia|].
  assert (EJ : (if 0 <? w then Z.log2 w else 0) = 0). { destruct (Z.ltb_spec 0 w); [|reflexivity]. replace w with 1 by lia. reflexivity. }
  rewrite EJ in BL. rewrite Z.sub_0_l, opp_IZR in BL.
  assert (KR : (11 <= IZR k)%R) by (apply IZR_le; exact Hk11). rewrite Rabs_Ropp, (Rabs_right (IZR k)) in BL by lra.
  assert (RZ : real_of k 0 = 0%R) by (unfold real_of; field; lra).
  assert (F0 : fits n (v * 0)) by (apply (fits_real n k v 0 0 K1 N3); [rewrite RZ, Rabs_R0|]; lra).
  eapply yb; [apply (mul_round prf colo Hprf n k x e v 0 N1 K0 KK Hx He Sx Se F0)|]. intros f (Sf & F & RF & Hf).
  assert (F = 0) as ->. { destruct RF as [_ RF]. pose proof (pow2_pos k K0). rewrite Z.mul_0_r, Z.mod_0_l, Z.div_0_l in RF by lia. auto. }
  eapply yb; [apply (poly_zero c f al Hf Sf Hal H2 H1 H0)|]. intros p (Sp & Hp).
  apply (real_enc k _ _ K0) in H0.
  assert (Ks : (IZR k <= IZR (2 ^ k))%R).
  { apply IZR_le. clear - K0. apply Z.lt_le_incl, Z.pow_gt_lin_r; lia. }
  assert (W : ((IZR k + 1) * ulp k <= 2)%R).
  { unfold ulp. apply Rle_trans with (2 * IZR (2 ^ k) * / IZR (2 ^ k))%R; [|right; field; lra]. apply Rmult_le_compat_r; [left; apply Rinv_0_lt_compat; lra|lra]. }
  eapply y_weaken; [apply (add_pp_ok colo n p l (co0 c) L N0 Hp Hl)|]. intros r (Hr & Sr).
  assert (BA : (Rabs (real_of k (co0 c) + real_of k L - (- IZR k - 1.843924) * al) <= (IZR k + 2) * ulp k)%R) by (apply abs2 in BL, H0; apply abs2; lra).
  exists (co0 c + L). split.
  - rewrite swrap_id in Hr; [exact Hr|exact N0|]. apply (small_real n k _ (IZR k + 5) K1 N3); [|lra]. rewrite real_add by exact K0.
    apply abs2 in BA. apply abs2. assert (0 <= IZR k * al <= IZR k)%R by nra. lra.
  - rewrite real_add by exact K0. exact BA.
Qed.
End Ops.
