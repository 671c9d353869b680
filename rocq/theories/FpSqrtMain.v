(** The error of ABY3's inverse square root. *)
From Coq Require Import Reals Lra Psatz.
From Verif Require Import Base TensorModel TensorProofs Aby3Model Aby3Spec Aby3Proofs Aby3Bits Aby3Circ Aby3Cmp Aby3Trunc Aby3Net FpModel FpSpec FpProofs FpRecip FpLogModel FpLogReal FpLogSpec FpLogProofs FpLogMain FpSqrtModel FpSqrtSpec FpSqrtReal FpSqrtProofs.
Open Scope Z_scope.

Lemma sqrt2_bounds : (1.414 <= sqrt 2 <= 1.4143)%R.
Proof.
  assert (E : (sqrt 2 * sqrt 2 = 2)%R) by (apply sqrt_sqrt; lra). pose proof (sqrt_lt_R0 2 ltac:(lra)) as P. split; apply Rnot_lt_le; intros X; nra.
Qed.
Lemma log2_shift v s : 0 < v -> 0 <= s -> Z.log2 (v * 2 ^ s) = Z.log2 v + s.
Proof. intros Hv Hs. rewrite Z.log2_mul_pow2 by assumption. apply Z.add_comm. Qed.

(** The powers of two of the exponent. *)
Lemma halves n k p h : n = 2 * h -> h <= 2 * k -> 0 <= k -> 0 <= p <= n - 2 - (h - k) -> k < h ->
  0 <= p / 2 < h /\ 0 <= (2 * k - h) / 2 /\ p / 2 + (2 * k - h) / 2 <= k + k.
Proof.
  intros En Hh Hk Hp Hkh. pose proof (Z.div_mod p 2 ltac:(lia)) as D1. pose proof (Z.mod_pos_bound p 2 ltac:(lia)) as M1.
  pose proof (Z.div_mod (2 * k - h) 2 ltac:(lia)) as D2. pose proof (Z.mod_pos_bound (2 * k - h) 2 ltac:(lia)) as M2.
  set (a := p / 2) in *. set (b := (2 * k - h) / 2) in *. clearbody a b. lia.
Qed.
Lemma pow2_lt_R k p : 0 <= k -> 0 <= p -> (0 < real_of k (2 ^ p))%R.
Proof. intros Hk Hp. unfold real_of. apply Rdiv_lt_0_compat; apply IZR_lt, pow2_pos; assumption. Qed.

Section Ops.
Context (prf : fac -> key -> Z -> nat -> Z) (colo : bool) (Hprf : prf_words prf).
Context (n k : Z) (Hcfg : sqrt_config n k).
Let s := n / 2 - k.
Let esk := IZR (2 ^ ((2 * k - n / 2) / 2)).
(** What the exponent should be, for the power [p]. *)
Definition root (p : Z) : R := (real_of k (2 ^ (p / 2)) * (if Z.even p then esk else esk * sqrt 2))%R.

Lemma esk_bounds : (1 <= esk <= IZR (2 ^ k))%R /\ (esk * esk * IZR (2 ^ (n / 2)) = IZR (2 ^ k) * IZR (2 ^ k))%R.
Proof.
  clear prf colo Hprf. destruct (sq_facts n k Hcfg) as (N1 & N0 & K0 & KK & K1 & N3 & K16 & K11 & Hs & Ha & Ev & Fc & Hu).
  assert (E : exists h, n / 2 = 2 * h /\ 0 <= h) by (destruct Ha as [-> | ->]; [exists 16|exists 32]; split; reflexivity || lia). destruct E as (h & Eh & H0).
  unfold esk. rewrite Eh in *. replace ((2 * k - 2 * h) / 2) with (k - h) by (replace (2 * k - 2 * h) with ((k - h) * 2) by ring; rewrite Z.div_mul; lia).
  split; [split; apply IZR_le|].
  - pose proof (pow2_pos (k - h) ltac:(lia)). lia.
  - apply Z.pow_le_mono_r; lia.
  - rewrite <- !mult_IZR, <- !Z.pow_add_r by lia. do 2 f_equal. lia.
Qed.

Lemma root_sq p v : 0 <= p -> (root p * root p * real_of k v = real_of k (v * 2 ^ p) / IZR (2 ^ (n / 2)))%R.
Proof.
  clear prf colo Hprf. intros Hp. destruct (sq_facts n k Hcfg) as (N1 & N0 & K0 & KK & K1 & N3 & K16 & K11 & Hs & Ha & Ev & Fc & Hu). destruct esk_bounds as (_ & E).
  assert (P : (0 < IZR (2 ^ k))%R) by (apply IZR_lt, pow2_pos; lia). assert (Q : (0 < IZR (2 ^ (n / 2)))%R) by (apply IZR_lt, pow2_pos; lia).
  assert (S2 : (sqrt 2 * sqrt 2 = 2)%R) by (apply sqrt_sqrt; lra).
  assert (EP : (IZR (2 ^ p) = IZR (2 ^ (p / 2)) * IZR (2 ^ (p / 2)) * (if Z.even p then 1 else sqrt 2 * sqrt 2))%R).
  { rewrite S2. pose proof (Z.div_mod p 2 ltac:(lia)) as D. rewrite Zmod_even in D. destruct (Z.even p).
    - rewrite Rmult_1_r, <- mult_IZR, <- Z.pow_add_r by lia. do 2 f_equal. lia.
    - change 2%R with (IZR (2 ^ 1)) at 1. rewrite <- !mult_IZR, <- !Z.pow_add_r by lia. do 2 f_equal. lia. }
  unfold root, real_of. rewrite mult_IZR, EP. set (q := IZR (2 ^ (p / 2))) in *. set (S := IZR (2 ^ k)) in *. set (H := IZR (2 ^ (n / 2))) in *. clearbody q S H esk. clear EP.
  assert (EH : (/ H = esk * esk / (S * S))%R) by (apply (Rmult_eq_reg_r H); [|lra]; rewrite Rinv_l by lra; replace (esk * esk / (S * S) * H)%R with (esk * esk * H / (S * S))%R by (field; lra); rewrite E; field; lra).
  match goal with |- _ = (?a / H)%R => change (a / H)%R with (a * / H)%R end. rewrite EH. destruct (Z.even p); field; lra.
Qed.

Lemma sqrt_exponent_ok c z rz p : 0 <= p <= n - 2 - s -> boolean (FI n) z (2 ^ (n - 1 - p)) -> boolean (FI n) rz (2 ^ p) -> psc rz = true -> sqcoeffs_for n k c ->
  yields (sqrt_exponent prf colo k s c z rz) (fun e => psc e = true /\ exists E, arith n e E /\ (Rabs (real_of k E - root p) <= ulp k + 2 * ulp k * root p)%R).
Proof.
  intros Hp Hz Hrz Srz (_ & _ & _ & Hd & Hy). destruct (sq_facts n k Hcfg) as (N1 & N0 & K0 & KK & K1 & N3 & K16 & K11 & Hs & Ha & Ev & Fc & Hu). pose proof (scale_R k K11) as Hsc.
  fold s in Hs. destruct esk_bounds as ((E1 & E2) & _). fold esk in Hd, Hy. apply (real_enc k _ _ K0) in Hd, Hy. pose proof sqrt2_bounds as Q2.
  unfold sqrt_exponent. assert (Fz : pfc z = FI n) by apply Hz. rewrite Fz.
  assert (X2 : xor_bits n (2 ^ (n - 1 - p)) = n - 1 - p).
  { unfold xor_bits. rewrite positions_pow2 by lia. cbn [Nat.add]. rewrite Z2Nat.id by lia. destruct (Z.leb_spec (Z.of_nat 0) (n - 1 - p)); [|lia].
    destruct (Z.ltb_spec (n - 1 - p) n); [|lia]. cbn [andb fold_right]. apply Z.lxor_0_r. }
  eapply yb; [apply (xor_indices_ok colo n z _ ltac:(destruct Ha; lia) Hz)|]. intros i (Hi & _). rewrite X2 in Hi.
  eapply yb; [apply (extract0_ok prf colo n i _ N1 Hi)|]. intros lsb (Hl & _).
  assert (Par : Z.odd (n - 1 - p) = Z.even p).
  { replace (n - 1 - p) with (2 * (n / 2 - 1 - p) + (p + 1)) by (pose proof (Z.div_mod n 2 ltac:(lia)); lia). rewrite Z.odd_add_mul_2 || rewrite Z.odd_add, Z.odd_mul. cbn [Z.odd andb xorb]. rewrite Z.odd_add. rewrite <- Z.negb_odd. destruct (Z.odd p); reflexivity. }
  rewrite Par in Hl.
  eapply yb; [apply (rshift_bool_ok colo n rz _ 1 N0 ltac:(lia) Hrz)|]. intros g0 (Hg0 & _).
  eapply yb; [apply (or_ok prf colo Hprf (FI n) rz g0 _ _ N0 Hrz Hg0)|]. intros g1 (Hg1 & Sg1).
  eapply yb; [apply (gather_ok colo n g1 _ N1 Hg1)|]. intros g2 (Hg2 & Sg2). rewrite gather_pow2 in Hg2 by (split || idtac; lia).
  replace (k + s) with (n / 2) by (unfold s; clear; lia).
  assert (Hn2 : 0 < n / 2 < n) by (destruct Ha as [-> | ->]; vm_compute; split; reflexivity).
  eapply yb; [apply (b2a_bits_ok prf colo Hprf n (n / 2) g2 _ N1 Hn2 Hg2)|]. intros e (He & Se).
  assert (En : n = 2 * (n / 2)) by (clear - Ev; pose proof (Z.div_mod n 2 ltac:(lia)); lia).
  destruct (halves n k p (n / 2) En ltac:(unfold s in Hs; clear - Hs; lia) K0 Hp ltac:(unfold s in Hs; clear - Hs; lia)) as (Hp2 & Hd2 & Hsum).
  rewrite Z.mod_small in He by (split; [apply Z.lt_le_incl, pow2_pos, Hp2|apply Z.pow_lt_mono_r; [reflexivity|clear - Hn2; lia|apply Hp2]]).
  assert (Bd : (Rabs (real_of k (sqd c)) <= esk)%R). { apply abs2. apply abs2 in Hd. split; nra. }
  assert (By : (Rabs (real_of k (sqy c)) <= 1.5 * esk)%R). { apply abs2. apply abs2 in Hy. split; nra. }
  eapply yb; [apply (konst colo n k _ Fc (sqd c) esk Bd); lra|]. intros d (Hd' & Sd).
  eapply yb; [apply (mul_ab_qp_ok prf colo Hprf n d lsb _ _ N0 Hd' (proj2 Hl))|]. intros t (Ht & St).
  eapply yb; [apply (konst colo n k _ Fc (sqy c) (1.5 * esk) By); lra|]. intros y (Hy' & Sy).
  set (sg := if Z.even p then esk else (esk * sqrt 2)%R).
  set (D := Z.b2z (Z.even p) * sqd c) in *.
  assert (HD : real_of k D = (if Z.even p then real_of k (sqd c) else 0)%R).
  { unfold D. destruct (Z.even p); cbn [Z.b2z]; [rewrite Z.mul_1_l; reflexivity|]. rewrite Z.mul_0_l. unfold real_of. field. lra. }
  assert (BD : (Rabs (real_of k D) <= esk)%R) by (rewrite HD; destruct (Z.even p); [exact Bd|rewrite Rabs_R0; lra]).
  rewrite swrap_id in Ht; [|exact N0|apply (small_real n k _ esk K1 N3 BD); lra].
  assert (Near : (Rabs (real_of k D + real_of k (sqy c) - sg) <= 2 * ulp k)%R).
  { rewrite HD. unfold sg. apply abs2. apply abs2 in Hd, Hy. destruct (Z.even p); lra. }
  assert (Bsg : (1 <= sg <= 1.4143 * esk)%R) by (unfold sg; destruct (Z.even p); nra).
  assert (BS : (Rabs (real_of k D + real_of k (sqy c)) <= 1.5 * esk)%R) by (apply abs2; apply abs2 in Near; lra).
  eapply yb; [apply (addc colo n k _ Fc t y D (sqy c) (1.5 * esk) Ht ltac:(congruence) Hy' Sy BS); lra|]. intros sel (Hsel & Ssel).
  set (q := real_of k (2 ^ (p / 2))) in *. set (S := D + sqy c) in *.
  assert (RS : real_of k S = (real_of k D + real_of k (sqy c))%R) by (apply real_add, K0).
  assert (Pk : (0 < IZR (2 ^ k))%R) by lra.
  assert (q0 : (0 < q)%R) by (apply (pow2_lt_R k _ K0), Hp2).
  assert (Bq : (q * esk <= IZR (2 ^ k))%R).
  { unfold q, real_of, esk. apply Rmult_le_reg_r with (IZR (2 ^ k)); [exact Pk|].
    replace (IZR (2 ^ (p / 2)) / IZR (2 ^ k) * IZR (2 ^ ((2 * k - n / 2) / 2)) * IZR (2 ^ k))%R with (IZR (2 ^ (p / 2)) * IZR (2 ^ ((2 * k - n / 2) / 2)))%R by (field; lra).
    rewrite <- !mult_IZR. apply IZR_le. 
    rewrite <- (Z.pow_add_r 2 _ _ (proj1 Hp2) Hd2), <- (Z.pow_add_r 2 k k K0 K0). apply Z.pow_le_mono_r; [reflexivity|exact Hsum]. }
  eapply y_weaken. { apply (mul_round prf colo Hprf n k e sel _ _ N1 K0 KK He Hsel ltac:(congruence) Ssel). apply (fits_real n k _ _ (q * (1.5 * esk)) K1 N3); [|lra].
    fold q. rewrite RS, (Rabs_right q) by lra. apply Rmult_le_compat_l; [lra|exact BS]. }
  intros r (Sr & E & RE & Hr). split; [exact Sr|]. exists E. split; [exact Hr|]. apply (real_mul k _ _ _ K0) in RE. fold q in RE. rewrite RS in RE.
  unfold root. fold q sg. pose proof (mul_near _ _ q _ q Near ltac:(lra)) as M. rewrite (Rmult_comm _ q), (Rmult_comm sg) in M.
  assert (ulp k * q <= ulp k * (q * sg))%R by (apply Rmult_le_compat_l; nra). apply abs2 in RE, M. apply abs2. lra.
Qed.

Lemma inv_sqrt_ok c x v r : arith n x v -> psc x = true -> 0 < v < 2 ^ (n / 2 + k - 2) -> sqcoeffs_for n k c ->
  yields (inv_sqrt prf colo k c x r) (fun z => exists R, arith n z R /\
    inv_sqrt_within k (match r with O => 0.0076 | S _ => 0.0001 end) (real_of k v) (real_of k R)).
Proof.
  intros Hx Sx Hv Hc. destruct (sq_facts n k Hcfg) as (N1 & N0 & K0 & KK & K1 & N3 & K16 & K11 & Hs & Ha & Ev & Fc & Hu). pose proof (scale_R k K11) as Hsc.
  unfold inv_sqrt. assert (Fx : pfc x = FI n) by apply Hx. rewrite Fx. cbn [fbits]. fold s in Hs |- *.
  assert (En : n = n / 2 + n / 2) by (pose proof (Z.div_mod n 2 ltac:(lia)); lia). assert (Hn2 : 0 < n / 2) by lia.
  assert (PS : 0 < 2 ^ s) by (apply pow2_pos; lia).
  assert (Hw : 0 < v * 2 ^ s < 2 ^ (n - 2)).
  { split; [nia|]. replace (n - 2) with ((n / 2 + k - 2) + s) by (unfold s; lia). rewrite Z.pow_add_r by lia. apply Z.mul_lt_mono_pos_r; lia. }
  assert (E1 : 2 ^ (n - 1) = 2 * 2 ^ (n - 2)) by (rewrite (pow2_half (n - 1)) by lia; do 2 f_equal; lia).
  eapply yb; [apply (lshift_arith_ok colo n x v s N0 ltac:(lia) Hx)|]. intros xs (Hxs & Sxs). rewrite swrap_id in Hxs by (unfold in_s; lia).
  apply y_assert; [apply Z.leb_le; lia|]. apply y_assert; [exact Sx|].
  eapply yb; [apply (above_top_ok prf colo Hprf n xs _ Ha Hxs Hw)|]. intros z (Hz & Sz). rewrite log2_shift in Hz by lia.
  pose proof (Z.log2_spec v ltac:(lia)) as [V1 V2]. pose proof (Z.log2_nonneg v) as J0. set (j := Z.log2 v) in *.
  assert (Hj : j < n / 2 + k - 2) by (apply Z.log2_lt_pow2; lia).
  set (p := n - 2 - (j + s)). assert (Hp : 0 <= p <= n - 2 - s) by (unfold p, s in *; lia).
  replace (j + s + 1) with (n - 1 - p) in Hz by (unfold p; lia).
  eapply yb; [apply (bit_reverse_ok colo n z _ N0 Hz)|]. intros rz (Hrz & Srz). rewrite rev_pow2 in Hrz by lia. replace (n - 1 - (n - 1 - p)) with p in Hrz by lia.
  assert (Srz' : psc rz = true) by congruence.
  assert (Fv : fits n (v * 2 ^ p)).
  { unfold fits. pose proof (pow2_pos p ltac:(lia)). split; [pose proof (pow2_pos (n - 2) ltac:(lia)); nia|].
    apply Z.lt_le_trans with (2 ^ Z.succ j * 2 ^ p); [apply Z.mul_lt_mono_pos_r; lia|]. rewrite <- Z.pow_add_r by lia. apply Z.pow_le_mono_r; unfold p; lia. }
  assert (Norm : yields (sqrt_normalize prf colo k s x rz) (fun t => psc t = true /\ exists N, rounded (n / 2) (v * 2 ^ p) N /\ arith n t N)).
  { unfold sqrt_normalize. rewrite Fx. cbn [fbits]. unfold b2a_bits. assert (Fr : pfc rz = FI n) by apply Hrz. rewrite Fr. cbn [fbits]. rewrite Z.eqb_refl.
    eapply yb; [apply (b2a_ppa_ok prf colo Hprf n rz _ Ha Hrz)|]. intros f (Hf & Sf).
    eapply yb; [apply (mul_pp_unscaled_ok prf colo Hprf n k (unscale f) x (2 ^ p) v N0 Hf Hx eq_refl)|]. intros t (Ht & St). cbn [psc unscale orb] in St. rewrite Sx in St.
    rewrite (Z.mul_comm (2 ^ p)) in Ht. rewrite swrap_id in Ht; [|exact N0|apply (fits_in n _ N1 Fv)].
    replace (k + s) with (n / 2) by (unfold s; clear; lia).
    eapply yb; [apply (trunc_round prf colo Hprf n k (n / 2) t _ N1 K0 ltac:(lia) ltac:(lia) Ht St Fv)|]. intros t2 (St2 & N & RN & Ht2).
    apply y_ret. split; [reflexivity|]. exists N. split; [exact RN|exact Ht2]. }
  eapply yb; [exact Norm|]. intros b (Sb & N & RN & Hb). clear Norm. apply (real_trunc k (n / 2) _ _ K0 ltac:(lia)) in RN.
  set (Nr := (real_of k (v * 2 ^ p) / IZR (2 ^ (n / 2)))%R) in *.
  assert (BN : (0.25 <= Nr <= 0.5)%R).
  { assert (E : (Nr * IZR (2 ^ (n / 2 + k)) = IZR (v * 2 ^ p))%R).
    { unfold Nr, real_of. rewrite Z.pow_add_r, (mult_IZR (2 ^ (n / 2))) by lia. field. split; apply not_0_IZR; [pose proof (pow2_pos (n / 2) ltac:(lia))|pose proof (pow2_pos k K0)]; lia. }
    assert (EP : 2 ^ j * 2 ^ p = 2 ^ (n / 2 + k - 2)) by (rewrite <- Z.pow_add_r by lia; f_equal; unfold p, s; lia).
    assert (E4 : 2 ^ (n / 2 + k) = 4 * 2 ^ (n / 2 + k - 2)) by (change 4 with (2 ^ 2); rewrite <- Z.pow_add_r by lia; f_equal; lia).
    rewrite Z.pow_succ_r in V2 by lia. pose proof (pow2_pos p ltac:(lia)) as Pp.
    assert (L : 2 ^ (n / 2 + k - 2) <= v * 2 ^ p) by (rewrite <- EP; apply Z.mul_le_mono_pos_r; lia).
    assert (U : v * 2 ^ p <= 2 * 2 ^ (n / 2 + k - 2)) by (rewrite <- EP, Z.mul_assoc; apply Z.mul_le_mono_pos_r; lia).
    apply IZR_le in L, U. rewrite <- E in L, U. rewrite E4 in L, U. rewrite mult_IZR in L. rewrite !mult_IZR in U.
    assert (P : (0 < IZR (2 ^ (n / 2 + k - 2)))%R) by (apply IZR_lt, pow2_pos; lia). set (a := IZR (2 ^ (n / 2 + k - 2))) in *. clearbody a Nr. clear - L U P. split; nra. }
  assert (BN' : (0.24998 <= real_of k N <= 0.50002)%R) by (apply abs2 in RN; lra).
  set (w := sqrt (real_of k N)). assert (ww : real_of k N = (w * w)%R) by (symmetry; apply sqrt_sqrt; lra). assert (w0 : (0 < w)%R) by (apply sqrt_lt_R0; lra).
  assert (Hw' : (0.4999 <= w <= 0.7073)%R) by (rewrite ww in BN'; clearbody w; clear - BN' w0; split; apply Rnot_lt_le; intros X; nra).
  eapply yb; [apply (sqrt_poly_ok prf colo Hprf n k Hcfg c b N w Hw' ww Hb Sb Hc)|]. intros y0 (S0 & Y0 & H0 & B0).
  eapply yb; [apply (sqrt_loop_ok prf colo Hprf n k Hcfg b N w Hw' ww Hb Sb r y0 Y0 H0 S0 B0)|]. intros y (Sy & Y & Hy & BY).
  eapply yb; [apply (sqrt_exponent_ok c z rz p Hp Hz Hrz Srz' Hc)|]. intros e (Se & E & He & BE).
  pose proof (root_sq p v (proj1 Hp)) as RQ. fold Nr in RQ. destruct esk_bounds as ((Es & _) & _). pose proof sqrt2_bounds as Q2.
  assert (Pk : (0 < IZR (2 ^ k))%R) by lra.
  assert (G0 : (0 < root p)%R).
  { unfold root. apply Rmult_lt_0_compat; [apply (pow2_lt_R k _ K0), Z.div_pos; [exact (proj1 Hp)|reflexivity]|]. destruct (Z.even p); [lra|apply Rmult_lt_0_compat; lra]. }
  set (G := root p) in *. set (X := real_of k v) in *.
  assert (HX : (ulp k <= X)%R). { unfold ulp, X, real_of, Rdiv. rewrite <- (Rmult_1_l (/ IZR (2 ^ k))) at 1. apply Rmult_le_compat_r; [left; apply Rinv_0_lt_compat; lra|apply IZR_le; clear - Hv; lia]. }
  assert (US : (ulp k * IZR (2 ^ k) = 1)%R) by (unfold ulp; field; lra).
  assert (S16 : (65536 <= IZR (2 ^ k))%R). { change 65536%R with (IZR (2 ^ 16)). apply IZR_le, Z.pow_le_mono_r; [reflexivity|exact K16]. }
  assert (BG : (G <= IZR (2 ^ k) / 100)%R).
  { set (q := IZR (2 ^ k)) in *. assert (GG : (G * G <= 0.5 * q)%R).
    { assert (A : (G * G * ulp k <= 0.5)%R) by (apply Rle_trans with (G * G * X)%R; [apply Rmult_le_compat_l; nra|rewrite RQ; lra]).
      replace (G * G)%R with (G * G * ulp k * q)%R by (rewrite Rmult_assoc, US; ring). apply Rmult_le_compat_r; lra. }
    clearbody G q. clear - GG S16 G0. apply Rnot_lt_le. intros Z1. nra. }
  assert (se : (seed_error k r <= 0.0076)%R) by (unfold seed_error; destruct r; lra).
  assert (BYa : (Rabs (real_of k Y) <= 2.02)%R).
  { apply abs2 in BY. set (b1 := seed_error k r) in *. clearbody b1 w. clear - BY se Hw'. apply abs2. split; apply Rnot_lt_le; intros Z1; nra. }
  assert (BEa : (Rabs (real_of k E) <= IZR (2 ^ k) / 50)%R).
  { apply abs2 in BE. assert (ulp k * G <= / 65536 * G)%R by (apply Rmult_le_compat_r; lra). apply abs2. lra. }
  eapply y_weaken. { apply (mul_round prf colo Hprf n k y e Y E N1 K0 KK Hy He Sy Se). apply (fits_real n k _ _ (2.02 * (IZR (2 ^ k) / 50)) K1 N3); [apply Rmult_le_compat; auto using Rabs_pos|lra]. }
  intros t (St & Rr & RR & Ht). exists Rr. split; [exact Ht|]. apply (real_mul k _ _ _ K0) in RR.
  rewrite ww in RN. pose proof (final_R (ulp k) w X Nr G _ _ _ _ Hu Hw' RN BN G0 ltac:(lra) RQ BY se BE RR) as F.
  unfold inv_sqrt_within. eapply Rle_trans; [exact F|]. unfold seed_error. destruct r; lra.
Qed.

(** * Zero *)
Lemma trunc_any j z X : 0 <= j -> k + j <= n - 2 -> arith n z X -> psc z = true -> yields (truncate_heuristic prf colo k j z) (fun t => psc t = true /\ exists r, arith n t r).
Proof.
  intros Hj Hb Hz Sz st. destruct (sq_facts n k Hcfg) as (N1 & N0 & K0 & _).
  destruct (heuristic_at prf colo Hprf n k j z X st N1 K0 Hj ltac:(rewrite Sz; exact Hb) Hz) as (t & Et & St & Ht). exists t. split; [exact Et|]. split; [congruence|]. eauto.
Qed.
Lemma mul_any x y u v : arith n x u -> arith n y v -> psc x = true -> psc y = true -> yields (mul_pp prf colo k x y) (fun z => psc z = true /\ exists r, arith n z r).
Proof.
  intros Hx Hy Sx Sy. destruct (sq_facts n k Hcfg) as (N1 & N0 & K0 & KK & _). unfold mul_pp.
  eapply yb; [apply (mul_raw_ok prf colo Hprf n x y u v N0 Hx Hy)|]. intros z (Hz & Sz). rewrite Sx, Sy in *. cbn [andb orb] in *. exact (trunc_any k z _ K0 KK Hz Sz).
Qed.
Lemma zero_round X r : 0 <= X -> rounded X 0 r -> r = 0.
Proof. intros HX (_ & H). pose proof (pow2_pos X HX). rewrite Z.mod_0_l, Z.div_0_l in H by lia. auto. Qed.
Lemma zero_fits : fits n 0.
Proof. destruct (sq_facts n k Hcfg) as (N1 & _). unfold fits. destruct (sq_facts n k Hcfg) as (_ & _ & _ & _ & K1 & N3 & _). pose proof (pow2_pos (n - 2) ltac:(lia)). lia. Qed.
Lemma mul_zero x y u v : arith n x u -> arith n y v -> psc x = true -> psc y = true -> u * v = 0 -> yields (mul_pp prf colo k x y) (fun z => psc z = true /\ arith n z 0).
Proof.
  intros Hx Hy Sx Sy E. destruct (sq_facts n k Hcfg) as (N1 & N0 & K0 & KK & _).
  eapply y_weaken; [apply (mul_round prf colo Hprf n k x y u v N1 K0 KK Hx Hy Sx Sy); rewrite E; exact zero_fits|].
  intros z (Sz & r & Rr & Hz). rewrite E in Rr. rewrite (zero_round k r K0 Rr) in Hz. auto.
Qed.
Lemma sqrt_poly_any c b u : arith n b u -> psc b = true -> yields (sqrt_poly prf colo k c b) (fun z => psc z = true /\ exists r, arith n z r).
Proof.
  intros Hb Sb. destruct (sq_facts n k Hcfg) as (N1 & N0 & K0 & KK & _). unfold sqrt_poly. assert (Fb : pfc b = FI n) by apply Hb. rewrite Fb.
  eapply yb; [apply (const_ok colo (FI n) (sq2 c) true N0)|]. intros w2 (Hw2 & Sw2).
  assert (M : yields (mul_pq prf colo k b w2) (fun z => psc z = true /\ exists r, arith n z r)).
  { unfold mul_pq. rewrite Sb, Sw2. cbn [andb orb]. rewrite Fb. eapply yb; [exact (mul_pq_raw_ok colo n b w2 u _ _ N0 Hb Hw2)|]. intros z (Hz & Sz). exact (trunc_any k z _ K0 KK Hz Sz). }
  eapply yb; [exact M|]. intros t (St & r & Ht).
  eapply yb; [apply (const_ok colo (FI n) (sq1 c) true N0)|]. intros w1 (Hw1 & Sw1).
  eapply yb; [apply (sub_pq_ok colo n t w1 r _ N0 Ht Hw1); congruence|]. intros t2 (Ht2 & St2).
  eapply yb; [apply (mul_any t2 b _ _ Ht2 Hb ltac:(congruence) Sb)|]. intros t3 (St3 & r3 & Ht3).
  eapply yb; [apply (const_ok colo (FI n) (sq0 c) true N0)|]. intros w0 (Hw0 & Sw0).
  eapply y_weaken; [apply (add_pq_ok colo n t3 w0 _ _ N0 Ht3 Hw0); congruence|]. intros z (Hz & Sz). split; [congruence|eauto].
Qed.
Lemma sqrt_loop_any b u : arith n b u -> psc b = true -> forall r y v, arith n y v -> psc y = true -> yields (sqrt_loop prf colo k r b y) (fun z => psc z = true /\ exists r, arith n z r).
Proof.
  intros Hb Sb. destruct (sq_facts n k Hcfg) as (N1 & N0 & K0 & KK & K1 & _). assert (Fb : pfc b = FI n) by apply Hb. induction r as [|r IH]; intros y v Hy Sy; cbn [sqrt_loop]; [apply y_ret; eauto|].
  assert (St : yields (sqrt_step prf colo k b y) (fun z => psc z = true /\ exists r, arith n z r)).
  { unfold sqrt_step. rewrite Fb. eapply yb; [apply (mul_any b y _ _ Hb Hy Sb Sy)|]. intros t1 (S1 & r1 & H1).
    eapply yb; [apply (mul_any t1 y _ _ H1 Hy S1 Sy)|]. intros t2 (S2 & r2 & H2).
    eapply yb; [apply (const_ok colo (FI n) _ true N0)|]. intros three (H3 & S3).
    eapply yb; [apply (sub_qp_ok colo n three t2 _ _ N0 H2 H3)|]. intros t3 (Ht3 & St3).
    eapply yb; [apply (mul_any y t3 _ _ Hy Ht3 Sy ltac:(congruence))|]. intros t4 (S4 & r4 & H4). apply (trunc_any 1 t4 r4 ltac:(lia) ltac:(lia) H4 S4). }
  eapply yb; [exact St|]. intros y' (Sy' & v' & Hy'). exact (IH y' v' Hy' Sy').
Qed.
Lemma shiftl_0 i : Z.shiftl 0 i = 0.
Proof. apply Z.shiftl_0_l. Qed.
Lemma or_val_0 r : forall e, or_val r e 0 = 0.
Proof. induction r as [|r IH]; intros e; cbn [or_val]; [reflexivity|]. rewrite Z.shiftr_0_l. apply IH. Qed.
Lemma rev_0 : rev_bits n 0 = 0.
Proof. destruct (sq_facts n k Hcfg) as (N1 & N0 & _). apply Z.bits_inj'. intros i Hi. rewrite rev_bits_spec by assumption. rewrite !Z.testbit_0_l. reflexivity. Qed.
Lemma gather_0 : gather2 n 0 0 = 0.
Proof. apply Z.bits_inj'. intros i Hi. rewrite gather2_bits by lia. rewrite !Z.testbit_0_l. apply Bool.andb_false_r. Qed.
Lemma swrap_0 : swrap n 0 = 0.
Proof. destruct (sq_facts n k Hcfg) as (N1 & N0 & _). apply swrap_id; [exact N0|]. unfold in_s. pose proof (pow2_pos (n - 1) ltac:(lia)). lia. Qed.

Lemma inv_sqrt_zero c x r : arith n x 0 -> psc x = true -> yields (inv_sqrt prf colo k c x r) (fun z => arith n z 0).
Proof.
  intros Hx Sx. destruct (sq_facts n k Hcfg) as (N1 & N0 & K0 & KK & K1 & N3 & K16 & K11 & Hs & Ha & Ev & Fc & Hu).
  unfold inv_sqrt. assert (Fx : pfc x = FI n) by apply Hx. rewrite Fx. cbn [fbits]. fold s in Hs |- *.
  eapply yb; [apply (lshift_arith_ok colo n x 0 s N0 ltac:(lia) Hx)|]. intros xs (Hxs & Sxs). rewrite Z.mul_0_l, swrap_0 in Hxs.
  apply y_assert; [apply Z.leb_le, Hs|]. apply y_assert; [exact Sx|].
  assert (AT : yields (above_top prf colo xs) (fun z => boolean (FI n) z 0 /\ psc z = psc xs)).
  { unfold above_top. assert (Fxs : pfc xs = FI n) by apply Hxs. rewrite Fxs. cbn [fbits].
    eapply yb; [apply (a2b_ok prf colo Hprf n xs 0 (Some n) n Ha Hxs eq_refl ltac:(lia))|]. intros b (Sb & Hb). rewrite Z.ltb_irrefl in Hb.
    eapply yb; [apply (or_loop_ok prf colo Hprf n N0 (log2c n) 1 b 0 ltac:(lia) Hb)|]. intros y (Hy & Sy). rewrite or_val_0 in Hy.
    eapply yb; [apply (rshift_bool_ok colo n y _ 1 N0 ltac:(lia) Hy)|]. intros y1 (Hy1 & Sy1). rewrite Z.shiftr_0_l in Hy1.
    eapply yb; [apply (xor_pp_ok colo (FI n) y y1 _ _ N0 Hy Hy1)|]. intros z (Hz & Sz). rewrite Z.lxor_0_l in Hz.
    eapply y_weaken; [apply (lshift_bool_ok colo n z _ 1 N0 Hz)|]. intros t (Ht & St). rewrite shiftl_0, swrap_0 in Ht. split; [exact Ht|congruence]. }
  eapply yb; [exact AT|]. intros z (Hz & Sz). clear AT.
  eapply yb; [apply (bit_reverse_ok colo n z _ N0 Hz)|]. intros rz (Hrz & Srz). rewrite rev_0 in Hrz. assert (Srz' : psc rz = true) by congruence.
  assert (Norm : yields (sqrt_normalize prf colo k s x rz) (fun t => psc t = true /\ exists r, arith n t r)).
  { unfold sqrt_normalize. rewrite Fx. cbn [fbits]. unfold b2a_bits. assert (Fr : pfc rz = FI n) by apply Hrz. rewrite Fr. cbn [fbits]. rewrite Z.eqb_refl.
    eapply yb; [apply (b2a_ppa_ok prf colo Hprf n rz _ Ha Hrz)|]. intros f (Hf & Sf).
    eapply yb; [apply (mul_pp_unscaled_ok prf colo Hprf n k (unscale f) x 0 0 N0 Hf Hx eq_refl)|]. intros t (Ht & St). cbn [psc unscale orb] in St. rewrite Sx in St.
    eapply yb; [apply (trunc_any (k + s) t _ ltac:(lia) ltac:(unfold s; pose proof (Z.div_mod n 2 ltac:(lia)); lia) Ht St)|]. intros t2 (St2 & r2 & Ht2).
    apply y_ret. split; [reflexivity|]. exists r2. exact Ht2. }
  eapply yb; [exact Norm|]. intros b (Sb & bv & Hb). clear Norm.
  eapply yb; [apply (sqrt_poly_any c b bv Hb Sb)|]. intros y0 (S0 & Y0 & H0).
  eapply yb; [apply (sqrt_loop_any b bv Hb Sb r y0 Y0 H0 S0)|]. intros y (Sy & Y & Hy).
  assert (Ex : yields (sqrt_exponent prf colo k s c z rz) (fun e => psc e = true /\ arith n e 0)).
  { unfold sqrt_exponent. assert (Fz : pfc z = FI n) by apply Hz. rewrite Fz.
    eapply yb; [apply (xor_indices_ok colo n z _ ltac:(destruct Ha; lia) Hz)|]. intros i (Hi & _).
    eapply yb; [apply (extract0_ok prf colo n i _ N1 Hi)|]. intros lsb (Hl & _).
    eapply yb; [apply (rshift_bool_ok colo n rz _ 1 N0 ltac:(lia) Hrz)|]. intros g0 (Hg0 & _). rewrite Z.shiftr_0_l in Hg0.
    eapply yb; [apply (or_ok prf colo Hprf (FI n) rz g0 _ _ N0 Hrz Hg0)|]. intros g1 (Hg1 & Sg1). rewrite Z.lor_0_l in Hg1.
    eapply yb; [apply (gather_ok colo n g1 _ N1 Hg1)|]. intros g2 (Hg2 & Sg2). rewrite gather_0 in Hg2.
    replace (k + s) with (n / 2) by (unfold s; clear; lia).
    assert (Hn2 : 0 < n / 2 < n) by (destruct Ha as [-> | ->]; vm_compute; split; reflexivity).
    eapply yb; [apply (b2a_bits_ok prf colo Hprf n (n / 2) g2 _ N1 Hn2 Hg2)|]. intros e (He & Se). rewrite Z.mod_0_l in He by (clear - Hn2; apply Z.neq_sym, Z.lt_neq, pow2_pos; lia).
    eapply yb; [apply (const_ok colo (FI n) _ true N0)|]. intros d (Hd & Sd).
    eapply yb; [apply (mul_ab_qp_ok prf colo Hprf n d lsb _ _ N0 Hd (proj2 Hl))|]. intros t (Ht & St).
    eapply yb; [apply (const_ok colo (FI n) _ true N0)|]. intros y' (Hy' & Sy').
    eapply yb; [apply (add_pq_ok colo n t y' _ _ N0 Ht Hy'); congruence|]. intros sel (Hsel & Ssel).
    apply (mul_zero e sel 0 _ He Hsel ltac:(congruence) ltac:(congruence) (Z.mul_0_l _)). }
  eapply yb; [exact Ex|]. intros e (Se & He).
  eapply y_weaken; [apply (mul_zero y e Y 0 Hy He Sy Se (Z.mul_0_r _))|]. intros t (_ & Ht). exact Ht.
Qed.
End Ops.
