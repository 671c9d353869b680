(** Proofs about ABY3's softmax. *)
From Coq Require Import Reals Lra Psatz.
From Verif Require Import Base TensorModel TensorProofs Aby3Model Aby3Spec Aby3Proofs Aby3Bits Aby3Circ Aby3Cmp Aby3Trunc Aby3NetModel Aby3NetSpec Aby3Net Aby3NetProps FpModel FpSpec FpProofs FpRecip FpProps FpLogModel FpLogReal FpLogSpec FpLogProofs FpLogMain FpExpModel FpExpSpec FpExpReal FpExpProofs FpExpMain FpSoftModel FpSoftSpec FpSoftReal.
Open Scope Z_scope.

Lemma F2_In {A B} (P : A -> B -> Prop) xs ys : Forall2 P xs ys -> Forall2 (fun x y => P x y /\ In y ys) xs ys.
Proof.
  intros H. assert (G : forall l, incl ys l -> Forall2 (fun x y => P x y /\ In y l) xs ys).
  { induction H as [|x y xs ys Hx H IH]; intros l I; constructor; [split; [exact Hx|apply I; left; reflexivity]|]. apply IH. intros z Hz. apply I. right. exact Hz. }
  apply G, incl_refl.
Qed.
Lemma F2_split {A B C} (P : A -> C -> Prop) (Q : C -> B -> Prop) xs ys : Forall2 (fun x y => exists c, P x c /\ Q c y) xs ys ->
  exists cs, Forall2 P xs cs /\ Forall2 Q cs ys.
Proof.
  induction 1 as [|x y xs ys (c & Hp & Hq) H (cs & I1 & I2)]; [exists []; split; constructor|]. exists (c :: cs). split; constructor; assumption.
Qed.
Lemma F2_weaken {A B} (P Q : A -> B -> Prop) xs ys : (forall x y, P x y -> Q x y) -> Forall2 P xs ys -> Forall2 Q xs ys.
Proof. intros I. induction 1; constructor; auto. Qed.

(** Sums of exponentials. *)
Lemma exp_le x y : (x <= y)%R -> (exp x <= exp y)%R.
Proof. intros [H| ->]; [left; apply exp_increasing, H|right; reflexivity]. Qed.
Lemma total_cons x xs : total (x :: xs) = (exp x + total xs)%R. Proof. reflexivity. Qed.
Lemma total_pos xs : (0 <= total xs)%R.
Proof. induction xs as [|x xs IH]; [unfold total; cbn; lra|]. rewrite total_cons. pose proof (exp_pos x). lra. Qed.
Lemma total_ge xs x : In x xs -> (exp x <= total xs)%R.
Proof. induction xs as [|y xs IH]; [intros []|]. rewrite total_cons. pose proof (exp_pos y). pose proof (total_pos xs). intros [->|H1]; [lra|]. specialize (IH H1). lra. Qed.
Lemma total_le xs : (forall x, In x xs -> x <= 0)%R -> (total xs <= INR (length xs))%R.
Proof.
  induction xs as [|y xs IH]; intros H; [unfold total; cbn; lra|]. rewrite total_cons. cbn [length]. rewrite S_INR.
  assert (exp y <= 1)%R by (rewrite <- exp_0; apply exp_le; apply H; left; reflexivity).
  assert (total xs <= INR (length xs))%R by (apply IH; intros x Hx; apply H; right; exact Hx). lra.
Qed.
Lemma total_shift xs c : total (map (fun x => x - c)%R xs) = (total xs * exp (- c))%R.
Proof. induction xs as [|x xs IH]; [unfold total; cbn; lra|]. cbn [map]. rewrite !total_cons, IH. unfold Rminus. rewrite exp_plus. ring. Qed.
Lemma soft_shift xs x c : soft (map (fun x => x - c)%R xs) (x - c) = soft xs x.
Proof.
  unfold soft. rewrite total_shift. unfold Rminus. rewrite exp_plus. destruct xs as [|y xs].
  - unfold total. cbn. rewrite Rmult_0_l. unfold Rdiv. rewrite !Rinv_0. lra.
  - assert (0 < total (y :: xs))%R by (rewrite total_cons; pose proof (exp_pos y); pose proof (total_pos xs); lra). pose proof (exp_pos (- c)). field. split; lra.
Qed.
Lemma sum_near k a Rs As : 0 <= k -> Forall2 (fun R A => (Rabs (real_of k R - exp A) <= a * exp A + 3 * ulp k)%R) Rs As ->
  (Rabs (real_of k (zsum Rs) - total As) <= a * total As + 3 * (INR (length As) * ulp k))%R.
Proof.
  intros Hk. induction 1 as [|R A Rs As H1 H IH]; [unfold total, real_of; cbn; unfold Rdiv; rewrite Rmult_0_l; apply abs2; lra|].
  rewrite total_cons. cbn [length]. rewrite S_INR. change (zsum (R :: Rs)) with (R + zsum Rs). rewrite real_add by exact Hk. apply abs2 in H1, IH. apply abs2. lra.
Qed.

Lemma real_nonpos k v : 0 <= k -> v <= 0 -> (real_of k v <= 0)%R.
Proof.
  intros Hk Hv. unfold real_of, Rdiv. apply IZR_le in Hv. assert (P : (0 < / IZR (2 ^ k))%R) by (apply Rinv_0_lt_compat, IZR_lt, pow2_pos, Hk). nra.
Qed.

Section Soft.
Context (prf : fac -> key -> Z -> nat -> Z) (colo : bool) (Hprf : prf_words prf).
Context (n k m : Z) (Hcfg : fp_config n k m) (Hk : 11 <= k) (Hm : m + 5 <= 2 * k).

Lemma soft_ex : exp_config n k. Proof. destruct Hcfg as (A & B & C & D). unfold exp_config. auto. Qed.
Lemma size_pow : pow2_size n. Proof. destruct Hcfg as (A & _). destruct A as [->| ->]; [exists 6%nat|exists 7%nat]; split; reflexivity || lia. Qed.

Lemma row_max_ok (tree : bool) xs vs : shares n true xs vs -> ((if tree then 1 else 2) <= length xs)%nat -> soft_domain n k m vs ->
  yields (row_max prf colo tree xs) (fun z => exists M, is_max vs M /\ arith n z M /\ psc z = true).
Proof.
  intros H HL (_ & D & _). unfold row_max. destruct tree.
  - apply (reduce_max_tree_ok prf colo Hprf n true xs vs size_pow H); [destruct xs; [cbn in HL; lia|discriminate]|].
    intros u v Hu Hv. specialize (D u Hu) as Du. specialize (D v Hv) as Dv. unfold in_s.
    assert (E : 2 ^ (n - 1) = 2 * 2 ^ (n - 2)) by (replace (n - 1) with (1 + (n - 2)) by lia; apply Z.pow_add_r; [lia|destruct Hcfg; lia]). lia.
  - destruct size_pow as (e & En & Hn). pose proof (C41_reduce_max_network prf colo e true xs vs Hprf) as G. cbv zeta in G. rewrite <- En in G. exact (G Hn H HL D).
Qed.

Lemma adjust_ok mx x M v : arith n mx M -> psc mx = true -> arith n x v -> psc x = true -> - 2 ^ (n - 2) < v < 2 ^ (n - 2) -> - 2 ^ (n - 2) < M < 2 ^ (n - 2) -> v <= M ->
  yields (adjust colo mx x) (fun z => arith n z (v - M - 1) /\ psc z = true).
Proof.
  intros Hmx Smx Hx Sx Dv DM L. assert (N4 : 0 < n /\ 4 <= n) by (destruct Hcfg; lia). destruct N4 as (N0 & N4).
  assert (E : 2 ^ (n - 1) = 2 * 2 ^ (n - 2)) by (replace (n - 1) with (1 + (n - 2)) by lia; apply Z.pow_add_r; lia).
  assert (I1 : in_s n (v - M)) by (unfold in_s; lia). assert (I2 : in_s n (v - M - 1)) by (unfold in_s; lia).
  assert (I3 : in_s n 1). { assert (4 <= 2 ^ (n - 2)) by (change 4 with (2 ^ 2); apply Z.pow_le_mono_r; lia). unfold in_s. lia. }
  unfold adjust. eapply yb; [apply (sub_pp_ok colo n x mx v M N0 Hx Hmx); congruence|]. intros d (Hd & Sd). rewrite (swrap_id n _ N0 I1) in Hd.
  assert (Fd : pfc d = FI n) by apply Hd. rewrite Fd. eapply yb; [apply (const_ok colo (FI n) 1 true N0)|]. intros u (Hu & Su). cbn [fcast] in Hu. rewrite (swrap_id n _ N0 I3) in Hu.
  eapply y_weaken; [apply (sub_pq_ok colo n d u _ _ N0 Hd Hu); congruence|]. intros z (Hz & Sz). rewrite (swrap_id n _ N0 I2) in Hz. split; [exact Hz|congruence].
Qed.

Lemma recip_real S r : recip_within k S r -> 0 < S ->
  (Rabs (real_of k r * real_of k S - 1) <= 0.000007 + 3 * ulp k + 2 * real_of k S * ulp k)%R.
Proof.
  replace 0.000007%R with (7 / 1000000)%R by lra. intros H HS. unfold recip_within, recip_error in H. rewrite (Z.abs_eq S) in H by lia. apply IZR_le in H. rewrite mult_IZR, abs_IZR, plus_IZR, !mult_IZR, plus_IZR, !mult_IZR, minus_IZR, !mult_IZR in H.
  assert (P : (0 < IZR (2 ^ k))%R) by (apply IZR_lt, pow2_pos; lia). unfold real_of, ulp. set (s := IZR (2 ^ k)) in *.
  replace (IZR r / s * (IZR S / s) - 1)%R with ((IZR r * IZR S - s * s) * / (s * s))%R by (field; lra). rewrite Rabs_mult.
  assert (Q : (0 < / (s * s))%R) by (apply Rinv_0_lt_compat, Rmult_lt_0_compat; exact P). rewrite (Rabs_right (/ (s * s))) by lra.
  apply Rle_trans with ((7 * (s * s) + 1000000 * (3 * s + 2 * IZR S)) / 1000000 * / (s * s))%R; [apply Rmult_le_compat_r; [lra|]; lra|]. right. field. lra.
Qed.

Lemma pade_error_small : (0 <= pade_error k <= 0.00152)%R.
Proof. unfold pade_error. destruct (k <? 13), (k <? 17), (k <? 20); lra. Qed.

Lemma len_facts (vs : list Z) : 11 * Z.of_nat (length vs) <= 10 * 2 ^ (m - 1 - k) ->
  (INR (length vs) * ulp k <= / 64)%R /\ (1.1 * INR (length vs) * IZR (2 ^ k) <= IZR (2 ^ (m - 1)))%R /\ 2 ^ (m - 1) <= 2 ^ (n - 2).
Proof.
  intros H. destruct Hcfg as (Hn & (K0 & Km) & _ & Kn). assert (E : 2 ^ (m - 1) = 2 ^ (m - 1 - k) * 2 ^ k) by (rewrite <- Z.pow_add_r by lia; f_equal; lia).
  assert (E2 : 2 ^ (m - 1 - k) <= 2 ^ (k - 6)) by (apply Z.pow_le_mono_r; lia). assert (E3 : 2 ^ k = 64 * 2 ^ (k - 6)) by (change 64 with (2 ^ 6); rewrite <- Z.pow_add_r by lia; f_equal; lia).
  assert (L64 : 64 * Z.of_nat (length vs) <= 2 ^ k) by lia.
  apply IZR_le in L64. apply IZR_le in H. rewrite mult_IZR, <- INR_IZR_INZ in L64. rewrite !mult_IZR, <- INR_IZR_INZ in H. apply (f_equal IZR) in E. rewrite mult_IZR in E. rewrite E. clear E E2 E3.
  assert (P : (0 < IZR (2 ^ k))%R) by (apply IZR_lt, pow2_pos; lia). split; [|split].
  - apply (Rmult_le_reg_r (IZR (2 ^ k)) _ _ P). unfold ulp. replace (INR (length vs) * / IZR (2 ^ k) * IZR (2 ^ k))%R with (INR (length vs)) by (field; lra). lra.
  - replace (1.1 * INR (length vs) * IZR (2 ^ k))%R with ((1.1 * INR (length vs)) * IZR (2 ^ k))%R by ring. apply Rmult_le_compat_r; lra.
  - apply Z.pow_le_mono_r; lia.
Qed.

Lemma soft_ok le cs (tree : bool) xs vs : shares n true xs vs -> ((if tree then 1 else 2) <= length xs)%nat -> soft_domain n k m vs ->
  excoeffs_for k cs -> encodes k le (/ ln 2) ->
  yields (softmax prf colo k m le cs tree xs) (fun zs => Forall2 (fun z v => psc z = true /\ exists r, arith n z r /\
    soft_within k (length vs) (soft (map (real_of k) vs) (real_of k v)) (real_of k r)) zs vs).
Proof.
  intros Hxs HL Hd Hcs Hle. destruct (ex_facts n k soft_ex) as (N1 & N0 & K0 & KK & K1 & N3 & _ & Kn & N34 & Had & Fc & Hu). pose proof (scale_R k Hk) as Hsc.
  unfold softmax. eapply yb; [exact (row_max_ok tree xs vs Hxs HL Hd)|]. intros mx (M & (MI & MM) & Hmx & Smx). destruct Hd as (K32 & DV & DS & DL).
  destruct (len_facts vs DL) as (QL & SL & ML).
  (* the shifted logits *)
  eapply yb. { apply (mapM_ok _ _ (fun y v => arith n y (v - M - 1) /\ psc y = true) xs vs (F2_In _ _ _ Hxs)). intros x v ((Hx & Sx) & Iv). apply adjust_ok; auto. }
  intros ys Hys.
  (* their exponentials *)
  set (sh := fun v => real_of k (v - M - 1)). set (a := (pade_error k + 16 * ulp k)%R). pose proof pade_error_small as PE. assert (Ha : (0 <= a <= 0.0094)%R) by (unfold a; lra).
  eapply yb.
  { apply (mapM_ok _ _ (fun e v => exists R, (arith n e R /\ psc e = true) /\ (Rabs (real_of k R - exp (sh v)) <= a * exp (sh v) + 3 * ulp k)%R) ys vs (F2_In _ _ _ Hys)).
    intros y v ((Hy & Sy) & Iv). assert (V : v <= M) by (apply MM, Iv). assert (P : 0 < 2 ^ k) by (apply pow2_pos; exact K0).
    eapply y_weaken; [apply (exp_ok prf colo Hprf n k soft_ex le cs ENeg y (v - M - 1) Hy Sy Hcs Hle)|].
    - cbn. lia.
    - split; [lia|]. right. split; [exact K32|]. specialize (DS M v MI Iv). lia.
    - intros e (Se & R & HR & W). exists R. split; [split; assumption|]. apply (neg_exp (ulp k) (pade_error k) _ _ Hu PE); [|exact W].
      apply real_nonpos; [exact K0|clear - V; lia]. }
  intros es Hes. destruct (F2_split _ _ _ _ Hes) as (Rs & HRs & HE).
  (* their sum *)
  set (As := map sh vs). assert (HE' : Forall2 (fun R A => (Rabs (real_of k R - exp A) <= a * exp A + 3 * ulp k)%R) Rs As).
  { unfold As. clear - HE. induction HE; cbn [map]; constructor; assumption. }
  pose proof (sum_near k a Rs As K0 HE') as HS. assert (LA : length As = length vs) by apply map_length. rewrite LA in HS.
  set (T := total As) in *. set (S := zsum Rs) in *. set (q := (INR (length vs) * ulp k)%R) in *.
  assert (Q0 : (0 <= q <= / 64)%R) by (split; [unfold q; apply Rmult_le_pos; [apply pos_INR|lra]|exact QL]).
  assert (A0 : forall A, In A As -> (A <= 0)%R).
  { intros A HA. apply in_map_iff in HA. destruct HA as (v & <- & Iv). specialize (MM v Iv). apply real_nonpos; [exact K0|clear - MM; lia]. }
  assert (TL : (T <= INR (length vs))%R) by (rewrite <- LA; apply total_le, A0).
  assert (T1 : (1 - ulp k <= T)%R).
  { apply Rle_trans with (exp (- ulp k)); [pose proof (exp_ineq1_le (- ulp k)); lra|]. replace (- ulp k)%R with (sh M); [apply total_ge, in_map, MI|].
    unfold sh, real_of, ulp. replace (M - M - 1) with (-1) by lia. change (IZR (-1)) with (- (1))%R. field. lra. }
  destruct (soft_scale a (real_of k S) T Ha ltac:(lra) q Q0 HS) as (S0 & S1).
  assert (Ss : IZR S = (real_of k S * IZR (2 ^ k))%R) by (unfold real_of; field; lra).
  assert (SP : 0 < S). { apply lt_IZR. rewrite Ss. apply Rmult_lt_0_compat; lra. }
  assert (SM : S < 2 ^ (m - 1)).
  { apply lt_IZR. rewrite Ss. assert (X : (0 < INR (length vs))%R) by lra. eapply Rlt_le_trans; [|exact SL]. apply Rmult_lt_compat_r; lra. }
  assert (MM2 : 2 ^ (m - 1) <= 2 ^ m) by (apply Z.pow_le_mono_r; [lia|destruct Hcfg; lia]).
  assert (IS : in_s n S). { assert (2 ^ (n - 2) <= 2 ^ (n - 1)) by (apply Z.pow_le_mono_r; lia). unfold in_s. lia. }
  assert (Fmx : pfc mx = FI n) by apply Hmx. rewrite Fmx.
  eapply yb; [apply (reduce_sum_ok colo n true true es Rs N0 HRs)|]. intros s (Hs & Ssc). fold S in Hs. rewrite (swrap_id n S N0 IS) in Hs.
  (* the reciprocal *)
  eapply yb; [apply (C89_reciprocal prf colo n k m s S true 1 Hprf Hcfg Hk Hm Hs Ssc)|]; [unfold ranged; lia|lia|discriminate|].
  intros r (Sr & N & HN & WN). apply recip_real in WN; [|exact SP].
  assert (NB : (Rabs (real_of k N) <= 1.2)%R).
  { set (x := real_of k N) in *. set (y := real_of k S) in *. assert (Y : (0.939 <= y)%R) by lra. apply abs2 in WN. destruct WN as (W1 & W2).
    assert (UY : (2 * y * ulp k <= 0.001 * y)%R) by (replace (2 * y * ulp k)%R with (y * (2 * ulp k))%R by ring; rewrite (Rmult_comm 0.001); apply Rmult_le_compat_l; lra).
    apply abs2. split; apply (Rmult_le_reg_r y); lra. }
  (* the products *)
  eapply y_weaken. { apply (mapM_ok _ _ (fun z v => psc z = true /\ exists w, arith n z w /\ soft_within k (length vs) (soft (map (real_of k) vs) (real_of k v)) (real_of k w)) es vs (F2_In _ _ _ Hes)).
    intros e v ((R & (HR & SR) & ER) & Iv).
    assert (EB : (0 <= exp (sh v) <= 1)%R). { split; [left; apply exp_pos|]. rewrite <- exp_0. apply exp_le. apply A0, in_map, Iv. }
    assert (RB : (Rabs (real_of k R) <= 1.1)%R).
    { assert (0 <= a * exp (sh v) <= 0.0094)%R by (split; [apply Rmult_le_pos; lra|apply Rle_trans with (a * 1)%R; [apply Rmult_le_compat_l; lra|lra]]). apply abs2 in ER. apply abs2. lra. }
    eapply y_weaken; [apply (mul_round prf colo Hprf n k e r R N N1 K0 KK HR HN SR Sr)|].
    - apply (fits_real n k _ _ (1.1 * 1.2) K1 N3); [|lra]. apply Rmult_le_compat; [apply Rabs_pos|apply Rabs_pos|exact RB|exact NB].
    - intros z (Sz & w & Rw & Hw). split; [exact Sz|]. exists w. split; [exact Hw|]. apply (real_mul k _ _ _ K0) in Rw.
      assert (ES : soft (map (real_of k) vs) (real_of k v) = (exp (sh v) / T)%R).
      { rewrite <- (soft_shift _ _ (real_of k (M + 1))). unfold soft, T, As. rewrite map_map.
        assert (E1 : forall u, (real_of k u - real_of k (M + 1))%R = sh u). { intros u. unfold sh. rewrite <- (Z.sub_add (M + 1) u) at 1. rewrite real_add by exact K0. replace (u - (M + 1)) with (u - M - 1) by lia. lra. }
        rewrite E1. rewrite (map_ext _ sh E1). reflexivity. }
      unfold soft_within. rewrite ES.
      pose proof (soft_near (ulp k) a q _ _ _ T _ _ Hu Ha Q0 EB ltac:(apply total_ge, in_map, Iv) T1 ER HS WN Rw) as F. eapply Rle_trans; [exact F|].
      unfold a. replace ((45 + 4 * INR (length vs)) * ulp k)%R with (45 * ulp k + 4 * q)%R by (unfold q; ring). lra. }
  intros zs Hz. exact Hz.
Qed.
End Soft.
