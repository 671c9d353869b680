(** C112: ABY3's logarithm. *)
From Coq Require Import Reals Lra Psatz QArith Qreals.
From Verif Require Import Base TensorModel TensorProofs Aby3Model Aby3Spec Aby3Proofs Aby3NetModel FpLogSpec FpLogProofs Aby3Props SigModel SigSpec PolyModel PolySpec PolyReal PolyProofs PolyProps ChebReal ChebFit LnModel LnSpec LnProofs.
Local Open Scope Z_scope.

(** Share by share computation gives the polynomial, on one machine or three. *)
Theorem C112_polynomial : forall prf colo encode n k x u B d, prf_words prf -> 0 <= k -> 2 * k + 2 <= n -> 1 < n -> arith n x u -> psc x = true ->
  (1 <= B)%R -> (Rabs (real_of k u) <= B)%R -> (0 <= d)%R -> encodes d k encode weights -> roomy n k (whole_mass d k B weights) ->
  yields (log prf colo encode k x) (fun z => psc z = true /\ exists v, arith n z v /\ (Rabs (real_of k v - value_at weights (real_of k u)) <= whole_err (fun _ => false) d k B weights)%R).
Proof. intros. apply log_near; try assumption. lia. Qed.
Print Assumptions C112_polynomial.

Lemma q0 : Q2R (-335674972 # 100000000) = (-335674972 / 100000000)%R. Proof. reflexivity. Qed.
Lemma q1 : Q2R (1279333646 # 100000000) = (1279333646 / 100000000)%R. Proof. reflexivity. Qed.
Lemma q2 : Q2R (-2618955259 # 100000000) = (-2618955259 / 100000000)%R. Proof. reflexivity. Qed.
Lemma q3 : Q2R (3024596692 # 100000000) = (3024596692 / 100000000)%R. Proof. reflexivity. Qed.
Lemma q4 : Q2R (-1730367641 # 100000000) = (-1730367641 / 100000000)%R. Proof. reflexivity. Qed.
Lemma q5 : Q2R (382474222 # 100000000) = (382474222 / 100000000)%R. Proof. reflexivity. Qed.
Lemma abs_both x a : (Rabs x <= a -> - a <= x <= a)%R.
Proof. intros H. pose proof (Rle_abs x). pose proof (Rle_abs (- x)) as N. rewrite Rabs_Ropp in N. lra. Qed.
Lemma ulp_small k j : 0 <= j <= k -> (0 < ulp k <= ulp j)%R.
Proof.
  intros H. split; [apply ulp_pos; lia|]. unfold ulp. apply Rinv_le_contravar; [apply IZR_lt, Z.pow_pos_nonneg; lia|]. apply IZR_le, Z.pow_le_mono_r; lia.
Qed.
Lemma roomy_pow n k j m : 0 <= k -> 0 <= j -> 2 * k + j + 2 <= n -> (m <= IZR (2 ^ j))%R -> roomy n k m.
Proof.
  intros Hk Hj H Hm. unfold roomy. apply Rle_trans with (IZR (2 ^ k) * IZR (2 ^ k) * IZR (2 ^ j))%R.
  - apply Rmult_le_compat_l; [|exact Hm]. rewrite <- mult_IZR. apply IZR_le. pose proof (Z.pow_pos_nonneg 2 k). nia.
  - rewrite <- !mult_IZR. apply IZR_le. rewrite <- !Z.pow_add_r by lia. apply Z.pow_le_mono_r; lia.
Qed.
Ltac powers u b := assert (0 <= u * u <= u * b)%R by nra; assert (0 <= u * u * u <= u * b)%R by nra; assert (0 <= u * u * u * u <= u * b)%R by nra;
  assert (0 <= u * u * u * u * u <= u * b)%R by nra; assert (0 <= u * u * u * u * u * u <= u * b)%R by nra.
Ltac abs_all := rewrite ?q0, ?q1, ?q2, ?q3, ?q4, ?q5, ?(Rabs_left (-335674972 / 100000000)), ?(Rabs_left (-2618955259 / 100000000)), ?(Rabs_left (-1730367641 / 100000000)),
  ?(Rabs_right (1279333646 / 100000000)), ?(Rabs_right (3024596692 / 100000000)), ?(Rabs_right (382474222 / 100000000)) by lra.
Lemma err_at k B : 8 <= k -> (B = 1 \/ B = 2)%R -> (whole_err (fun _ => false) (ulp k) k B weights <= (if Rle_dec B 1 then 170 else 1400) * ulp k)%R.
Proof.
  intros Hk HB. pose proof (ulp_small k 8 ltac:(lia)) as U. change (ulp 8) with (/ 256)%R in U. set (u := ulp k) in *.
  unfold weights. cbn [whole_err terms_err]. unfold term_err, power_err. fold u.
  change (Qeq_bool (1279333646 # 100000000) 0) with false. change (Qeq_bool (-2618955259 # 100000000) 0) with false. change (Qeq_bool (3024596692 # 100000000) 0) with false.
  change (Qeq_bool (-1730367641 # 100000000) 0) with false. change (Qeq_bool (382474222 # 100000000) 0) with false. cbv iota. abs_all. powers u (/ 256)%R.
  destruct HB as [-> | ->]; destruct (Rle_dec _ _); try lra.
Qed.
Lemma mass_at k B : 8 <= k -> (B = 1 \/ B = 2)%R -> (whole_mass (ulp k) k B weights <= if Rle_dec B 1 then 128 else 1024)%R.
Proof.
  intros Hk HB. pose proof (ulp_small k 8 ltac:(lia)) as U. change (ulp 8) with (/ 256)%R in U. set (u := ulp k) in *.
  unfold weights. cbn [whole_mass mass]. fold u.
  change (Qeq_bool (1279333646 # 100000000) 0) with false. change (Qeq_bool (-2618955259 # 100000000) 0) with false. change (Qeq_bool (3024596692 # 100000000) 0) with false.
  change (Qeq_bool (-1730367641 # 100000000) 0) with false. change (Qeq_bool (382474222 # 100000000) 0) with false. cbv iota. abs_all. powers u (/ 256)%R.
  destruct HB as [-> | ->]; destruct (Rle_dec _ _); try lra.
Qed.
Lemma value_fit x : (0.1 <= x <= 1)%R -> (Rabs (value_at weights x - ln x) <= 0.0551)%R.
Proof.
  intros H. pose proof (log100_fit x H) as L. unfold weights, value_at. cbn [fold_right]. rewrite q0, q1, q2, q3, q4, q5. cbn [ev log100] in L.
  assert (P2 : (0 <= x * x <= 1)%R) by nra. assert (P3 : (0 <= x * x * x <= 1)%R) by nra. assert (P4 : (0 <= x * x * x * x <= 1)%R) by nra. assert (P5 : (0 <= x * x * x * x * x <= 1)%R) by nra.
  apply Rabs_le. apply abs_both in L. lra.
Qed.

(** Between 1/10 and 1 the result is the natural logarithm to 0.0551 and 170 units. *)
Theorem C112_log : forall prf colo encode n k x u, prf_words prf -> 8 <= k -> 2 * k + 9 <= n -> arith n x u -> psc x = true -> encodes (ulp k) k encode weights ->
  (0.1 <= real_of k u <= 1)%R ->
  yields (log prf colo encode k x) (fun z => psc z = true /\ exists v, arith n z v /\ (Rabs (real_of k v - ln (real_of k u)) <= 0.0551 + 170 * ulp k)%R).
Proof.
  intros prf colo encode n k x u Hp Hk Hn Hx Sx HE HX. pose proof (ulp_pos k ltac:(lia)) as [U _].
  eapply y_weaken; [apply (C112_polynomial prf colo encode n k x u 1 (ulp k)); try assumption; try lia; try lra; [apply Rabs_le; lra|]|].
  - apply (roomy_pow n k 7); try lia. pose proof (mass_at k 1 Hk ltac:(auto)) as M. destruct (Rle_dec 1 1); [exact M|lra].
  - intros z (Sz & v & Az & G). split; [exact Sz|]. exists v. split; [exact Az|]. pose proof (err_at k 1 Hk ltac:(auto)) as E. destruct (Rle_dec 1 1); [|lra].
    pose proof (value_fit _ HX) as F. replace (real_of k v - ln (real_of k u))%R with ((value_at weights (real_of k u) - ln (real_of k u)) + (real_of k v - value_at weights (real_of k u)))%R by ring.
    eapply Rle_trans; [apply Rabs_triang|]. lra.
Qed.
Print Assumptions C112_log.

(** Below 1/1000 it is not: the logarithm is below -6 and the result above -4. *)
Theorem C112_small_refuted : forall prf colo encode n k x u, prf_words prf -> 10 <= k -> 2 * k + 9 <= n -> arith n x u -> psc x = true -> encodes (ulp k) k encode weights ->
  (0 < real_of k u <= 0.001)%R ->
  yields (log prf colo encode k x) (fun z => psc z = true /\ exists v, arith n z v /\ (-4 < real_of k v)%R /\ (ln (real_of k u) < -6)%R).
Proof.
  intros prf colo encode n k x u Hp Hk Hn Hx Sx HE HX. pose proof (ulp_small k 10 ltac:(lia)) as U. change (ulp 10) with (/ 1024)%R in U.
  eapply y_weaken; [apply (C112_polynomial prf colo encode n k x u 1 (ulp k)); try assumption; try lia; try lra; [apply Rabs_le; lra|]|].
  - apply (roomy_pow n k 7); try lia. pose proof (mass_at k 1 ltac:(lia) ltac:(auto)) as M. destruct (Rle_dec 1 1); [exact M|lra].
  - intros z (Sz & v & Az & G). split; [exact Sz|]. exists v. split; [exact Az|]. pose proof (err_at k 1 ltac:(lia) ltac:(auto)) as E. destruct (Rle_dec 1 1); [|lra].
    split.
    + unfold weights, value_at in G. cbn [fold_right] in G. rewrite q0, q1, q2, q3, q4, q5 in G. fold weights in G. set (y := real_of k u) in *.
      assert (P2 : (0 <= y * y <= y * 0.001)%R) by nra. assert (P3 : (0 <= y * y * y <= y * 0.001)%R) by nra. assert (P4 : (0 <= y * y * y * y <= y * 0.001)%R) by nra. assert (P5 : (0 <= y * y * y * y * y <= y * 0.001)%R) by nra.
      pose proof (Rle_trans _ _ _ G E) as G2. apply abs_both in G2. lra.
    + apply Rle_lt_trans with (ln 0.001); [destruct (Rle_lt_or_eq_dec _ _ (proj2 HX)) as [L|L]; [left; apply ln_increasing; lra|rewrite L; lra]|].
      rewrite <- (ln_exp (-6)). apply ln_increasing; [lra|]. replace (-6)%R with (- (1 + 1 + 1 + 1 + 1 + 1))%R by lra. rewrite exp_Ropp, !exp_plus. pose proof exp_le_3 as T. pose proof (exp_pos 1) as T0.
      set (e := exp 1) in *. assert (e * e <= 9)%R by nra. assert (e * e * e * e * e * e <= 729)%R by (replace (e * e * e * e * e * e)%R with ((e * e) * (e * e) * (e * e))%R by ring; set (s := (e * e)%R) in *; assert (0 < s)%R by (unfold s; nra); assert (s * s <= 81)%R by nra; nra).
      assert (0 < e * e * e * e * e * e)%R by (repeat apply Rmult_lt_0_compat; assumption).
      apply Rlt_le_trans with (/ 729)%R; [lra|]. apply Rinv_le_contravar; assumption.
Qed.
Print Assumptions C112_small_refuted.

(** Above 1 it is not either: the logarithm of 2 is below 1 and the result above 3. *)
Theorem C112_two_refuted : forall prf colo encode n k x u, prf_words prf -> 10 <= k -> 2 * k + 12 <= n -> arith n x u -> psc x = true -> encodes (ulp k) k encode weights ->
  real_of k u = 2%R ->
  yields (log prf colo encode k x) (fun z => psc z = true /\ exists v, arith n z v /\ (3 < real_of k v)%R /\ (ln (real_of k u) < 1)%R).
Proof.
  intros prf colo encode n k x u Hp Hk Hn Hx Sx HE HX. pose proof (ulp_small k 10 ltac:(lia)) as U. change (ulp 10) with (/ 1024)%R in U.
  eapply y_weaken; [apply (C112_polynomial prf colo encode n k x u 2 (ulp k)); try assumption; try lia; try lra; [rewrite HX; apply Rabs_le; lra|]|].
  - apply (roomy_pow n k 10); try lia. pose proof (mass_at k 2 ltac:(lia) ltac:(auto)) as M. destruct (Rle_dec 2 1); [lra|exact M].
  - intros z (Sz & v & Az & G). split; [exact Sz|]. exists v. split; [exact Az|]. pose proof (err_at k 2 ltac:(lia) ltac:(auto)) as E. destruct (Rle_dec 2 1); [lra|].
    split.
    + rewrite HX in G. unfold weights, value_at in G. cbn [fold_right] in G. rewrite q0, q1, q2, q3, q4, q5 in G. fold weights in G.
      pose proof (Rle_trans _ _ _ G E) as G2. apply abs_both in G2. lra.
    + rewrite HX. rewrite <- (ln_exp 1). apply ln_increasing; [lra|]. pose proof (exp_ineq1 1 ltac:(lra)). lra.
Qed.
Print Assumptions C112_two_refuted.

(** ** Instances *)
(** 16 fractional bits of 64-bit words: 1/2, 1/2048 and 2 meet the hypotheses, with coefficients cut to 16 bits. *)
Example C112_cases : encodes (ulp 16) 16 (cut 16) weights /\ 8 <= 16 /\ 2 * 16 + 12 <= 64 /\ (0.1 <= real_of 16 32768 <= 1)%R /\ (0 < real_of 16 32 <= 0.001)%R /\ real_of 16 131072 = 2%R.
Proof. split; [apply C108_encodes; lia|]. split; [lia|]. split; [lia|]. unfold real_of. change (2 ^ 16) with 65536. repeat split; lra. Qed.
Definition ex_log (v : Z) : option Z :=
  match snd (bind (share ex_prf false Arith (FI 64) v true) (log ex_prf false (cut 16) 16) ex_st) with
  | Ok z => Some (swrap 64 (vz (p00 z) + vz (p10 z) + vz (p20 z)))
  | _ => None end.
(** The logarithms of 1/2 (-0.689), 1/2048 (-3.35) and 2 (4.97) on three machines. *)
Example C112_runs : map ex_log [32768; 32; 131072] = [Some (-45134); Some (-219578); Some 325848].
Proof. vm_compute. reflexivity. Qed.
