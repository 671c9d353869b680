(** Single-precision quotient estimate of the explicit CRT (int100.py 98-103, 132-137):
    each t_i is cast to float32 (exact, t_i < 2^24) and divided by m_i, the quotients are
    added in float32 in some order (tf.reduce_sum does not fix it), and the sum is rounded
    to the nearest integer, ties to even.  Rounding is IEEE-754 binary32 round-to-nearest-even
    as formalised by Flocq ([FLT_exp (-149) 24]); no overflow or NaN can occur as all values
    lie in [0, 16). *)
From Coq Require Import Reals Lra Permutation.
From Flocq Require Import Core.
From Verif Require Import Base TensorModel TensorProofs CrtModel CrtProofs.
Local Open Scope R_scope.

(** binary32 rounding. *)
Definition rnd32 (x : R) : R := round radix2 (FLT_exp (-149) 24) ZnearestE x.
(** int100.py 134 [tf.cast(ti, tf.float32) / mi]. *)
Definition fdiv32 (t m : Z) : R := rnd32 (IZR t / IZR m).
(** int100.py 133 [tf.reduce_sum]: any association and any order of float32 additions. *)
Inductive fsum32 : list R -> R -> Prop :=
| fs_one a : fsum32 [a] a
| fs_add l1 l2 a b : fsum32 l1 a -> fsum32 l2 b -> fsum32 (l1 ++ l2) (rnd32 (a + b))
| fs_perm l l' a : Permutation l l' -> fsum32 l a -> fsum32 l' a.
(** int100.py 132 [tf.round]. *)
Definition is_estimate32 (ms : list Z) (est : list Z -> Z) : Prop :=
  forall t, crt_wf ms t -> exists s, fsum32 (zip2 fdiv32 t ms) s /\ est t = ZnearestE s.

#[local] Instance prec24 : Prec_gt_0 24. Proof. red; lia. Qed.
#[local] Instance vexp24 : Valid_exp (FLT_exp (-149) 24) := FLT_exp_valid (-149) 24.

Lemma rnd32_err x e : (-100 <= e)%Z -> Rabs x < bpow radix2 e -> Rabs (rnd32 x - x) <= bpow radix2 (e - 25).
Proof.
  intros He Hx. destruct (Req_dec x 0) as [->|Hn].
  - unfold rnd32. rewrite round_0 by apply valid_rnd_N. rewrite Rminus_0_r, Rabs_R0. apply bpow_ge_0.
  - unfold rnd32. eapply Rle_trans; [apply error_le_half_ulp; apply vexp24|].
    rewrite ulp_neq_0 by exact Hn. unfold cexp.
    assert (Hm : (mag radix2 x <= e)%Z) by (apply mag_le_bpow; assumption).
    replace (bpow radix2 (e - 25)) with (/ 2 * bpow radix2 (e - 24)).
    + apply Rmult_le_compat_l; [lra|]. apply bpow_le. unfold FLT_exp. lia.
    + change (/ 2) with (bpow radix2 (-1)). rewrite <- bpow_plus. f_equal. lia.
Qed.

Lemma rnd32_unit x : 0 <= x <= 1 -> 0 <= rnd32 x <= 1.
Proof.
  intros [H0 H1]. unfold rnd32. split.
  - apply round_ge_generic; [apply vexp24|apply valid_rnd_N|apply generic_format_0|exact H0].
  - apply round_le_generic; [apply vexp24|apply valid_rnd_N| |exact H1].
    change 1 with (bpow radix2 0). apply generic_format_bpow. vm_compute. congruence.
Qed.

(** Sum of a list of reals. *)
Definition rsum (l : list R) : R := fold_right Rplus 0 l.
Lemma rsum_app a b : rsum (a ++ b) = rsum a + rsum b.
Proof. unfold rsum. induction a; cbn; [ring|]. rewrite IHa. ring. Qed.
Lemma rsum_perm l l' : Permutation l l' -> rsum l = rsum l'.
Proof. unfold rsum. induction 1; cbn; lra. Qed.
Lemma rsum_range l : Forall (fun x => 0 <= x <= 1) l -> 0 <= rsum l <= INR (length l).
Proof.
  unfold rsum. induction 1; [cbn; lra|]. cbn [fold_right length]. rewrite S_INR. lra.
Qed.

Definition d21 : R := bpow radix2 (-21).
Lemma d21_val : d21 = / 2097152. Proof. reflexivity. Qed.

Lemma fsum32_err l s : fsum32 l s -> Forall (fun x => 0 <= x <= 1) l -> (length l <= 14)%nat ->
  (1 <= length l)%nat /\ Rabs (s - rsum l) <= (INR (length l) - 1) * d21.
Proof.
  induction 1 as [a|l1 l2 a b H1 IH1 H2 IH2|l l' a HP H IH]; intros HF HL.
  - cbn. split; [lia|]. replace (a - (a + 0)) with 0 by ring. rewrite Rabs_R0. lra.
  - apply Forall_app in HF. destruct HF as [F1 F2]. rewrite app_length in HL.
    destruct (IH1 F1 ltac:(lia)) as [L1 E1]. destruct (IH2 F2 ltac:(lia)) as [L2 E2].
    pose proof (rsum_range l1 F1) as R1. pose proof (rsum_range l2 F2) as R2.
    rewrite app_length, plus_INR, rsum_app. split; [lia|].
    assert (B1 : INR (length l1) + INR (length l2) <= 14).
    { rewrite <- plus_INR. apply (le_INR _ 14) in HL. replace (INR 14) with 14 in HL by (cbn; lra). exact HL. }
    assert (P1 : 1 <= INR (length l1)) by (apply (le_INR 1) in L1; exact L1).
    assert (P2 : 1 <= INR (length l2)) by (apply (le_INR 1) in L2; exact L2).
    rewrite d21_val in *.
    assert (Hlt : Rabs (a + b) < bpow radix2 4).
    { change (bpow radix2 4) with 16. apply Rabs_le_inv in E1. apply Rabs_le_inv in E2. apply Rabs_def1; nra. }
    pose proof (rnd32_err (a + b) 4 ltac:(lia) Hlt) as Er. change (bpow radix2 (4 - 25)) with d21 in Er.
    rewrite d21_val in Er. apply Rabs_le_inv in E1. apply Rabs_le_inv in E2. apply Rabs_le_inv in Er.
    apply Rabs_le. lra.
  - assert (F : Forall (fun x => 0 <= x <= 1) l).
    { rewrite Forall_forall in *. intros x Hx. apply HF. eapply Permutation_in; eauto. }
    rewrite <- (rsum_perm _ _ HP). rewrite <- (Permutation_length HP) in *. apply IH; [exact F|lia].
Qed.

Lemma fdiv32_err t m : (0 <= t < m)%Z -> Rabs (fdiv32 t m - IZR t / IZR m) <= bpow radix2 (-24).
Proof.
  intros H. unfold fdiv32. apply (rnd32_err (IZR t / IZR m) 1 ltac:(lia)).
  assert (0 < IZR m) by (apply IZR_lt; lia). assert (0 <= IZR t) by (apply IZR_le; lia).
  assert (IZR t < IZR m) by (apply IZR_lt; lia).
  assert (Hq : 0 <= IZR t / IZR m < 1).
  { split; [apply Rle_mult_inv_pos; lra|]. apply (Rmult_lt_reg_r (IZR m)); [lra|]. unfold Rdiv.
    rewrite Rmult_assoc, Rinv_l by lra. lra. }
  change (bpow radix2 1) with 2. apply Rabs_def1; lra.
Qed.

Lemma quot_unit t m : (0 <= t < m)%Z -> 0 <= IZR t / IZR m <= 1.
Proof.
  intros H. assert (0 < IZR m) by (apply IZR_lt; lia). assert (0 <= IZR t) by (apply IZR_le; lia).
  assert (IZR t < IZR m) by (apply IZR_lt; lia).
  split; [apply Rle_mult_inv_pos; lra|]. apply (Rmult_le_reg_r (IZR m)); [lra|]. unfold Rdiv.
  rewrite Rmult_assoc, Rinv_l by lra. lra.
Qed.

Lemma zip_fdiv32 t ms : crt_wf ms t ->
  Forall (fun x => 0 <= x <= 1) (zip2 fdiv32 t ms) /\ length (zip2 fdiv32 t ms) = length ms /\
  Rabs (rsum (zip2 fdiv32 t ms) - rsum (zip2 (fun t m => IZR t / IZR m) t ms)) <= INR (length ms) * bpow radix2 (-24).
Proof.
  induction 1 as [|a m t ms Ha W IH]; cbn [zip2 length].
  - split; [constructor|]. split; [reflexivity|]. cbn. rewrite Rminus_0_r, Rabs_R0. lra.
  - destruct IH as (I1 & I2 & I3). split; [|split].
    + constructor; [|exact I1]. apply rnd32_unit, quot_unit, Ha.
    + rewrite I2. reflexivity.
    + rewrite S_INR. unfold rsum in *. cbn [fold_right]. pose proof (fdiv32_err a m Ha) as E.
      apply Rabs_le_inv in I3. apply Rabs_le_inv in E. apply Rabs_le. lra.
Qed.

Lemma num_quot ms t : crt_ok ms -> crt_wf ms t ->
  IZR (crt_num ms t) = rsum (zip2 (fun t m => IZR t / IZR m) t ms) * IZR (prodZ ms).
Proof.
  intros Hok. unfold crt_num.
  assert (G : forall l t, incl l ms -> crt_wf l t ->
    IZR (zsum (zip2 (fun ti m => (ti * (prodZ ms / m))%Z) t l)) =
    rsum (zip2 (fun t m => IZR t / IZR m) t l) * IZR (prodZ ms)).
  { intros l t' Hl W. induction W as [|a m t' l Ha W IH].
    - cbn. ring.
    - cbn [zip2 zsum fold_right rsum]. change (fold_right Z.add 0%Z) with zsum. change (fold_right Rplus 0) with rsum.
      rewrite plus_IZR, IH by (intros z Hz; apply Hl; now right). rewrite mult_IZR.
      assert (Hm : In m ms) by (apply Hl; now left). destruct (in_prod_divide m ms Hm) as [c Hc].
      assert (Ec : (prodZ ms / m)%Z = c) by (rewrite Hc; apply Z.div_mul; lia). rewrite Ec, Hc, mult_IZR.
      assert (IZR m <> 0) by (apply IZR_neq; lia). field. assumption. }
  intros W. apply G; [apply incl_refl|exact W].
Qed.

(** The estimate is within 1/2 + 2^-17 of the exact quotient (for at most 14 moduli). *)
Lemma est32_ok ms est : crt_ok ms -> (length ms <= 14)%nat -> is_estimate32 ms est ->
  est_ok (prodZ ms / 2 ^ 17 + 1) ms est.
Proof.
  intros Hok HL He t W. pose proof Hok as (_ & F & _). pose proof (prodZ_pos ms F) as HP.
  destruct (He t W) as (s & Hs & ->).
  destruct (zip_fdiv32 t ms W) as (Z1 & Z2 & Z3).
  destruct (fsum32_err _ s Hs Z1 ltac:(rewrite Z2; exact HL)) as [_ Es]. rewrite Z2 in Es.
  pose proof (Znearest_half (fun x => negb (Z.even x)) s) as Eh.
  pose proof (num_quot ms t Hok W) as En.
  set (Q := rsum (zip2 (fun t m => IZR t / IZR m) t ms)) in *. set (M := prodZ ms) in *.
  assert (HM : 0 < IZR M) by (apply IZR_lt; exact HP).
  assert (BL : INR (length ms) <= 14).
  { apply (le_INR _ 14) in HL. replace (INR 14) with 14 in HL by (cbn; lra). exact HL. }
  assert (E : Rabs (IZR (ZnearestE s) - Q) <= / 2 + / 131072).
  { rewrite d21_val in Es. change (bpow radix2 (-24)) with (/ 16777216) in Z3.
    apply Rabs_le_inv in Es. apply Rabs_le_inv in Z3. apply Rabs_le_inv in Eh.
    apply Rabs_le. lra. }
  set (e := ZnearestE s) in *.
  assert (Hfin : Rabs (IZR (e * M - crt_num ms t)) <= (/ 2 + / 131072) * IZR M).
  { rewrite minus_IZR, mult_IZR, En. replace (IZR e * IZR M - Q * IZR M) with ((IZR e - Q) * IZR M) by ring.
    rewrite Rabs_mult, (Rabs_right (IZR M)) by lra. apply Rmult_le_compat_r; lra. }
  rewrite <- abs_IZR in Hfin.
  assert (H2 : (131072 * Z.abs (e * M - crt_num ms t) <= 65537 * M)%Z).
  { apply le_IZR. rewrite !mult_IZR. lra. }
  change (2 ^ 17)%Z with 131072%Z.
  pose proof (Z.div_mod M 131072 ltac:(lia)). pose proof (Z.mod_pos_bound M 131072 ltac:(lia)).
  revert H2. generalize (Z.abs (e * M - crt_num ms t)). intros A H2. lia.
Qed.

(** Such estimates exist: add the quotients from left to right. *)
Definition est32_seq (ms t : list Z) : Z :=
  match zip2 fdiv32 t ms with [] => 0 | a :: l => ZnearestE (fold_left (fun s x => rnd32 (s + x)) l a) end.
Lemma est32_exists ms : ms <> [] -> is_estimate32 ms (est32_seq ms).
Proof.
  intros Hne t W. unfold est32_seq. destruct W as [|a m t ms Ha W]; [congruence|]. cbn [zip2].
  eexists. split; [|reflexivity].
  assert (G : forall l l0 s, fsum32 l0 s -> fsum32 (l0 ++ l) (fold_left (fun s x => rnd32 (s + x)) l s)).
  { induction l as [|x l IH]; intros l0 s H; cbn [fold_left]; [rewrite app_nil_r; exact H|].
    replace (l0 ++ x :: l) with ((l0 ++ [x]) ++ l) by (rewrite <- app_assoc; reflexivity).
    apply IH. apply fs_add; [exact H|constructor]. }
  apply (G _ [_]). constructor.
Qed.
