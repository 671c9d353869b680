(** Proofs about the polynomial of ABY3's exponentials. *)
From Coq Require Import Reals Lra Psatz.
From Verif Require Import Base TensorModel TensorProofs Aby3Model Aby3Spec Aby3Proofs Aby3Bits Aby3Circ Aby3Cmp Aby3Trunc Aby3NetModel Aby3NetSpec Aby3Net FpModel FpSpec FpProofs FpRecip FpLogModel FpLogReal FpLogSpec FpLogProofs FpLogMain FpSqrtProofs FpExpModel FpExpSpec FpExpReal.
Open Scope Z_scope.

(** * Powers of a number below 1 *)
Lemma pow_word k A B r : 0 < k -> Z.abs A <= 2 ^ k - 1 -> Z.abs B <= 2 ^ k - 1 -> rounded k (A * B) r -> Z.abs r <= 2 ^ k - 1.
Proof.
  intros Hk HA HB [Hr _]. assert (S : 2 <= 2 ^ k) by (change 2 with (2 ^ 1) at 1; apply Z.pow_le_mono_r; lia). set (s := 2 ^ k) in *. clearbody s.
  assert (P : Z.abs (A * B) <= (s - 1) * (s - 1)) by (rewrite Z.abs_mul; apply Z.mul_le_mono_nonneg; lia).
  assert (U : A * B / s <= s - 2). { apply Z.lt_succ_r, Z.div_lt_upper_bound; [lia|]. nia. }
  assert (L : - s + 1 <= A * B / s). { apply Z.div_le_lower_bound; [lia|]. nia. }
  destruct Hr as [-> | ->]; lia.
Qed.
Lemma word_real k A : 0 <= k -> Z.abs A <= 2 ^ k - 1 -> (Rabs (real_of k A) <= 1)%R.
Proof.
  intros Hk H. unfold real_of, Rdiv. assert (P : (0 < IZR (2 ^ k))%R) by (apply IZR_lt, pow2_pos, Hk).
  rewrite Rabs_mult, (Rabs_right (/ _)) by (left; apply Rinv_0_lt_compat, P). rewrite <- abs_IZR.
  apply (Rmult_le_reg_r (IZR (2 ^ k)) _ _ P). rewrite Rmult_assoc, Rinv_l, Rmult_1_r, Rmult_1_l by lra. apply IZR_le. lia.
Qed.

(** The coefficient of degree [j]. *)
Definition coef (j : nat) : R := nth (j - 1) published 0%R.
(** The sum of the terms of the degrees [js]. *)
Definition rsum (f : R) (js : list nat) : R := fold_right (fun j a => coef j * f ^ j + a)%R 0%R js.

Lemma coef_bounds j : (1 <= j <= 8)%nat -> (0 <= coef j <= 0.7 /\ INR (j - 1) * coef j <= 0.25)%R.
Proof.
  intros Hj. assert (D : j = 1%nat \/ j = 2%nat \/ j = 3%nat \/ j = 4%nat \/ j = 5%nat \/ j = 6%nat \/ j = 7%nat \/ j = 8%nat) by lia.
  destruct D as [-> | [-> | [-> | [-> | [-> | [-> | [-> | ->]]]]]]]; unfold coef; cbn [nth Nat.sub published INR]; lra.
Qed.

(** The degree that the code computes. *)
Lemma pow_mono_le a b : 0 <= a <= b -> 2 ^ a <= 2 ^ b.
Proof. intros H. apply Z.pow_le_mono_r; lia. Qed.
Lemma degree_cases k : 11 <= k -> let d := pade_degree k (rev pade_coeffs) in
  k < 13 /\ d = 5%nat \/ 13 <= k < 17 /\ d = 6%nat \/ 17 <= k < 20 /\ d = 7%nat \/ 20 <= k /\ d = 8%nat.
Proof.
  intros Hk. cbv zeta. cbn [rev app pade_coeffs pade_degree length].
  destruct (Z_lt_le_dec k 20) as [H20|H20].
  - assert (D : k = 11 \/ k = 12 \/ k = 13 \/ k = 14 \/ k = 15 \/ k = 16 \/ k = 17 \/ k = 18 \/ k = 19) by lia.
    destruct D as [-> | [-> | [-> | [-> | [-> | [-> | [-> | [-> | ->]]]]]]]]; clear;
      solve [left; split; [lia|reflexivity] | right; left; split; [lia|reflexivity] | right; right; left; split; [lia|reflexivity]].
  - right. right. right. split; [exact H20|]. pose proof (pow_mono_le 20 k ltac:(lia)) as P. change (2 ^ 20) with 1048576 in P.
    destruct (Z.ltb_spec (18633 * 2 ^ k) 10000000000); [lia|reflexivity].
Qed.
(** The polynomial without the last terms. *)
Lemma Rpower2_ge1 t : (0 <= t -> 1 <= Rpower 2 t)%R.
Proof.
  intros Ht. rewrite <- (Rpower_O 2) by lra. unfold Rpower. destruct (Req_dec t 0) as [-> | Hn]; [apply Rle_refl|].
  left. apply exp_increasing. pose proof ln2_tight. nra.
Qed.
Lemma pow01 t i : (0 <= t <= 1 -> 0 <= t ^ i <= 1)%R.
Proof. intros H. split; [apply pow_le; lra|]. rewrite <- (pow1 i). apply pow_incr. lra. Qed.
Lemma rsum_near k t : 11 <= k -> (0 <= t <= 1)%R ->
  (Rabs (1 + rsum t (seq 1 (pade_degree k (rev pade_coeffs) - 1)) - Rpower 2 t) <= pade_error k * Rpower 2 t)%R.
Proof.
  intros Hk Ht. pose proof (pade_near t Ht) as N. pose proof (Rpower2_ge1 t (proj1 Ht)) as P. set (p := Rpower 2 t) in *. clearbody p.
  unfold pade in N.
  pose proof (pow01 t 5 Ht) as P5. pose proof (pow01 t 6 Ht) as P6. pose proof (pow01 t 7 Ht) as P7. pose proof (pow01 t 8 Ht) as P8.
  unfold pade_error. apply abs2.
  destruct (degree_cases k Hk) as [(K & ->) | [(K & ->) | [(K & ->) | (K & ->)]]]; cbn [Nat.sub seq];
    unfold rsum; cbn [fold_right]; unfold coef; cbn [nth Nat.sub published]; cbn [pow] in *.
  - destruct (Z.ltb_spec k 13); [|lia]. lra.
  - destruct (Z.ltb_spec k 13); [lia|]. destruct (Z.ltb_spec k 17); [|lia]. lra.
  - destruct (Z.ltb_spec k 13); [lia|]. destruct (Z.ltb_spec k 17); [lia|]. destruct (Z.ltb_spec k 20); [|lia]. lra.
  - destruct (Z.ltb_spec k 13); [lia|]. destruct (Z.ltb_spec k 17); [lia|]. destruct (Z.ltb_spec k 20); [lia|]. lra.
Qed.

Section Ops.
Context (prf : fac -> key -> Z -> nat -> Z) (colo : bool) (Hprf : prf_words prf).
Context (n k : Z) (Hcfg : exp_config n k).

Lemma ex_facts : 1 < n /\ 0 < n /\ 0 <= k /\ k + k <= n - 2 /\ 0 < k /\ 3 * k + 1 < n - 2 /\ 11 <= k /\ k < n /\ k + 34 <= n - 2 /\ adder_size n /\ fp_config n k (k + 1) /\ (0 < ulp k <= / 2048)%R.
Proof.
  clear prf colo Hprf. destruct Hcfg as (Ha & Hk & Hn). assert (N : 1 < n) by (destruct Ha; lia). assert (N34 : k + 34 <= n - 2) by (destruct Ha; lia).
  repeat (split; [lia|]). split; [exact Ha|]. split; [unfold fp_config; split; [exact Ha|]; lia|].
  pose proof (scale_R k Hk) as H. unfold ulp. split; [apply Rinv_0_lt_compat; lra|]. apply Rinv_le_contravar; lra.
Qed.

(** A power of [f], computed. *)
Definition pow_ok (f : R) (i : nat) (p : priv) : Prop :=
  psc p = true /\ exists X, arith n p X /\ Z.abs X <= 2 ^ k - 1 /\ (Rabs (real_of k X - f ^ i) <= INR (i - 1) * ulp k)%R.

Lemma pow_mul f a b p q : (0 <= f <= 1)%R -> (0 < a)%nat -> (0 < b)%nat -> pow_ok f a p -> pow_ok f b q ->
  yields (mul_pp prf colo k p q) (pow_ok f (a + b)).
Proof.
  intros Hf Ha Hb (Sp & A & HA & WA & EA) (Sq & B & HB & WB & EB).
  destruct ex_facts as (N1 & N0 & K0 & KK & K1 & N3 & K11 & Kn & N34 & Had & Fc & Hu). pose proof (scale_R k K11) as Hsc.
  pose proof (word_real k A K0 WA) as RA. pose proof (word_real k B K0 WB) as RB.
  eapply y_weaken. { apply (mul_round prf colo Hprf n k p q A B N1 K0 KK HA HB Sp Sq). apply (fits_real n k _ _ (1 * 1) K1 N3); [apply Rmult_le_compat; auto using Rabs_pos|lra]. }
  intros z (Sz & r & Rr & Hz). split; [exact Sz|]. exists r. split; [exact Hz|]. split; [exact (pow_word k A B r K1 WA WB Rr)|].
  apply (real_mul k _ _ _ K0) in Rr. rewrite pow_add. pose proof (prod_err _ _ _ _ _ _ _ EA EB RB) as PE.
  pose proof (pow01 f a Hf) as Pa. rewrite (Rabs_right (f ^ a)) in PE by lra.
  assert (E : (INR (a + b - 1) = INR (a - 1) + INR (b - 1) + 1)%R). { replace (a + b - 1)%nat with (S ((a - 1) + (b - 1))) by lia. rewrite S_INR, plus_INR. ring. }
  rewrite E. pose proof (pos_INR (b - 1)) as Ib. assert (0 <= INR (b - 1) * ulp k)%R by (apply Rmult_le_pos; lra).
  apply abs2 in PE, Rr. apply abs2. nra.
Qed.

Lemma pade_pows_ok f r : (0 <= f <= 1)%R -> forall i x ps, (2 <= i)%nat -> length ps = (i - 1)%nat ->
  (forall j, (j < length ps)%nat -> pow_ok f (S j) (nth j ps x)) ->
  yields (pade_pows prf colo k r i x ps) (fun qs => length qs = (i - 1 + r)%nat /\ forall j, (j < length qs)%nat -> pow_ok f (S j) (nth j qs x)).
Proof.
  intros Hf. induction r as [|r IH]; intros i x ps Hi Hl Hp; cbn [pade_pows].
  - apply y_ret. split; [lia|exact Hp].
  - pose proof (Nat.div2_odd i) as Ei. pose proof (Nat.div2_odd (i + 1)) as Ei1.
    assert (Eo : Nat.odd (i + 1) = negb (Nat.odd i)) by (rewrite Nat.add_1_r, Nat.odd_succ, <- Nat.negb_odd; reflexivity).
    assert (S1 : (Nat.div2 i + Nat.div2 (i + 1) = i)%nat) by (rewrite Eo in Ei1; destruct (Nat.odd i); cbn [Nat.b2n negb] in *; lia).
    assert (B1 : (1 <= Nat.div2 i <= i - 1)%nat) by (destruct (Nat.odd i); cbn [Nat.b2n] in *; lia).
    assert (B2 : (1 <= Nat.div2 (i + 1) <= i - 1)%nat) by lia.
    eapply yb. { apply (pow_mul f (Nat.div2 i) (Nat.div2 (i + 1))); [exact Hf|lia|lia| |].
      - replace (Nat.div2 i) with (S (Nat.div2 i - 1)) at 1 by lia. apply Hp. lia.
      - replace (Nat.div2 (i + 1)) with (S (Nat.div2 (i + 1) - 1)) at 1 by lia. apply Hp. lia. }
    rewrite S1. intros p Pp. eapply y_weaken.
    { apply (IH (S i) x (ps ++ [p])); [lia|rewrite app_length; cbn [length]; lia|].
      intros j Hj. rewrite app_length in Hj. cbn [length] in Hj. destruct (Nat.eq_dec j (length ps)) as [-> | Hne].
      - rewrite nth_middle. rewrite Hl. replace (S (i - 1)) with i by lia. exact Pp.
      - rewrite app_nth1 by lia. apply Hp. lia. }
    intros qs (L & Q). split; [lia|exact Q].
Qed.

(** A term of the polynomial, computed. *)
Definition term_ok (f : R) (y : priv) (j : nat) : Prop :=
  psc y = true /\ exists Y, arith n y Y /\ (Rabs (real_of k Y - coef j * f ^ j) <= 2.25 * ulp k)%R.
Lemma pade_term_ok f p c j : (0 <= f <= 1)%R -> (1 <= j <= 8)%nat -> pow_ok f j p -> encodes k c (coef j) ->
  yields (pade_term prf colo k (p, c)) (fun y => term_ok f y j).
Proof.
  intros Hf Hj (Sp & A & HA & WA & EA) Hc. destruct ex_facts as (N1 & N0 & K0 & KK & K1 & N3 & K11 & Kn & N34 & Had & Fc & Hu). pose proof (scale_R k K11) as Hsc.
  apply (real_enc k _ _ K0) in Hc. destruct (coef_bounds j Hj) as (Cb & Cj).
  assert (Bc : (Rabs (real_of k c) <= 1)%R) by (apply abs2; apply abs2 in Hc; lra).
  pose proof (word_real k A K0 WA) as RA.
  unfold pade_term. cbn [fst snd]. assert (Fp : pfc p = FI n) by apply HA. rewrite Fp.
  eapply yb; [apply (konst colo n k _ Fc c 1 Bc); lra|]. intros w (Hw & Sw).
  eapply y_weaken. { apply (mul_pq_round prf colo Hprf n k p w A c N1 K0 KK HA Hw Sp Sw). apply (fits_real n k _ _ (1 * 1) K1 N3); [apply Rmult_le_compat; auto using Rabs_pos|lra]. }
  intros z (Sz & r & Rr & Hz). split; [exact Sz|]. exists r. split; [exact Hz|]. apply (real_mul k _ _ _ K0) in Rr.
  pose proof (prod_err _ _ _ _ _ _ _ Hc EA RA) as PE. rewrite (Rabs_right (coef j)) in PE by lra.
  assert (T : (coef j * (INR (j - 1) * ulp k) <= 0.25 * ulp k)%R) by (rewrite <- Rmult_assoc, (Rmult_comm (coef j)); apply Rmult_le_compat_r; lra).
  rewrite (Rmult_comm (real_of k A)) in Rr. apply abs2 in PE, Rr. apply abs2. lra.
Qed.
Lemma pade_sum_ok f ys js : (0 <= f <= 1)%R -> Forall2 (term_ok f) ys js -> Forall (fun j => (1 <= j <= 8)%nat) js -> forall z Z0 B, arith n z Z0 -> psc z = true ->
  (Rabs (real_of k Z0) <= B)%R -> (B + INR (length js) <= 1000)%R ->
  yields (pade_sum colo z ys) (fun w => psc w = true /\ exists W, arith n w W /\ (Rabs (real_of k W - (real_of k Z0 + rsum f js)) <= 2.25 * INR (length js) * ulp k)%R).
Proof.
  intros Hf H. destruct ex_facts as (N1 & N0 & K0 & KK & K1 & N3 & K11 & Kn & N34 & Had & Fc & Hu). pose proof (scale_R k K11) as Hsc.
  induction H as [|y j ys js Hy H IH]; intros HJ z Z0 B Hz Sz HB HL; cbn [pade_sum].
  - apply y_ret. split; [exact Sz|]. exists Z0. split; [exact Hz|]. cbn [rsum fold_right length INR]. rewrite Rplus_0_r, Rminus_diag_eq, Rabs_R0 by reflexivity. lra.
  - destruct Hy as (Sy & Y & HY & EY). inversion HJ as [|? ? Hj HJ']; subst. destruct (coef_bounds j Hj) as (Cb & _). pose proof (pow01 f j Hf) as Pj.
    assert (Bt : (0 <= coef j * f ^ j <= 0.7)%R) by nra.
    cbn [length] in HL. rewrite S_INR in HL. pose proof (pos_INR (length js)) as Il.
    assert (BZ : (Rabs (real_of k (Z0 + Y)) <= B + 1)%R) by (rewrite real_add by exact K0; apply abs2; apply abs2 in HB, EY; lra).
    eapply yb; [apply (add_pp_ok colo n z y Z0 Y N0 Hz HY)|]. intros z1 (Hz1 & Sz1).
    rewrite swrap_id in Hz1; [|exact N0|exact (small_real n k _ (B + 1) K1 N3 BZ ltac:(lra))].
    eapply y_weaken; [apply (IH HJ' z1 (Z0 + Y) (B + 1)%R Hz1 ltac:(congruence) BZ); lra|].
    intros w (Sw & W & HW & EW). split; [exact Sw|]. exists W. split; [exact HW|]. rewrite real_add in EW by exact K0.
    change (rsum f (j :: js)) with (coef j * f ^ j + rsum f js)%R. cbn [length]. rewrite S_INR. apply abs2 in EW, EY. apply abs2. lra.
Qed.

(** The coefficients after the first, by degree. *)
Lemma combine_terms f ps cs x d : (d <= 8)%nat -> length ps = d -> (forall j, (j < length ps)%nat -> pow_ok f (S j) (nth j ps x)) -> excoeffs_for k cs ->
  Forall2 (fun pc j => (1 <= j <= 8)%nat /\ pow_ok f j (fst pc) /\ encodes k (snd pc) (coef j)) (combine ps cs) (seq 1 d).
Proof.
  intros Hd Hl Hp Hc.
  assert (G : forall cs rs ps s, Forall2 (encodes k) cs rs -> (forall j, (j < length ps)%nat -> pow_ok f (s + j) (nth j ps x)) ->
    (forall j, (j < length ps)%nat -> nth j rs 0%R = coef (s + j)) -> (length ps <= length rs)%nat -> (1 <= s)%nat -> (s + length ps <= 9)%nat ->
    Forall2 (fun pc j => (1 <= j <= 8)%nat /\ pow_ok f j (fst pc) /\ encodes k (snd pc) (coef j)) (combine ps cs) (seq s (length ps))).
  { clear. intros cs rs ps. revert cs rs. induction ps as [|p ps IH]; intros cs rs s Hc Hp Hr Hl Hs H9; cbn [combine length seq]; [constructor|].
    destruct Hc as [|c r cs rs Hc1 Hc]; [cbn in Hl; lia|]. cbn [length] in *. constructor.
    - cbn [fst snd]. split; [lia|]. split; [specialize (Hp O ltac:(lia)); rewrite Nat.add_0_r in Hp; exact Hp|].
      specialize (Hr O ltac:(lia)). cbn [nth] in Hr. rewrite Nat.add_0_r in Hr. rewrite <- Hr. exact Hc1.
    - apply (IH cs rs (S s)); [exact Hc| | |lia|lia|lia].
      + intros j Hj. specialize (Hp (S j) ltac:(lia)). cbn [nth] in Hp. replace (S s + j)%nat with (s + S j)%nat by lia. exact Hp.
      + intros j Hj. specialize (Hr (S j) ltac:(lia)). cbn [nth] in Hr. replace (S s + j)%nat with (s + S j)%nat by lia. exact Hr. }
  rewrite <- Hl. apply (G cs published); [exact Hc|exact Hp| |cbn [length published]; lia|lia|lia].
  intros j Hj. unfold coef. f_equal. lia.
Qed.
Lemma exp2_pade_ok cs x F : arith n x F -> psc x = true -> 0 <= F < 2 ^ k -> excoeffs_for k cs ->
  yields (exp2_pade prf colo k cs x) (fun u => psc u = true /\ exists U, arith n u U /\
    (Rabs (real_of k U - Rpower 2 (real_of k F)) <= pade_error k * Rpower 2 (real_of k F) + 16 * ulp k)%R).
Proof.
  intros Hx Sx HF Hc. destruct ex_facts as (N1 & N0 & K0 & KK & K1 & N3 & K11 & Kn & N34 & Had & Fc & Hu). pose proof (scale_R k K11) as Hsc.
  set (f := real_of k F). assert (Hf : (0 <= f <= 1)%R).
  { unfold f, real_of. assert (P : (0 < IZR (2 ^ k))%R) by lra. assert (Q : (0 <= IZR F <= IZR (2 ^ k))%R) by (split; apply IZR_le; lia).
    split; [apply Rmult_le_pos; [lra|left; apply Rinv_0_lt_compat, P]|]. apply (Rmult_le_reg_r (IZR (2 ^ k)) _ _ P). unfold Rdiv. rewrite Rmult_assoc, Rinv_l by lra. lra. }
  unfold exp2_pade. pose proof (degree_cases k K11) as Dc. cbv zeta in Dc. pose proof (rsum_near k f K11 Hf) as Near.
  set (d := pade_degree k (rev pade_coeffs)) in *.
  assert (Hd : (5 <= d <= 8)%nat) by (clear - Dc; lia). clear Dc. clearbody d.
  eapply yb. { apply (pade_pows_ok f (d - 2) Hf 2 x [x]); [lia|reflexivity|]. intros j Hj. cbn [length] in Hj. assert (j = O) by lia. subst j. cbn [nth].
    split; [exact Sx|]. exists F. split; [exact Hx|]. split; [lia|]. cbn [Nat.sub INR]. rewrite pow_1. fold f. rewrite Rminus_diag_eq, Rabs_R0 by reflexivity. lra. }
  intros ps (Lp & Pp). assert (Lp' : length ps = (d - 1)%nat) by lia. clear Lp.
  eapply yb. { apply (mapM_ok (pade_term prf colo k) (fun pc j => (1 <= j <= 8)%nat /\ pow_ok f j (fst pc) /\ encodes k (snd pc) (coef j)) (term_ok f) (combine ps cs) (seq 1 (d - 1))).
    - apply (combine_terms f ps cs x (d - 1)); [lia|exact Lp'|exact Pp|exact Hc].
    - intros (p & c) j (Hj & H1 & H2). cbn [fst snd] in *. apply pade_term_ok; assumption. }
  intros ys Hys. destruct d as [|[|d]]; [lia|lia|]. cbn [Nat.sub seq] in Hys, Near. 
  inversion Hys as [|y j ys' js Hy Hys' E1 E2]; subst. destruct Hy as (Sy & Y' & HY' & EY).
  assert (Fx : pfc x = FI n) by apply Hx. rewrite Fx.
  assert (R1 : real_of k (2 ^ k) = 1%R) by (unfold real_of; field; lra).
  assert (BY' : (Rabs (real_of k Y') <= 1)%R). { destruct (coef_bounds 1 ltac:(lia)) as (Cb & _). rewrite pow_1 in EY. assert (0 <= coef 1 * f <= 0.7)%R by nra. apply abs2 in EY. apply abs2. lra. }
  eapply yb; [apply (konst colo n k _ Fc (2 ^ k) 1); [rewrite R1, Rabs_R1; lra|lra]|]. intros one (Ho & So).
  assert (BS : (Rabs (real_of k Y' + real_of k (2 ^ k)) <= 2)%R) by (rewrite R1; apply abs2; apply abs2 in BY'; lra).
  eapply yb; [apply (addc colo n k _ Fc y one Y' (2 ^ k) 2 HY' Sy Ho So BS); lra|]. intros z (Hz & Sz).
  assert (BS' : (Rabs (real_of k (Y' + 2 ^ k)) <= 2)%R) by (rewrite real_add by exact K0; exact BS).
  assert (Ld : (INR d <= 6)%R). { replace 6%R with (INR 6) by (cbn; lra). apply le_INR. lia. } pose proof (pos_INR d) as Ld0.
  eapply yb. { apply (pade_sum_ok f ys' (seq 2 d) Hf Hys') with (B := 2%R) (z := z) (Z0 := Y' + 2 ^ k); [|exact Hz|exact Sz|exact BS'|rewrite seq_length; lra].
    apply Forall_forall. intros j Hj. apply in_seq in Hj. lia. }
  intros w (Sw & W & HW & EW). rewrite seq_length in EW. rewrite real_add, R1 in EW by exact K0.
  eapply yb; [apply (konst colo n k _ Fc 0 1); [unfold real_of, Rdiv; rewrite Rmult_0_l, Rabs_R0; lra|lra]|]. intros zero (Hz0 & Sz0).
  assert (P2 : (1 <= Rpower 2 f <= 2)%R).
  { split; [apply Rpower2_ge1, Hf|]. rewrite <- (Rpower_1 2) at 2 by lra. apply Rle_Rpower; lra. }
  assert (PE : (0 <= pade_error k <= 0.002)%R) by (unfold pade_error; destruct (k <? 13), (k <? 17), (k <? 20); lra).
  change (rsum f (1%nat :: seq 2 d)) with (coef 1 * f ^ 1 + rsum f (seq 2 d))%R in Near.
  assert (EU : (Rabs (real_of k W - Rpower 2 f) <= pade_error k * Rpower 2 f + 16 * ulp k)%R).
  { assert (T : (2.25 * INR d * ulp k <= 13.5 * ulp k)%R) by (apply Rmult_le_compat_r; lra). apply abs2 in Near, EW, EY. apply abs2. lra. }
  assert (BW : (Rabs (real_of k W + real_of k 0) <= 3)%R).
  { replace (real_of k 0) with 0%R by (unfold real_of, Rdiv; rewrite Rmult_0_l; reflexivity). apply abs2 in EU. apply abs2. nra. }
  eapply y_weaken; [apply (addc colo n k _ Fc w zero W 0 3 HW Sw Hz0 Sz0 BW); lra|]. intros u (Hu' & Su). rewrite Z.add_0_r in Hu'.
  split; [exact Su|]. exists W. split; [exact Hu'|exact EU].
Qed.
End Ops.
