(** Errors of products of approximated numbers, over the reals. *)
From Coq Require Import Reals Lra Psatz QArith Qreals.
From Verif Require Import Base Aby3Model Aby3Spec Aby3NetModel FpLogSpec PolySpec.
Local Open Scope R_scope.

Lemma prod_gap (A D p q ea eb P Q : R) : Rabs p <= P -> Rabs q <= Q -> Rabs (A - p) <= ea -> Rabs (D - q) <= eb ->
  Rabs (A * D - p * q) <= ea * eb + P * eb + Q * ea.
Proof.
  intros H1 H2 H3 H4. replace (A * D - p * q) with ((A - p) * (D - q) + (p * (D - q) + q * (A - p))) by ring.
  eapply Rle_trans; [apply Rabs_triang|]. eapply Rle_trans; [apply Rplus_le_compat_l, Rabs_triang|]. rewrite !Rabs_mult.
  pose proof (Rabs_pos (A - p)). pose proof (Rabs_pos (D - q)). pose proof (Rabs_pos p). pose proof (Rabs_pos q).
  pose proof (Rmult_le_compat _ _ _ _ H H0 H3 H4). pose proof (Rmult_le_compat _ _ _ _ H5 H0 H1 H4). pose proof (Rmult_le_compat _ _ _ _ H6 H H2 H3). lra.
Qed.
Lemma prod_err (A D r p q P Q Ca Cb w : R) : Rabs p <= P -> Rabs q <= Q -> Rabs (A - p) <= Ca - P - w -> Rabs (D - q) <= Cb - Q - w ->
  1 + w <= Ca -> 1 + w <= Cb -> 0 <= w -> Rabs (r - A * D) <= w -> Rabs (r - p * q) <= Ca * Cb - P * Q - w.
Proof.
  intros H1 H2 H3 H4 Ha Hb Hw Hr. pose proof (prod_gap A D p q _ _ P Q H1 H2 H3 H4) as G.
  replace (r - p * q) with ((r - A * D) + (A * D - p * q)) by ring. eapply Rle_trans; [apply Rabs_triang|].
  replace (Ca * Cb - P * Q - w) with (w + ((Ca - P - w) * (Cb - Q - w) + P * (Cb - Q - w) + Q * (Ca - P - w)) + (w * (Ca + Cb - w - 2))) by ring.
  assert (0 <= w * (Ca + Cb - w - 2)) by (apply Rmult_le_pos; lra). lra.
Qed.
Lemma size_err (A p P C w : R) : Rabs p <= P -> Rabs (A - p) <= C - P - w -> Rabs A <= C - w.
Proof. intros H1 H2. replace A with (p + (A - p)) by ring. eapply Rle_trans; [apply Rabs_triang|]. lra. Qed.
Lemma scale_err (A e r p P C c d w : R) : Rabs p <= P -> Rabs (A - p) <= C - P - w -> 0 <= w -> Rabs (e - c) <= d -> Rabs (r - A * e) <= w ->
  Rabs (r - c * p) <= Rabs c * (C - P - w) + d * C + w.
Proof.
  intros H1 H2 Hw He Hr. pose proof (size_err _ _ _ _ _ H1 H2) as S.
  replace (r - c * p) with ((r - A * e) + (A * (e - c) + c * (A - p))) by ring.
  eapply Rle_trans; [apply Rabs_triang|]. eapply Rle_trans; [apply Rplus_le_compat_l, Rabs_triang|]. rewrite !Rabs_mult.
  pose proof (Rabs_pos A) as A0. pose proof (Rabs_pos c) as C0. pose proof (Rabs_pos (e - c)) as E0.
  pose proof (Rmult_le_compat_l _ _ _ C0 H2). assert (L : Rabs A <= C) by lra. pose proof (Rmult_le_compat _ _ _ _ A0 E0 L He). lra.
Qed.

Lemma ulp_pos k : (0 <= k)%Z -> 0 < ulp k <= 1.
Proof.
  intros H. unfold ulp. pose proof (Z.pow_pos_nonneg 2 k ltac:(lia) H) as P. assert (L : 1 <= IZR (2 ^ k)) by (apply IZR_le; lia).
  split; [apply Rinv_0_lt_compat; lra|]. rewrite <- Rinv_1. apply Rinv_le_contravar; lra.
Qed.
Lemma pow_ge1 C i : 1 <= C -> 1 <= C ^ i.
Proof. apply pow_R1_Rle. Qed.
Lemma pow_geC C i : 1 <= C -> (1 <= i)%nat -> C <= C ^ i.
Proof. intros H Hi. rewrite <- (pow_1 C) at 1. apply Rle_pow; [exact H|exact Hi]. Qed.
Lemma pow_abs_le x B i : Rabs x <= B -> Rabs (x ^ i) <= B ^ i.
Proof. intros H. rewrite <- RPow_abs. apply pow_incr. split; [apply Rabs_pos|exact H]. Qed.
Lemma power_err_nonneg k B i : (0 <= k)%Z -> 1 <= B -> (1 <= i)%nat -> 0 <= power_err k B i.
Proof.
  intros Hk HB Hi. unfold power_err. pose proof (ulp_pos k Hk) as [U _]. induction Hi as [|i Hi IH]; [rewrite !pow_1; lra|].
  rewrite <- !tech_pow_Rmult. pose proof (pow_ge1 B i HB). assert (0 < B ^ i) by lra. assert (L : B ^ i <= (B + ulp k) ^ i) by (apply pow_incr; lra).
  set (P := B ^ i) in *. set (C := (B + ulp k) ^ i) in *. assert (0 <= B * (C - P)) by (apply Rmult_le_pos; lra).
  assert (0 <= ulp k * (C - 1)) by (apply Rmult_le_pos; lra). lra.
Qed.
Lemma term_size d k B i c exact : (0 <= k)%Z -> 1 <= B -> (1 <= i)%nat -> 0 <= d -> Qeq_bool c 0 = false ->
  Rabs (Q2R c) * B ^ i + term_err exact d k B i c <= (Rabs (Q2R c) + d + 1) * (B + ulp k) ^ i.
Proof.
  intros Hk HB Hi Hd Hc. unfold term_err, power_err. rewrite Hc. pose proof (ulp_pos k Hk) as [U U1]. pose proof (Rabs_pos (Q2R c)).
  pose proof (pow_ge1 (B + ulp k) i ltac:(lra)) as G. set (C := (B + ulp k) ^ i) in *. set (P := B ^ i).
  assert (0 <= Rabs (Q2R c) * ulp k) by (apply Rmult_le_pos; lra). assert (0 <= d * C) by (apply Rmult_le_pos; lra). destruct (exact c); lra.
Qed.
Lemma mass_nonneg d k B : (0 <= k)%Z -> 1 <= B -> 0 <= d -> forall cs i, 0 <= mass d k B i cs.
Proof.
  intros Hk HB Hd cs. pose proof (ulp_pos k Hk) as [U U1]. induction cs as [|c cs IH]; intros i; cbn [mass]; [lra|].
  pose proof (IH (S i)). pose proof (pow_ge1 (B + ulp k) i ltac:(lra)) as G. pose proof (Rabs_pos (Q2R c)).
  destruct (Qeq_bool c 0); [lra|]. assert (0 <= (Rabs (Q2R c) + d + 1) * (B + ulp k) ^ i) by (apply Rmult_le_pos; lra). lra.
Qed.
Lemma roomy_le n k a b : a <= b -> roomy n k b -> roomy n k a.
Proof.
  unfold roomy. intros H R. eapply Rle_trans; [|exact R]. apply Rmult_le_compat_l; [|exact H].
  assert (0 <= IZR (2 ^ k)) by (apply IZR_le, Z.pow_nonneg; lia). nra.
Qed.
