(** Error analysis, over the reals, of the reciprocal iteration of [FpModel]. *)
From Coq Require Import Reals Lra Psatz.
Open Scope R_scope.

Lemma Rabs_le_iff x b : Rabs x <= b <-> - b <= x <= b.
Proof. split; [|intros H; apply Rabs_le; exact H]. unfold Rabs. destruct (Rcase_abs x); lra. Qed.
Lemma mul_bound x y a b : Rabs x <= a -> Rabs y <= b -> Rabs (x * y) <= a * b.
Proof. intros Hx Hy. rewrite Rabs_mult. apply Rmult_le_compat; try apply Rabs_pos; assumption. Qed.

(** * First approximation: 1 - c S + 2 S^2 on [1/2, 1] *)
Lemma first_poly S : 1/2 <= S <= 1 -> Rabs (1 - 2.9281928 * S + 2 * S * S) <= 0.072.
Proof.
  intros H. pose proof (Rle_0_sqr (S - 0.7320482)) as P. unfold Rsqr in P.
  assert (Q : 0 <= (S - 1/2) * (1 - S)) by (apply Rmult_le_pos; lra). apply Rabs_le. split; lra.
Qed.

(** [s] the scale, [V] the argument, [S] its exact significand times [s], [E] the exponent. *)
Lemma first_R s V E S g C inv a sg : 2048 <= s -> Rabs V * 64 <= s * s -> s/2 <= S <= s -> sg * sg = 1 -> V = sg * Rabs V ->
  S * s = Rabs V * E -> Rabs (g - S) <= 1 -> Rabs (C - 2.9281928 * s) <= 1 -> inv = C - 2 * g -> Rabs (a - inv * (sg * E) / s) <= 1 ->
  Rabs (1 - a * V / (s * s)) <= 0.09.
Proof.
  intros Hs HV HS Hsg EV HE Hg HC Hinv Ha. assert (s <> 0) by lra.
  set (W := Rabs V) in *. assert (HW : 0 <= W) by apply Rabs_pos.
  set (d := a - inv * (sg * E) / s) in *. assert (Ea : a = inv * (sg * E) / s + d) by (unfold d; ring).
  set (e := inv - (2.9281928 * s - 2 * S)). assert (Ei : inv = 2.9281928 * s - 2 * S + e) by (unfold e; ring).
  assert (He : Rabs e <= 3). { apply Rabs_le_iff in Hg, HC. apply Rabs_le_iff. unfold e. lra. }
  set (x := S / s). assert (ES : S = x * s) by (unfold x; field; assumption).
  assert (Hx : 1/2 <= x <= 1). { rewrite ES in HS. split; nra. }
  assert (EE : W * E = x * s * s) by (rewrite <- HE, ES; ring).
  assert (EQ : 1 - a * V / (s * s) = (1 - 2.9281928 * x + 2 * x * x) - (e / s) * x - d * (sg * W) / (s * s)).
  { rewrite Ea, EV. fold W. replace ((inv * (sg * E) / s + d) * (sg * W) / (s * s)) with (inv * (sg * sg) * (W * E) / (s * s * s) + d * (sg * W) / (s * s)) by (field; assumption).
    rewrite Hsg, EE, Ei, ES. field. assumption. }
  rewrite EQ. pose proof (first_poly x Hx) as P1.
  assert (P2 : Rabs ((e / s) * x) <= 0.0015).
  { replace 0.0015 with (0.0015 * 1) by ring. apply mul_bound; [|apply Rabs_le; lra]. apply Rabs_le_iff in He. apply Rabs_le.
    split; [apply Rmult_le_reg_r with s|apply Rmult_le_reg_r with s]; try lra; unfold Rdiv; rewrite Rmult_assoc, Rinv_l by assumption; lra. }
  assert (P3 : Rabs (d * (sg * W) / (s * s)) <= 1/64).
  { replace (d * (sg * W) / (s * s)) with (d * ((sg * W) / (s * s))) by (field; assumption). replace (1/64) with (1 * (1/64)) by field.
    apply mul_bound; [exact Ha|]. assert (Hs2 : 0 < s * s) by nra.
    assert (sg = 1 \/ sg = -1) as [-> | ->].
    { destruct (Rle_dec 0 sg); [left; nra|right; nra]. }
    - apply Rabs_le. split; apply Rmult_le_reg_r with (s * s); try lra; unfold Rdiv; rewrite Rmult_assoc, Rinv_l by lra; lra.
    - apply Rabs_le. split; apply Rmult_le_reg_r with (s * s); try lra; unfold Rdiv; rewrite Rmult_assoc, Rinv_l by lra; lra. }
  apply Rabs_le_iff in P1, P2, P3. apply Rabs_le. lra.
Qed.

(** * One iteration *)
Section Step.
Context (s V a t res res2 t1 t2 : R) (Hs : 2048 <= s) (HV : Rabs V * 64 <= s * s)
  (Ha : Rabs (1 - a * V / (s * s)) <= 0.09)
  (Ht : Rabs (t - V * a / s) <= 1) (Hres : res = s - t).
Let s0 : s <> 0. Proof. lra. Qed.
Let h := / s.
Let hb : 0 < h <= 0.0005.
Proof.
  unfold h. split; [apply Rinv_0_lt_compat; lra|]. apply Rmult_le_reg_r with s; [lra|]. rewrite Rinv_l by exact s0. lra.
Qed.
Let r := res * h.
Let rho := 1 - a * V / (s * s).
Let e1 := (t - V * a / s) * h.
Lemma e1_bound : Rabs e1 <= h.
Proof. unfold e1. replace h with (1 * h) at 2 by ring. apply mul_bound; [exact Ht|]. rewrite Rabs_right; lra. Qed.
Lemma r_eq : r = rho - e1.
Proof. unfold r, rho, e1, h. rewrite Hres. field. exact s0. Qed.
Lemma r_bound : Rabs r <= 0.0905.
Proof. rewrite r_eq. pose proof e1_bound as B. fold rho in Ha. apply Rabs_le_iff in B, Ha. apply Rabs_le. lra. Qed.
Lemma res_bound : Rabs res <= 0.0905 * s.
Proof. replace res with (r * s) by (unfold r, h; field; exact s0). apply mul_bound; [exact r_bound|]. rewrite Rabs_right; lra. Qed.

Context (Hres2 : Rabs (res2 - res * res / s) <= 1).
Let e2 := (res2 - res * res / s) * h.
Lemma e2_bound : Rabs e2 <= h.
Proof. unfold e2. replace h with (1 * h) at 2 by ring. apply mul_bound; [exact Hres2|]. rewrite Rabs_right; lra. Qed.
Let r2 := res2 * h.
Lemma r2_eq : r2 = r * r + e2.
Proof. unfold r2, r, e2, h. field. exact s0. Qed.
Lemma r2_bound : Rabs r2 <= 0.01.
Proof.
  rewrite r2_eq. pose proof e2_bound as B. pose proof (mul_bound r r _ _ r_bound r_bound) as C. apply Rabs_le_iff in B, C. apply Rabs_le. lra.
Qed.
Lemma res2_bound : Rabs res2 <= 0.01 * s.
Proof. replace res2 with (r2 * s) by (unfold r2, h; field; exact s0). apply mul_bound; [exact r2_bound|]. rewrite Rabs_right; lra. Qed.

Context (Ht1 : Rabs (t1 - a * (s + res2) / s) <= 1) (Ht2 : Rabs (t2 - t1 * (res + res2) / s) <= 1).
Let d3 := t1 - a * (s + res2) / s.
Let d4 := t2 - t1 * (res + res2) / s.
Let q := V / (s * s).
Lemma step_eq : 1 - (a + t2) * V / (s * s) =
  r * r * r * r * r - e2 * ((1 - r) * (1 + r + 2 * r * r + e2)) + e1 * (1 + (1 + r2) * (r + r2)) - (d3 * (r + r2) + d4) * q.
Proof.
  assert (E1 : t1 = a * (1 + r2) + d3) by (unfold d3, r2, h; field; exact s0).
  assert (E2 : t2 = t1 * (r + r2) + d4) by (unfold d4, r, r2, h; field; exact s0).
  assert (E3 : a * V / (s * s) = 1 - r - e1) by (rewrite r_eq; unfold rho; ring).
  assert (E4 : 1 - (a + t2) * V / (s * s) = 1 - (a * V / (s * s)) * (1 + (1 + r2) * (r + r2)) - (d3 * (r + r2) + d4) * q).
  { rewrite E2, E1. unfold q. field. exact s0. }
  rewrite E4, E3, r2_eq. ring.
Qed.
Lemma step_R : Rabs (1 - (a + t2) * V / (s * s)) <= 0.0000062 + 2.2 * h + 1.13 * Rabs q.
Proof.
  rewrite step_eq. pose proof r_bound as Br. pose proof r2_bound as Br2. pose proof e1_bound as B1. pose proof e2_bound as B2.
  assert (R5 : Rabs (r * r * r * r * r) <= 0.0000062).
  { pose proof (mul_bound r r _ _ Br Br) as C2. pose proof (mul_bound _ r _ _ C2 Br) as C3. pose proof (mul_bound _ r _ _ C3 Br) as C4.
    pose proof (mul_bound _ r _ _ C4 Br) as C5. eapply Rle_trans; [exact C5|]. lra. }
  assert (K1 : Rabs ((1 - r) * (1 + r + 2 * r * r + e2)) <= 1.03).
  { replace ((1 - r) * (1 + r + 2 * r * r + e2)) with (1 + r * r - 2 * (r * r * r) + (1 - r) * e2) by ring.
    pose proof (mul_bound r r _ _ Br Br) as C2. pose proof (mul_bound _ r _ _ C2 Br) as C3.
    assert (C4 : Rabs ((1 - r) * e2) <= 1.1 * h). { apply mul_bound; [|exact B2]. apply Rabs_le_iff in Br. apply Rabs_le. lra. }
    pose proof (Rle_0_sqr r) as C5. unfold Rsqr in C5.
    apply Rabs_le_iff in C2, C3, C4. apply Rabs_le. lra. }
  assert (K2 : Rabs (1 + (1 + r2) * (r + r2)) <= 1.12).
  { assert (Rabs ((1 + r2) * (r + r2)) <= 1.01 * 0.1005) as C by (apply mul_bound; apply Rabs_le_iff in Br, Br2; apply Rabs_le; lra).
    apply Rabs_le_iff in C. apply Rabs_le. lra. }
  assert (K3 : Rabs (d3 * (r + r2) + d4) <= 1.12).
  { assert (Rabs (d3 * (r + r2)) <= 1 * 0.1005) as C by (apply mul_bound; [exact Ht1|]; apply Rabs_le_iff in Br, Br2; apply Rabs_le; lra).
    assert (Rabs d4 <= 1) as D by exact Ht2. apply Rabs_le_iff in C, D. apply Rabs_le. lra. }
  pose proof (mul_bound _ _ _ _ B2 K1) as L1. pose proof (mul_bound _ _ _ _ B1 K2) as L2.
  assert (L3 : Rabs ((d3 * (r + r2) + d4) * q) <= 1.12 * Rabs q) by (apply mul_bound; [exact K3|lra]).
  pose proof (Rabs_pos q). apply Rabs_le_iff in R5, L1, L2, L3. apply Rabs_le. lra.
Qed.
Lemma q_bound : Rabs q <= 1/64.
Proof.
  assert (Hs2 : 0 < s * s) by nra. unfold q, Rdiv. rewrite Rabs_mult, (Rabs_right (/ (s * s))) by (apply Rle_ge, Rlt_le, Rinv_0_lt_compat; exact Hs2).
  apply Rmult_le_reg_r with (s * s); [exact Hs2|]. rewrite Rmult_assoc, Rinv_l by lra. lra.
Qed.
Lemma step_keeps : Rabs (1 - (a + t2) * V / (s * s)) <= 0.09.
Proof. pose proof step_R. pose proof q_bound. lra. Qed.

(** Sizes of the intermediate values, for a non-zero integer [V]. *)
Context (HV1 : 1 <= Rabs V).
Lemma Va_bound : Rabs (V * a) <= 1.09 * (s * s).
Proof.
  assert (Hs2 : 0 < s * s) by nra. replace (V * a) with ((a * V / (s * s)) * (s * s)) by (field; exact s0).
  apply mul_bound; [|rewrite Rabs_right; lra]. apply Rabs_le_iff in Ha. apply Rabs_le. lra.
Qed.
Lemma a_bound : Rabs a <= 1.09 * (s * s).
Proof. pose proof Va_bound as B. rewrite Rabs_mult in B. pose proof (Rabs_pos a). nra. Qed.
Lemma au_bound : Rabs (a * (s + res2)) <= 1.11 * (s * s * s).
Proof.
  pose proof res2_bound as B. eapply Rle_trans; [apply (mul_bound a (s + res2) (1.09 * (s * s)) (1.01 * s)); [exact a_bound|]|].
  - apply Rabs_le_iff in B. apply Rabs_le. lra.
  - assert (0 < s * s * s) by (repeat apply Rmult_lt_0_compat; lra). lra.
Qed.
Lemma t1_bound : Rabs t1 <= 1.12 * (s * s).
Proof.
  assert (Hs2 : 2048 * 2048 <= s * s) by nra.
  assert (B : Rabs (a * (s + res2) / s) <= 1.11 * (s * s)).
  { replace (a * (s + res2) / s) with (a * (s + res2) * h) by (unfold h; field; exact s0).
    replace (1.11 * (s * s)) with (1.11 * (s * s * s) * h) by (unfold h; field; exact s0). apply mul_bound; [exact au_bound|]. rewrite Rabs_right; lra. }
  apply Rabs_le_iff in B, Ht1. apply Rabs_le. lra.
Qed.
Lemma tw_bound : Rabs (t1 * (res + res2)) <= 0.13 * (s * s * s).
Proof.
  pose proof res2_bound as B. pose proof res_bound as C.
  eapply Rle_trans; [apply (mul_bound t1 (res + res2) (1.12 * (s * s)) (0.1005 * s)); [exact t1_bound|]|].
  - apply Rabs_le_iff in B, C. apply Rabs_le. lra.
  - assert (0 < s * s * s) by (repeat apply Rmult_lt_0_compat; lra). lra.
Qed.
Lemma t2_bound : Rabs t2 <= 0.14 * (s * s).
Proof.
  assert (Hs2 : 2048 * 2048 <= s * s) by nra.
  assert (B : Rabs (t1 * (res + res2) / s) <= 0.13 * (s * s)).
  { replace (t1 * (res + res2) / s) with (t1 * (res + res2) * h) by (unfold h; field; exact s0).
    replace (0.13 * (s * s)) with (0.13 * (s * s * s) * h) by (unfold h; field; exact s0). apply mul_bound; [exact tw_bound|]. rewrite Rabs_right; lra. }
  apply Rabs_le_iff in B, Ht2. apply Rabs_le. lra.
Qed.
End Step.
