(** The error of a softmax computed from approximate exponentials, their sum, and an approximate reciprocal. *)
From Coq Require Import Reals Lra Psatz.
From Verif Require Import FpLogReal FpLogProofs FpLogMain FpSqrtReal.
Open Scope R_scope.

Lemma soft_scale a S T : 0 <= a <= 0.0094 -> 0.999 <= T -> forall q, 0 <= q <= / 64 -> Rabs (S - T) <= a * T + 3 * q -> 0.94 * T <= S /\ S <= 1.06 * T.
Proof. intros Ha HT q Hq H. apply abs2 in H. split; nra. Qed.

Lemma soft_near u a q R E S T N y : 0 < u <= / 2048 -> 0 <= a <= 0.0094 -> 0 <= q <= / 64 -> 0 <= E <= 1 -> E <= T -> 1 - u <= T ->
  Rabs (R - E) <= a * E + 3 * u -> Rabs (S - T) <= a * T + 3 * q -> Rabs (N * S - 1) <= 0.000007 + 3 * u + 2 * S * u -> Rabs (y - R * N) <= u ->
  Rabs (y - E / T) <= 2.2 * a + 0.00001 + 9.7 * u + 3.4 * q.
Proof.
  intros Hu Ha Hq HE ET HT HR HS HN Hy. assert (T9 : 0.999 <= T) by lra. destruct (soft_scale a S T Ha T9 q Hq HS) as (S0 & S1).
  assert (T0 : 0 < T) by lra. assert (S9 : 0.939 <= S) by lra. assert (Sp : 0 < S) by lra.
  set (b := E / T). assert (Eb : b * T = E) by (unfold b; field; lra).
  assert (B : 0 <= b <= 1). { split; [unfold b; apply Rmult_le_pos; [lra|left; apply Rinv_0_lt_compat, T0]|]. apply (Rmult_le_reg_r T _ _ T0). lra. }
  (* the quotient by the exact reciprocal of S *)
  assert (D : Rabs (R - b * S) <= 2 * a * E + 3 * u + 3 * q).
  { replace (R - b * S) with ((R - E) - b * (S - T)) by (rewrite <- Eb; ring). eapply Rle_trans; [apply Rabs_triang|]. rewrite Rabs_Ropp, Rabs_mult, (Rabs_right b) by lra.
    assert (Q : b * Rabs (S - T) <= b * (a * T + 3 * q)) by (apply Rmult_le_compat_l; lra).
    replace (b * (a * T + 3 * q)) with (a * (b * T) + 3 * (b * q)) in Q by ring. rewrite Eb in Q. assert (b * q <= q) by (rewrite <- (Rmult_1_l q) at 2; apply Rmult_le_compat_r; lra). lra. }
  set (c := R / S). assert (Ec : c * S = R) by (unfold c; field; lra).
  assert (D2 : Rabs (c - b) <= 2.13 * a + 3.2 * u + 3.2 * q).
  { apply (Rmult_le_reg_r S _ _ Sp). rewrite <- (Rabs_right S) at 1 by lra. rewrite <- Rabs_mult. replace ((c - b) * S) with (R - b * S) by (rewrite <- Ec; ring).
    eapply Rle_trans; [exact D|].
    assert (Q1 : 2 * a * E <= 2.13 * a * S). { replace (2 * a * E) with (a * (2 * E)) by ring. replace (2.13 * a * S) with (a * (2.13 * S)) by ring. apply Rmult_le_compat_l; lra. }
    assert (Q2 : 3 * (u + q) <= 3.2 * (u + q) * S). { replace (3.2 * (u + q) * S) with ((u + q) * (3.2 * S)) by ring. rewrite (Rmult_comm 3). apply Rmult_le_compat_l; lra. }
    lra. }
  assert (C : Rabs c <= 1.08) by (apply abs2; apply abs2 in D2; lra).
  assert (HRb : Rabs R <= 1.012). { apply abs2 in HR. apply abs2. assert (0 <= a * E <= 0.0094) by (split; [apply Rmult_le_pos; lra|apply Rle_trans with (a * 1); [apply Rmult_le_compat_l; lra|lra]]). lra. }
  assert (D3 : Rabs (R * N - c) <= 0.0000076 + 5.3 * u).
  { replace (R * N - c) with (c * (N * S - 1)) by (rewrite <- Ec at 1; ring). rewrite Rabs_mult.
    apply Rle_trans with (Rabs c * (0.000007 + 3 * u + 2 * S * u)); [apply Rmult_le_compat_l; [apply Rabs_pos|exact HN]|].
    replace (Rabs c * (0.000007 + 3 * u + 2 * S * u)) with (Rabs c * (0.000007 + 3 * u) + 2 * u * (Rabs c * S)) by ring.
    assert (E1 : Rabs c * S = Rabs R) by (rewrite <- Ec, Rabs_mult, (Rabs_right S) by lra; reflexivity). rewrite E1.
    assert (Q1 : Rabs c * (0.000007 + 3 * u) <= 1.08 * (0.000007 + 3 * u)) by (apply Rmult_le_compat_r; lra).
    assert (Q2 : 2 * u * Rabs R <= 2 * u * 1.012) by (apply Rmult_le_compat_l; lra). lra. }
  apply abs2 in D2, D3, Hy. apply abs2. lra.
Qed.

(** The error of the exponential of a negative number, whose size does not matter. *)
Lemma neg_exp u p A R : 0 < u <= / 2048 -> 0 <= p <= 0.00152 -> A <= 0 ->
  Rabs (R - exp A) <= ((p + 16 * u) * (1 + (Rabs A + 1) * u) + (Rabs A + 1) * u) * exp A + u ->
  Rabs (R - exp A) <= (p + 16 * u) * exp A + 3 * u.
Proof.
  intros Hu Hp HA H. eapply Rle_trans; [exact H|]. rewrite (Rabs_left1 A HA).
  assert (Q : (- A + 1) * exp A <= 1).
  { pose proof (exp_ineq1_le (- A)) as X. assert (P : 0 < exp A) by apply exp_pos. assert (Y : exp (- A) * exp A = 1) by (rewrite <- exp_plus, <- exp_0; f_equal; lra).
    rewrite <- Y. apply Rmult_le_compat_r; lra. }
  set (g := (- A + 1) * exp A) in *. set (e := exp A) in *.
  replace (((p + 16 * u) * (1 + (- A + 1) * u) + (- A + 1) * u) * e + u) with ((p + 16 * u) * e + (p + 16 * u) * (u * g) + u * g + u) by (unfold g; ring).
  assert (G0 : 0 <= g) by (unfold g; apply Rmult_le_pos; [lra|left; apply exp_pos]).
  assert (UG : 0 <= u * g <= u) by (split; [apply Rmult_le_pos; lra|rewrite <- (Rmult_1_r u) at 2; apply Rmult_le_compat_l; lra]).
  assert ((p + 16 * u) * (u * g) <= 1 * (u * g)) by (apply Rmult_le_compat_r; lra). lra.
Qed.
