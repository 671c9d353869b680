(** Real-number error analysis of the inverse square root (no program). *)
From Coq Require Import Reals Lra Psatz.
From Verif Require Import FpLogReal FpLogMain.
Open Scope R_scope.

(** The polynomial times the square root [w] of its argument. *)
Lemma seed_R w : 0.4999 <= w <= 0.7073 -> Rabs (4.7979 * (w * w * w * w * w) - 5.9417 * (w * w * w) + 3.1855 * w - 1) <= 0.0075.
Proof.
  intros Hw. apply abs2. destruct (Rle_dec w 0.6036) as [L|L].
  - set (t := (w - 0.4999) / 0.1037). assert (Ht : 0 <= t <= 1) by (unfold t; lra). replace w with (0.4999 + 0.1037 * t) by (unfold t; lra). clearbody t. clear Hw L. split; bern t 1 5%nat Ht.
  - set (t := (w - 0.6036) / 0.1037). assert (Ht : 0 <= t <= 1) by (unfold t; lra). replace w with (0.6036 + 0.1037 * t) by (unfold t; lra). clearbody t. clear Hw L. split; bern t 1 5%nat Ht.
Qed.
(** [|a - a0| <= d] and [|b| <= B] bound the change of a product. *)
Lemma mul_near a a0 b d B : Rabs (a - a0) <= d -> 0 <= b <= B -> Rabs (a * b - a0 * b) <= d * B.
Proof.
  intros H Hb. replace (a * b - a0 * b) with ((a - a0) * b) by ring. rewrite Rabs_mult, (Rabs_right b) by lra.
  apply Rmult_le_compat; try lra. apply Rabs_pos.
Qed.
Lemma near_trans a b c d e : Rabs (a - b) <= d -> Rabs (b - c) <= e -> Rabs (a - c) <= d + e.
Proof. intros H K. replace (a - c) with ((a - b) + (b - c)) by ring. eapply Rle_trans; [apply Rabs_triang|]. lra. Qed.
Lemma near_le a b d e : Rabs (a - b) <= d -> d <= e -> Rabs (a - b) <= e.
Proof. lra. Qed.
Lemma seed_err u w C2 C1 C0 T1 T3 : 0 < u <= / 65536 -> 0.4999 <= w <= 0.7073 ->
  Rabs (C2 - 4.7979) <= u -> Rabs (C1 - 5.9417) <= u -> Rabs (C0 - 3.1855) <= u ->
  Rabs (T1 - w * w * C2) <= u -> Rabs (T3 - (T1 - C1) * (w * w)) <= u -> Rabs ((T3 + C0) * w - 1) <= 0.0076.
Proof.
  intros Hu Hw H2 H1 H0 HT1 HT3. pose proof (seed_R w Hw) as S.
  replace (4.7979 * (w * w * w * w * w) - 5.9417 * (w * w * w) + 3.1855 * w - 1) with ((4.7979 * (w * w * (w * w)) - 5.9417 * (w * w) + 3.1855) * w - 1) in S by ring.
  set (N := w * w) in *. assert (HN : 0 <= N <= 0.5003) by (unfold N; nra).
  clearbody N.
  pose proof (mul_near _ _ N _ _ H2 HN) as P2. rewrite (Rmult_comm C2) in P2. pose proof (near_trans _ _ _ _ _ HT1 P2) as A.
  assert (A' : Rabs (T1 - C1 - (4.7979 * N - 5.9417)) <= 2.6 * u) by (apply abs2 in A, H1; apply abs2; lra).
  pose proof (mul_near _ _ N _ _ A' HN) as P3. pose proof (near_trans _ _ _ _ _ HT3 P3) as B.
  assert (B' : Rabs (T3 + C0 - (4.7979 * (N * N) - 5.9417 * N + 3.1855)) <= 3.4 * u) by (apply abs2 in B, H0; apply abs2; lra).
  assert (Hw' : 0 <= w <= 0.7073) by lra.
  pose proof (mul_near _ _ w _ _ B' Hw') as P4. apply abs2 in P4, S. apply abs2. lra.
Qed.
(** One Newton step, on the value [Y] = (1 + e) / w. *)
Lemma newton_R u w Y A1 A2 D Y' : 0 < u <= / 65536 -> 0.4999 <= w <= 0.7073 -> Rabs (Y * w - 1) <= 0.0076 ->
  Rabs (A1 - w * w * Y) <= u -> Rabs (A2 - A1 * Y) <= u -> Rabs (D - Y * (3 - A2)) <= u -> Rabs (Y' - D / 2) <= u ->
  Rabs (Y' * w - 1) <= 0.0001 + 3.5 * u.
Proof.
  intros Hu Hw HY H1 H2 H3 H4.
  assert (BY : 0 <= Y <= 2.02).
  { apply abs2 in HY. split; apply Rnot_lt_le; intros K; nra. }
  pose proof (mul_near _ _ Y _ _ H1 BY) as P1. pose proof (near_trans _ _ _ _ _ H2 P1) as E2.
  assert (E2' : Rabs (3 - A2 - (3 - w * w * Y * Y)) <= 3.02 * u) by (apply abs2 in E2; apply abs2; lra).
  pose proof (mul_near _ _ Y _ _ E2' BY) as P2. rewrite (Rmult_comm (3 - A2)) in P2. pose proof (near_trans _ _ _ _ _ H3 P2) as E3.
  assert (E4 : Rabs (Y' - (3 - w * w * Y * Y) * Y / 2) <= 4.6 * u) by (apply abs2 in E3, H4; apply abs2; lra).
  set (e := Y * w - 1) in *.
  assert (EE : (3 - w * w * Y * Y) * Y / 2 * w = 1 - (3 * (e * e) + e * e * e) / 2) by (unfold e; field).
  assert (Hw' : 0 <= w <= 0.7073) by lra. pose proof (mul_near _ _ w _ _ E4 Hw') as P4. rewrite EE in P4.
  clear EE E4 P2 E3 E2' E2 P1 H1 H2 H3 H4 BY. clearbody e. apply abs2 in HY.
  assert (B : 0 <= e * e <= 0.00005776) by (split; nra).
  assert (B3 : - (0.0076 * (e * e)) <= e * e * e <= 0.0076 * (e * e)) by (split; nra).
  apply abs2 in P4. apply abs2. lra.
Qed.
(** The exponent [Ex], near [G], and the final product [R], for [G^2 X = N] and [w^2] near [N]. *)
Lemma final_R u w X N G Y Ex R b : 0 < u <= / 65536 -> 0.4999 <= w <= 0.7073 -> Rabs (w * w - N) <= u -> 0.25 <= N <= 0.5 -> 0 < G -> 0 < X -> G * G * X = N ->
  Rabs (Y * w - 1) <= b -> b <= 0.0076 -> Rabs (Ex - G) <= u + 2 * u * G -> Rabs (R - Y * Ex) <= u ->
  Rabs (R * sqrt X - 1) <= b + 5.5 * u + 4 * u * sqrt X.
Proof.
  intros Hu Hw Hn HN HG HX EG HY Hb HE HR. set (x := sqrt X). assert (x0 : 0 < x) by (apply sqrt_lt_R0, HX). assert (xx : x * x = X) by (apply sqrt_sqrt; lra).
  set (v := G * x). assert (v0 : 0 < v) by (apply Rmult_lt_0_compat; assumption). assert (vv : v * v = N) by (unfold v; rewrite <- EG, <- xx; ring).
  assert (BY : 0 <= Y <= 2.02).
  { apply abs2 in HY. split; apply Rnot_lt_le; intros K; nra. }
  assert (Bv : 0.5 <= v <= 0.70711) by (split; apply Rnot_lt_le; intros K; nra).
  assert (Dv : Rabs (w - v) <= 1.01 * u).
  { rewrite <- vv in Hn. replace (w * w - v * v) with ((w - v) * (w + v)) in Hn by ring. rewrite Rabs_mult, (Rabs_right (w + v)) in Hn by lra.
    pose proof (Rabs_pos (w - v)) as P. clear - Hn P Hw Bv Hu. set (a := Rabs (w - v)) in *. clearbody a. assert (a * 0.9999 <= u) by nra. lra. }
  pose proof (mul_near _ _ Y _ _ Dv BY) as Q. 
  assert (YV : Rabs (Y * v - 1) <= b + 2.05 * u) by (apply abs2 in HY, Q; apply abs2; lra).
  assert (RX : Rabs (R * x - Y * v) <= 3.02 * u * x + 2.9 * u).
  { replace (R * x - Y * v) with ((R - Y * Ex) * x + Y * ((Ex - G) * x)) by (unfold v; ring).
    assert (P1 : Rabs ((R - Y * Ex) * x) <= u * x) by (rewrite Rabs_mult, (Rabs_right x) by lra; apply Rmult_le_compat_r; lra).
    assert (P2 : Rabs ((Ex - G) * x) <= u * x + 2 * u * v).
    { rewrite Rabs_mult, (Rabs_right x) by lra. unfold v. replace (u * x + 2 * u * (G * x)) with ((u + 2 * u * G) * x) by ring. apply Rmult_le_compat_r; lra. }
    assert (P3 : Rabs (Y * ((Ex - G) * x)) <= 2.02 * (u * x + 2 * u * v)).
    { rewrite Rabs_mult, (Rabs_right Y) by lra. apply Rmult_le_compat; try lra. apply Rabs_pos. }
    assert (P4 : u * v <= 0.70711 * u) by nra.
    eapply Rle_trans; [apply Rabs_triang|]. lra. }
  assert (UX : 0 < u * x) by (apply Rmult_lt_0_compat; lra).
  apply abs2 in YV, RX. apply abs2. lra.
Qed.
