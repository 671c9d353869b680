(** Real-number facts about the logarithm's polynomial (no program). *)
From Coq Require Import Reals Lra Psatz.
From Coquelicot Require Import Coquelicot.
Open Scope R_scope.

(** A function with a non-negative derivative on the non-negative numbers. *)
Lemma grows (g d : R -> R) : (forall t, 0 <= t -> is_derive g t (d t)) -> (forall t, 0 <= t -> 0 <= d t) -> forall t, 0 <= t -> g 0 <= g t.
Proof.
  intros Hd Hp t Ht. destruct (Req_dec t 0) as [-> | Hne]; [lra|].
  destruct (MVT_gen g 0 t d) as (c & Hc & E).
  - intros x Hx. rewrite Rmin_left in Hx by lra. apply Hd. lra.
  - intros x Hx. rewrite Rmin_left in Hx by lra. apply continuity_pt_filterlim.
    apply (ex_derive_continuous g x). exists (d x). apply Hd. lra.
  - rewrite Rmin_left in Hc by lra. pose proof (Hp c ltac:(lra)). nra.
Qed.
Lemma ln_lower t : 0 <= t -> 3 * t * (2 + t) / (6 + 6 * t + t * t) <= ln (1 + t).
Proof.
  intros Ht. pose proof (grows (fun t => ln (1 + t) - 3 * t * (2 + t) / (6 + 6 * t + t * t)) (fun t => t * t * t * t / ((1 + t) * (6 + 6 * t + t * t) * (6 + 6 * t + t * t)))) as G.
  assert (H : ln (1 + 0) - 3 * 0 * (2 + 0) / (6 + 6 * 0 + 0 * 0) <= ln (1 + t) - 3 * t * (2 + t) / (6 + 6 * t + t * t)).
  { apply G; [| |exact Ht]; clear; intros t Ht.
    - auto_derive; [split; [lra|]; split; [nra|exact I]|]. field. split; nra.
    - apply Rmult_le_pos; [nra|]. left. apply Rinv_0_lt_compat. apply Rmult_lt_0_compat; [apply Rmult_lt_0_compat|]; nra. }
  rewrite (Rplus_0_r 1), ln_1 in H. lra.
Qed.
Lemma ln_upper t : 0 <= t -> ln (1 + t) <= t * (6 + t) / (6 + 4 * t).
Proof.
  intros Ht. pose proof (grows (fun t => t * (6 + t) / (6 + 4 * t) - ln (1 + t)) (fun t => 4 * t * t * t / ((1 + t) * (6 + 4 * t) * (6 + 4 * t)))) as G.
  assert (H : 0 * (6 + 0) / (6 + 4 * 0) - ln (1 + 0) <= t * (6 + t) / (6 + 4 * t) - ln (1 + t)).
  { apply G; [| |exact Ht]; clear; intros t Ht.
    - auto_derive; [split; [lra|]; split; [lra|exact I]|]. field. split; lra.
    - apply Rmult_le_pos; [nra|]. left. apply Rinv_0_lt_compat. apply Rmult_lt_0_compat; [apply Rmult_lt_0_compat|]; lra. }
  rewrite (Rplus_0_r 1), ln_1 in H. lra.
Qed.
Lemma ln2_bounds : 0.69307 <= ln 2 <= 0.6934.
Proof.
  split.
  - replace 2 with ((1 + 1 / 3) * (1 + 1 / 2)) by lra. rewrite ln_mult by lra.
    pose proof (ln_lower (1 / 3) ltac:(lra)). pose proof (ln_lower (1 / 2) ltac:(lra)). lra.
  - replace 2 with ((1 + 1 / 4) * ((1 + 1 / 4) * ((1 + 1 / 4) * (1 + 3 / 125)))) by lra. rewrite !ln_mult by lra.
    pose proof (ln_upper (1 / 4) ltac:(lra)). pose proof (ln_upper (3 / 125) ltac:(lra)). lra.
Qed.

(** The polynomial, whose exact value at 1 is 2e-7. *)
Definition poly (f : R) : R := -0.4326728 * (f * f) + 2.276597 * f - 1.843924.
Lemma div_ge a b c : 0 < c -> a * c <= b -> a <= b / c.
Proof. intros Hc H. apply Rmult_le_reg_r with c; [exact Hc|]. unfold Rdiv. rewrite Rmult_assoc, Rinv_l by lra. lra. Qed.
Lemma div_le a b c : 0 < c -> b <= a * c -> b / c <= a.
Proof. intros Hc H. apply Rmult_le_reg_r with c; [exact Hc|]. unfold Rdiv. rewrite Rmult_assoc, Rinv_l by lra. lra. Qed.
(** Products of [t] and [c - t], enough to show polynomials positive between 0 and [c]. *)
Lemma bernstein t c : 0 <= t <= c -> forall i j, 0 <= t ^ i * (c - t) ^ j.
Proof. intros H i j. apply Rmult_le_pos; apply pow_le; lra. Qed.
Ltac bern t c n H :=
  let rec go i j := match j with O => pose proof (bernstein t c H i 0) | S ?j' => pose proof (bernstein t c H i j); go (S i) j' end in
  go O n; cbn [pow] in *; lra.
Lemma poly_upper f : 1 <= f <= 2 -> poly f * ln 2 <= ln f + 0.022 * ln 2.
Proof.
  intros Hf. destruct ln2_bounds as [L U]. set (l := ln 2) in *. clearbody l.
  pose proof (ln_lower (f - 1) ltac:(lra)) as H. replace (1 + (f - 1)) with f in H by ring. set (t := f - 1) in *.
  assert (Ep : poly f = -0.4326728 * (t * t) + 1.4112514 * t + 0.0000002) by (unfold poly, t; lra). rewrite Ep. assert (Ht : 0 <= t <= 1) by (unfold t; lra). clearbody t. clear Hf Ep.
  eapply Rle_trans; [|apply Rplus_le_compat_r, H]. clear H.
  assert (K : (-0.4326728 * (t * t) + 1.4112514 * t + 0.0000002) * 0.6934 - 0.022 * 0.69307 <= 3 * t * (2 + t) / (6 + 6 * t + t * t)).
  { apply div_ge; [nra|]. bern t 1 6%nat Ht. }
  assert (0 <= -0.4326728 * (t * t) + 1.4112514 * t + 0.0000002) by nra. nra.
Qed.
Lemma poly_lower f : 1 <= f <= 2 -> ln f - 0.022 * ln 2 <= poly f * ln 2.
Proof.
  intros Hf. destruct ln2_bounds as [L U].
  destruct (Rle_dec f 1.5) as [Hl|Hg].
  - set (l := ln 2) in *. clearbody l. pose proof (ln_upper (f - 1) ltac:(lra)) as H. replace (1 + (f - 1)) with f in H by ring. set (t := f - 1) in *.
    assert (Ep : poly f = -0.4326728 * (t * t) + 1.4112514 * t + 0.0000002) by (unfold poly, t; lra). rewrite Ep. assert (Ht : 0 <= t <= 0.5) by (unfold t; lra). clearbody t. clear Hf Hl Ep.
    assert (K : t * (6 + t) / (6 + 4 * t) <= (-0.4326728 * (t * t) + 1.4112514 * t + 0.0000002) * 0.69307 + 0.022 * 0.69307).
    { apply div_le; [nra|]. bern t 0.5 3%nat Ht. }
    assert (0 <= -0.4326728 * (t * t) + 1.4112514 * t + 0.0000002) by nra. nra.
  - assert (E : ln f = ln 2 - ln (1 + (2 - f) / f)).
    { replace (1 + (2 - f) / f) with (2 / f) by (field; lra). unfold Rdiv. rewrite ln_mult by (try apply Rinv_0_lt_compat; lra). rewrite ln_Rinv by lra. lra. }
    pose proof (ln_lower ((2 - f) / f)) as H. assert (Hs : 0 <= (2 - f) / f) by (apply Rmult_le_pos; [lra|left; apply Rinv_0_lt_compat; lra]). specialize (H Hs).
    set (u := 2 - f). assert (Eu : 3 * ((2 - f) / f) * (2 + (2 - f) / f) / (6 + 6 * ((2 - f) / f) + (2 - f) / f * ((2 - f) / f)) = 3 * u * (4 - u) / (24 - 12 * u + u * u)).
    { unfold u. field. split; nra. }
    rewrite Eu in H. rewrite E. set (l := ln 2) in *. clearbody l. set (y := ln (1 + (2 - f) / f)) in *. clearbody y. clear E Eu Hs.
    assert (Ep : 1 - poly f = 0.4326728 * (u * u) + 0.5459058 * u + 0.0214212) by (unfold poly, u; lra).
    assert (Hu : 0 <= u <= 0.5) by (unfold u; lra). set (p := poly f) in *. clearbody p u. clear Hf Hg.
    assert (K : (0.4326728 * (u * u) + 0.5459058 * u + 0.0214212 - 0.022) * 0.6934 + 0.000001 <= 3 * u * (4 - u) / (24 - 12 * u + u * u)).
    { apply div_ge; [nra|]. bern u 0.5 4%nat Hu. }
    assert (X0 : -0.0006 <= 1 - p - 0.022) by nra. assert (X1 : (1 - p - 0.022) * (0.6934 - l) >= -0.000001) by nra. lra.
Qed.
