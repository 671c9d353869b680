(** Real-number facts about the polynomial of ABY3's exponential (no program). *)
From Coq Require Import Reals Lra Psatz List.
From Coquelicot Require Import Coquelicot.
From Verif Require Import FpLogReal.
Open Scope R_scope.

Lemma ln_upper3 t : 0 <= t -> ln (1 + t) <= t * (30 + 21 * t + t * t) / (30 + 36 * t + 9 * (t * t)).
Proof.
  intros Ht. pose proof (grows (fun t => t * (30 + 21 * t + t * t) / (30 + 36 * t + 9 * (t * t)) - ln (1 + t)) (fun t => 9 * (t * t * (t * t) * t) / ((1 + t) * (30 + 36 * t + 9 * (t * t)) * (30 + 36 * t + 9 * (t * t))))) as G.
  assert (H : 0 * (30 + 21 * 0 + 0 * 0) / (30 + 36 * 0 + 9 * (0 * 0)) - ln (1 + 0) <= t * (30 + 21 * t + t * t) / (30 + 36 * t + 9 * (t * t)) - ln (1 + t)).
  { apply G; [| |exact Ht]; clear; intros t Ht.
    - auto_derive; [split; [nra|]; split; [lra|exact I]|]. field. split; nra.
    - apply Rmult_le_pos; [|left; apply Rinv_0_lt_compat; apply Rmult_lt_0_compat; [apply Rmult_lt_0_compat|]; nra].
      assert (0 <= t * t) by nra. assert (0 <= t * t * (t * t)) by nra. nra. }
  rewrite (Rplus_0_r 1), ln_1 in H. lra.
Qed.
Lemma ln2_tight : 0.693147 <= ln 2 <= 0.6931475.
Proof.
  assert (E : ln 2 = 7 * ln (1 + 1 / 15) + 5 * ln (1 + 1 / 24) + 3 * ln (1 + 1 / 80)).
  { assert (P : forall x (m : nat), 0 < x -> INR m * ln x = ln (x ^ m)) by (intros x m Hx; symmetry; apply ln_pow; exact Hx).
    replace 7 with (INR 7) by (cbn; lra). replace 5 with (INR 5) by (cbn; lra). replace 3 with (INR 3) by (cbn; lra).
    rewrite !P by lra. rewrite <- !ln_mult; [f_equal; lra| | | |]; repeat apply Rmult_lt_0_compat; try apply pow_lt; lra. }
  pose proof (ln_lower (1 / 15) ltac:(lra)). pose proof (ln_lower (1 / 24) ltac:(lra)). pose proof (ln_lower (1 / 80) ltac:(lra)).
  pose proof (ln_upper3 (1 / 15) ltac:(lra)). pose proof (ln_upper3 (1 / 24) ltac:(lra)). pose proof (ln_upper3 (1 / 80) ltac:(lra)). lra.
Qed.

Lemma grows01 (g d : R -> R) : (forall t, 0 <= t <= 1 -> is_derive g t (d t)) -> (forall t, 0 <= t <= 1 -> 0 <= d t) -> forall t, 0 <= t <= 1 -> g 0 <= g t.
Proof.
  intros Hd Hp t Ht. destruct (Req_dec t 0) as [-> | Hne]; [lra|].
  destruct (MVT_gen g 0 t d) as (c & Hc & E).
  - intros x Hx. rewrite Rmin_left, Rmax_right in Hx by lra. apply Hd. lra.
  - intros x Hx. rewrite Rmin_left, Rmax_right in Hx by lra. apply continuity_pt_filterlim.
    apply (ex_derive_continuous g x). exists (d x). apply Hd. lra.
  - rewrite Rmin_left, Rmax_right in Hc by lra. pose proof (Hp c ltac:(lra)). nra.
Qed.

(** The polynomial with all its coefficients. *)
Definition pade (t : R) : R :=
  1 + t * (0.69314 + t * (0.24022 + t * (0.055504 + t * (0.0096183 + t * (0.0013327 + t * (0.0001551 + t * (0.000014197 + t * 0.0000018633))))))).
Definition dpade (t : R) : R :=
  0.69314 + t * (0.48044 + t * (0.166512 + t * (0.0384732 + t * (0.0066635 + t * (0.0009306 + t * (0.000099379 + t * 0.0000149064)))))).
Lemma horner_pos a t b : 0 <= a -> 0 <= t -> 0 <= b -> 0 <= a + t * b.
Proof. nra. Qed.
Lemma defect t l : 0 <= t <= 1 -> 0.693147 <= l <= 0.6931475 -> -0.000012 <= dpade t - l * pade t <= 0.
Proof.
  intros Ht Hl.
  assert (A : 0 <= pade t) by (unfold pade; repeat (apply horner_pos; [lra|lra|]); lra).
  assert (B : -0.000012 <= dpade t - 0.6931475 * pade t) by (unfold dpade, pade; bern t 1 8%nat Ht).
  assert (C : dpade t - 0.693147 * pade t <= 0) by (unfold dpade, pade; bern t 1 8%nat Ht).
  split; nra.
Qed.
Lemma pade_near t : 0 <= t <= 1 -> (1 - 0.000012) * Rpower 2 t <= pade t <= Rpower 2 t.
Proof.
  intros Ht. pose proof ln2_tight as Hl. unfold Rpower. set (l := ln 2) in *. clearbody l.
  set (g := fun t => pade t * exp (- (t * l))).
  assert (D : forall t, is_derive g t ((dpade t - l * pade t) * exp (- (t * l)))).
  { intros s. unfold g, pade, dpade. auto_derive; [exact I|]. set (e := Rtrigo_def.exp _). lra. }
  assert (E : forall t, 0 <= t <= 1 -> 0 < exp (- (t * l)) <= 1).
  { intros s Hs. split; [apply exp_pos|]. rewrite <- exp_0. destruct (Req_dec s 0) as [-> | Hn]; [right; f_equal; ring|].
    left. apply exp_increasing. nra. }
  assert (L : g 0 <= g t + 0.000012 * t).
  { replace (g 0) with ((fun t => g t + 0.000012 * t) 0) by (cbv beta; lra).
    apply (grows01 (fun t => g t + 0.000012 * t) (fun t => (dpade t - l * pade t) * exp (- (t * l)) + 0.000012)); [| |exact Ht].
    - intros s Hs. apply (is_derive_plus g (fun t => 0.000012 * t)); [apply D|]. auto_derive; [exact I|]. lra.
    - intros s Hs. pose proof (E s Hs). pose proof (defect s l Hs Hl). nra. }
  assert (U : - g 0 <= - g t).
  { apply (grows01 (fun t => - g t) (fun t => - ((dpade t - l * pade t) * exp (- (t * l))))); [| |exact Ht].
    - intros s Hs. apply (is_derive_opp g s). apply D.
    - intros s Hs. pose proof (E s Hs). pose proof (defect s l Hs Hl). nra. }
  assert (G0 : g 0 = 1) by (unfold g; replace (- (0 * l)) with 0 by ring; rewrite exp_0; unfold pade; lra).
  assert (P : pade t = g t * exp (t * l)).
  { unfold g. rewrite Rmult_assoc, <- exp_plus. replace (- (t * l) + t * l) with 0 by ring. rewrite exp_0. ring. }
  rewrite P. pose proof (exp_pos (t * l)). split; nra.
Qed.
