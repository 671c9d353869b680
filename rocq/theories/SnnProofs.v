(** Proofs about the SecureNN model: the odd ring. *)
From Coq Require Import ZArith Lia List Bool.
From Verif Require Import Base Factory TensorModel TensorProofs PondModel SnnModel.
Import ListNotations.

Lemma testbit_sign w x : 0 < w -> in_s w x -> Z.testbit x (w - 1) = (x <? 0).
Proof.
  intros Hw Hx. unfold in_s in Hx.
  assert (E : Z.testbit x (w - 1) = Z.odd (Z.shiftr x (w - 1))).
  { rewrite <- Z.bit0_odd, Z.shiftr_spec by lia. f_equal; lia. }
  rewrite E, Z.shiftr_div_pow2 by lia.
  assert (P : 0 < 2 ^ (w - 1)) by (apply Z.pow_pos_nonneg; lia).
  destruct (Z.ltb_spec x 0) as [N|N].
  - replace (x / 2 ^ (w - 1)) with (-1); [reflexivity|].
    apply (Z.div_unique_pos x (2 ^ (w - 1)) (-1) (x + 2 ^ (w - 1))); lia.
  - rewrite Z.div_small by lia. reflexivity.
Qed.

Lemma shiftr_land1 x k : 0 <= k -> Z.land (Z.shiftr x k) 1 = Z.b2z (Z.testbit x k).
Proof.
  intros Hk. change 1 with (Z.ones 1). rewrite Z.land_ones by lia.
  change (2 ^ 1) with 2. rewrite <- Z.bit0_mod, Z.shiftr_spec by lia. f_equal.
Qed.

Lemma unsigned_cases w x : 0 < w -> in_s w x -> x mod 2 ^ w = if x <? 0 then x + 2 ^ w else x.
Proof.
  intros Hw Hx. unfold in_s in Hx. pose proof (pow2_half w Hw). pose proof (pow2_pos w ltac:(lia)).
  destruct (Z.ltb_spec x 0).
  - symmetry. apply (Z.mod_unique_pos x (2 ^ w) (-1)); lia.
  - apply Z.mod_small. lia.
Qed.

Lemma lessthan_as_unsigned_ok w x y : 0 < w -> in_s w x -> in_s w y ->
  lessthan_as_unsigned w x y = Z.b2z (x mod 2 ^ w <? y mod 2 ^ w).
Proof.
  intros Hw Hx Hy. unfold lessthan_as_unsigned. cbv zeta. rewrite shiftr_land1 by lia. f_equal.
  rewrite Z.lor_spec, !Z.land_spec, Z.lor_spec, Z.lnot_spec by lia.
  rewrite !(testbit_sign w) by (try assumption; apply swrap_range; lia).
  rewrite !unsigned_cases by assumption. unfold in_s in *. pose proof (pow2_half w Hw).
  pose proof (swrap_range w (x - y) Hw) as R. pose proof (swrap_id w (x - y) Hw) as I.
  destruct (Z.ltb_spec x 0), (Z.ltb_spec y 0); cbn [negb andb orb].
  - rewrite I by (unfold in_s; lia). destruct (Z.ltb_spec (x - y) 0), (Z.ltb_spec (x + 2 ^ w) (y + 2 ^ w)); lia || reflexivity.
  - destruct (Z.ltb_spec (x + 2 ^ w) y); lia || reflexivity.
  - destruct (Z.ltb_spec x (y + 2 ^ w)); lia || reflexivity.
  - rewrite I by (unfold in_s; lia). destruct (Z.ltb_spec (x - y) 0), (Z.ltb_spec x y); lia || reflexivity.
Qed.

Lemma odd_wf_range w x : 0 < w -> odd_wf w x -> 0 <= x mod 2 ^ w < 2 ^ w - 1.
Proof.
  intros Hw [Hx Hn]. rewrite unsigned_cases by assumption. unfold in_s in Hx. pose proof (pow2_half w Hw).
  destruct (Z.ltb_spec x 0); lia.
Qed.

Lemma unsigned_inj w x y : 0 < w -> in_s w x -> in_s w y -> x mod 2 ^ w = y mod 2 ^ w -> x = y.
Proof. intros Hw Hx Hy E. apply (in_s_eqm_eq w); assumption. Qed.

Lemma swrap_unsigned w z u : 0 < w -> 0 <= u < 2 ^ w -> eqm (2 ^ w) z u -> swrap w z mod 2 ^ w = u.
Proof.
  intros Hw Hu E. rewrite (swrap_eqm w z Hw : _ = _). rewrite E. apply Z.mod_small; lia.
Qed.

(** A word whose unsigned value is below [2 ^ w - 1] is not -1. *)
Lemma odd_wf_of w z u : 1 < w -> 0 <= u < 2 ^ w - 1 -> eqm (2 ^ w) z u -> odd_wf w (swrap w z) /\ swrap w z mod 2 ^ w = u.
Proof.
  intros Hw Hu E. assert (V : swrap w z mod 2 ^ w = u) by (apply swrap_unsigned; lia || assumption).
  split; [|exact V]. split; [apply swrap_range; lia|]. intros N. rewrite N in V.
  pose proof (pow2_half w ltac:(lia)).
  rewrite <- V in Hu. replace ((-1) mod 2 ^ w) with (2 ^ w - 1) in Hu; [lia|].
  apply (Z.mod_unique_pos (-1) (2 ^ w) (-1)); lia.
Qed.

Lemma odd_add_ok w x y : 1 < w -> odd_wf w x -> odd_wf w y ->
  odd_wf w (odd_add w x y) /\ odd_add w x y mod 2 ^ w = (x mod 2 ^ w + y mod 2 ^ w) mod odd_modulus w.
Proof.
  intros Hw Hx Hy. pose proof (odd_wf_range w x ltac:(lia) Hx) as Rx. pose proof (odd_wf_range w y ltac:(lia) Hy) as Ry.
  unfold odd_modulus. set (M := 2 ^ w) in *.
  assert (HM : 4 <= M) by (pose proof (Z.pow_le_mono_r 2 2 w ltac:(lia) ltac:(lia)); subst M; lia).
  assert (U : swrap w (-2 - y) mod M = M - 2 - y mod M).
  { apply swrap_unsigned; [lia|fold M; lia|]. unfold eqm. fold M.
    rewrite (Zminus_mod (M - 2)), Zmod_mod, <- Zminus_mod.
    replace (M - 2 - y) with (-2 - y + 1 * M) by ring. rewrite Z_mod_plus_full. reflexivity. }
  unfold odd_add. rewrite lessthan_as_unsigned_ok; [|lia|apply swrap_range; lia|apply Hx].
  fold M. rewrite U.
  assert (V : (x mod M + y mod M) mod (M - 1) = x mod M + y mod M - Z.b2z (M - 2 - y mod M <? x mod M) * (M - 1)).
  { destruct (Z.ltb_spec (M - 2 - y mod M) (x mod M)); cbn [Z.b2z].
    - symmetry. apply (Z.mod_unique_pos _ _ 1); lia.
    - rewrite Z.mod_small; lia. }
  rewrite V.
  assert (B : forall z, eqm M z (x mod M + y mod M - Z.b2z (M - 2 - y mod M <? x mod M) * (M - 1)) ->
     odd_wf w (swrap w z) /\ swrap w z mod M = x mod M + y mod M - Z.b2z (M - 2 - y mod M <? x mod M) * (M - 1)).
  { intros z E. apply odd_wf_of; try assumption. fold M.
    destruct (Z.ltb_spec (M - 2 - y mod M) (x mod M)); cbn [Z.b2z]; lia. }
  apply B. unfold eqm. set (b := Z.b2z _).
  rewrite Zplus_mod, (swrap_mod w (x + y) ltac:(lia) : _ mod M = _ mod M). rewrite <- Zplus_mod.
  replace (x mod M + y mod M - b * (M - 1)) with (x mod M + y mod M + b + (- b) * M) by ring.
  rewrite Z_mod_plus_full. rewrite (Zplus_mod (x mod M + y mod M)), <- (Zplus_mod x y), <- Zplus_mod. reflexivity.
Qed.

Lemma odd_sub_ok w x y : 1 < w -> odd_wf w x -> odd_wf w y ->
  odd_wf w (odd_sub w x y) /\ odd_sub w x y mod 2 ^ w = (x mod 2 ^ w - y mod 2 ^ w) mod odd_modulus w.
Proof.
  intros Hw Hx Hy. pose proof (odd_wf_range w x ltac:(lia) Hx) as Rx. pose proof (odd_wf_range w y ltac:(lia) Hy) as Ry.
  unfold odd_modulus. set (M := 2 ^ w) in *.
  assert (HM : 4 <= M) by (pose proof (Z.pow_le_mono_r 2 2 w ltac:(lia) ltac:(lia)); subst M; lia).
  unfold odd_sub. rewrite lessthan_as_unsigned_ok; [|lia|apply Hx|apply Hy]. fold M.
  assert (V : (x mod M - y mod M) mod (M - 1) = x mod M - y mod M + Z.b2z (x mod M <? y mod M) * (M - 1)).
  { destruct (Z.ltb_spec (x mod M) (y mod M)); cbn [Z.b2z].
    - symmetry. apply (Z.mod_unique_pos _ _ (-1)); lia.
    - rewrite Z.mod_small; lia. }
  rewrite V.
  assert (B : forall z, eqm M z (x mod M - y mod M + Z.b2z (x mod M <? y mod M) * (M - 1)) ->
     odd_wf w (swrap w z) /\ swrap w z mod M = x mod M - y mod M + Z.b2z (x mod M <? y mod M) * (M - 1)).
  { intros z E. apply odd_wf_of; try assumption. fold M.
    destruct (Z.ltb_spec (x mod M) (y mod M)); cbn [Z.b2z]; lia. }
  apply B. unfold eqm. set (b := Z.b2z _).
  rewrite Zminus_mod, (swrap_mod w (x - y) ltac:(lia) : _ mod M = _ mod M). rewrite <- Zminus_mod.
  replace (x mod M - y mod M + b * (M - 1)) with (x mod M - y mod M - b + b * M) by ring.
  rewrite Z_mod_plus_full. rewrite (Zminus_mod (x mod M - y mod M)), <- (Zminus_mod x y), <- Zminus_mod. reflexivity.
Qed.

Lemma lawful_odd w : 1 < w -> lawful (odd w).
Proof.
  intros Hw. assert (HM : 4 <= 2 ^ w) by (apply (Z.pow_le_mono_r 2 2 w); lia).
  assert (B : forall u, odd_wf w (swrap w (u mod odd_modulus w)) /\ swrap w (u mod odd_modulus w) mod 2 ^ w = u mod odd_modulus w).
  { intros u. apply odd_wf_of; [assumption| |reflexivity]. unfold odd_modulus. apply Z.mod_pos_bound. lia. }
  constructor; cbn [felt fmod fwf fval fof fadd fsub fmul fneg odd]; intros.
  - unfold odd_modulus. lia.
  - apply odd_wf_range; [lia|assumption].
  - apply (unsigned_inj w); [lia|apply H|apply H0|assumption].
  - apply B.
  - apply B.
  - apply odd_add_ok; assumption.
  - apply odd_sub_ok; assumption.
  - apply B.
  - apply B.
  - apply odd_add_ok; assumption.
  - apply odd_sub_ok; assumption.
  - apply B.
  - apply B.
Qed.

(** The sampler. *)
Lemma odd_sample_val w u : 1 < w -> odd_draw w u -> odd_sample w u = if u <? 0 then u + 1 else u.
Proof.
  intros Hw Hu. unfold odd_sample, odd_draw in *. destruct (Z.ltb_spec u 0); [|reflexivity].
  apply swrap_id; [lia|]. unfold in_s. pose proof (pow2_half w ltac:(lia)). lia.
Qed.

(** The word of a ring share and its image in the odd ring. *)
Lemma minusone_ok w x : 1 < w -> in_s w x ->
  odd_wf w (map_minusone_to_zero x) /\ map_minusone_to_zero x mod 2 ^ w = (x mod 2 ^ w) mod odd_modulus w.
Proof.
  intros Hw Hx. pose proof (pow2_half w ltac:(lia)). assert (HM : 4 <= 2 ^ w) by (apply (Z.pow_le_mono_r 2 2 w); lia).
  unfold map_minusone_to_zero, odd_modulus. destruct (Z.eqb_spec x (-1)) as [->|N].
  - split; [split; [unfold in_s; lia|lia]|]. rewrite Z.mod_0_l by lia.
    replace ((-1) mod 2 ^ w) with (2 ^ w - 1); [rewrite Z_mod_same_full; reflexivity|].
    apply (Z.mod_unique_pos (-1) (2 ^ w) (-1)); lia.
  - assert (odd_wf w x) by (split; assumption). split; [assumption|].
    symmetry. apply Z.mod_small. apply odd_wf_range; [lia|assumption].
Qed.
