(** C107: division, reciprocal and square root in Pond. *)
From Coq Require Import Reals Lra Psatz QArith.
From Verif Require Import Base Factory TensorModel TensorProofs CrtModel CrtProofs CrtFloat CrtProps PondModel PondSpec PondProofs PondTrunc
  PondProps ChebModel ChebSpec ChebProofs PdivModel PdivSpec PdivProofs.
Local Open Scope Z_scope.

Lemma int_inverse (y : Z) : y <> 0 -> (IZR y <> 0 /\ Rabs (/ IZR y) <= 1)%R.
Proof.
  intros Hy. assert (H : (IZR y <> 0)%R) by (apply not_0_IZR; exact Hy). split; [exact H|]. rewrite Rabs_inv by exact H. rewrite <- Rinv_1.
  apply Rinv_le_contravar; [lra|]. rewrite <- abs_IZR. apply IZR_le. lia.
Qed.
(** Division by an integer: right up to one unit and one unit of the argument. *)
Theorem C107_int : forall p n fl r x v y, good p -> casts_ok (scaling_factor (cfg p)) fl -> drawn p n (fun _ => r) ->
  denotes (ring p) n x true v -> (forall i, (i < n)%nat -> (Rabs (worth p (v i)) <= 2 ^ 29)%R) -> y <> 0 ->
  division p n (div (ring p) (fops p) (cfg p) fl r x (DInt y)) (fun i z => quotient p (worth p (v i)) (IZR y) z).
Proof.
  intros p n fl r x v y G (Hf & _) Hd D HA Hy. destruct (int_inverse y Hy) as [Y0 Y1]. pose proof eps_small.
  pose proof (Hf (scaling_factor (cfg p)) y (or_intror eq_refl) Hy) as Hc. destruct (inverse_worth p _ (IZR y) Y0 Hc) as [K1 K2].
  unfold division, div. rewrite (denotes_scaled _ _ _ _ _ D). destruct (Z.eqb_spec y 0); [contradiction|]. eexists. split; [reflexivity|].
  apply bind_assoc3. eapply outcome_bind; [apply (constant_ok p n x v _ true D)|]. intros k (Dk & _).
  apply (product_quotient p n G r x k v _ (2 ^ 29) 2 _ Hd D Dk HA); [intros; nra|lra|]. intros i z Hi H'. eapply quotient_of; [exact Y0|exact K1|exact H'].
Qed.
Print Assumptions C107_int.
(** Division by a public tensor. *)
Theorem C107_public : forall p n fl r x v v0 v1 w, good p -> casts_ok (scaling_factor (cfg p)) fl -> drawn p n (fun _ => r) ->
  denotes (ring p) n x true v -> (forall i, (i < n)%nat -> (Rabs (worth p (v i)) <= 2 ^ 17)%R) ->
  denotes (ring p) n (Pub v0 v1 true) true w -> (forall i, (i < n)%nat -> (/ 2 ^ 12 <= Rabs (worth p (w i)) <= 2 ^ 13)%R) ->
  division p n (div (ring p) (fops p) (cfg p) fl r x (DTensor (Pub v0 v1 true))) (fun i z => quotient p (worth p (v i)) (worth p (w i)) z).
Proof.
  intros p n fl r x v v0 v1 w G (_ & Hf & _) Hd D HA Dw HW. pose proof eps_small. pose proof (s_small p) as Ss.
  assert (K : forall i, (i < n)%nat -> (worth p (w i) <> 0 /\ Rabs (/ worth p (w i)) <= 2 ^ 12 /\ computed (IZR (scaling_factor (cfg p)) / worth p (w i)) (f_rcp fl (w i)))%R).
  { intros i Hi. destruct (HW i Hi) as [W1 W2]. assert (0 < / 2 ^ 12)%R by (apply Rinv_0_lt_compat; lra).
    assert (W0 : (worth p (w i) <> 0)%R) by (intros E; rewrite E, Rabs_R0 in W1; lra).
    assert (W3 : (Rabs (/ worth p (w i)) <= 2 ^ 12)%R) by (rewrite Rabs_inv by exact W0; rewrite <- (Rinv_inv (2 ^ 12)); apply Rinv_le_contravar; assumption).
    split; [exact W0|]. split; [exact W3|].
    assert (E : (IZR (scaling_factor (cfg p)) / worth p (w i) = IZR (scaling_factor (cfg p)) * IZR (scaling_factor (cfg p)) / IZR (w i))%R).
    { rewrite worth_div in *. field. split; [|lra]. intros E. apply W0. rewrite E. unfold Rdiv. ring. }
    rewrite E. apply Hf.
    - intros E'. apply W0. rewrite E'. rewrite worth_div. unfold Rdiv. ring.
    - rewrite <- E. unfold Rdiv. rewrite Rabs_mult, (Rabs_right (IZR _)) by lra. pose proof (Rabs_pos (/ worth p (w i))). nra. }
  unfold division, div. eexists. split; [reflexivity|].
  eapply outcome_bind.
  - apply (public_local_ok (ring p) (ring_lawful p) n (f_rcp fl) _ w Dw); [|eauto]. intros _ _ _ _ i Hi. apply worth_small. apply HW. exact Hi.
  - intros k (Dk & _). apply (product_quotient p n G r x k v _ (2 ^ 17) (2 ^ 13) _ Hd D Dk HA); [|lra|].
    + intros i Hi. destruct (K i Hi) as (W0 & W1 & Hc). destruct (inverse_worth p _ _ W0 Hc) as [_ K2]. eapply Rle_trans; [exact K2|]. pose proof (Rabs_pos (/ worth p (w i))). nra.
    + intros i z Hi H'. destruct (K i Hi) as (W0 & W1 & Hc). destruct (inverse_worth p _ _ W0 Hc) as [K1 _]. eapply quotient_of; [exact W0|exact K1|exact H'].
Qed.
Print Assumptions C107_public.
(** The square root of a public tensor. *)
Theorem C107_sqrt : forall p n fl v0 v1 v, casts_ok (scaling_factor (cfg p)) fl -> denotes (ring p) n (Pub v0 v1 true) true v ->
  (forall i, (i < n)%nat -> (0 <= worth p (v i) <= 2 ^ 13)%R) ->
  outcome p n (sqrt_ (ring p) fl (Pub v0 v1 true)) (fun i z => (Rabs (z - sqrt (worth p (v i))) <= unit_of p + / 2 ^ 40 * sqrt (worth p (v i)))%R).
Proof.
  intros p n fl v0 v1 v (_ & _ & Hf) D HV. pose proof (s_small p) as Ss. destruct (unit_pos p) as [U0 U].
  destruct (public_local_ok (ring p) (ring_lawful p) n (f_root fl) _ v D) as (z & E & Dz & _); [|eauto|].
  { intros _ _ _ _ i Hi. apply worth_small. rewrite Rabs_right; [apply HV; exact Hi|]. apply Rle_ge, HV. exact Hi. }
  exists z. split; [exact E|]. exists (fun i => f_root fl (v i)). split; [apply reveals_of; [apply ring_lawful|exact Dz]|]. intros i Hi.
  destruct (HV i Hi) as [V0 V1]. set (x := worth p (v i)) in *. set (S := IZR (scaling_factor (cfg p))) in *.
  assert (Ev : IZR (v i) = (x * S)%R) by (unfold x, S; rewrite worth_div; field; fold S; lra).
  assert (Q : sqrt (S * IZR (v i)) = (S * sqrt x)%R).
  { rewrite Ev. replace (S * (x * S))%R with ((S * S) * x)%R by ring. rewrite sqrt_mult_alt by nra. rewrite sqrt_square by lra. reflexivity. }
  assert (X1 : (sqrt x <= 2 ^ 7)%R). { rewrite <- (sqrt_square (2 ^ 7)) by lra. apply sqrt_le_1_alt. lra. }
  pose proof (sqrt_pos x) as X0.
  assert (Hc : computed (sqrt (S * IZR (v i))) (f_root fl (v i))).
  { apply Hf; [apply le_IZR; rewrite Ev; nra|]. fold S. rewrite Q. nra. }
  rewrite Q in Hc. destruct (computed_near _ _ Hc) as [A _]. rewrite Rabs_mult, (Rabs_right S), (Rabs_right (sqrt x)) in A by lra.
  rewrite worth_div. fold S. replace (IZR (f_root fl (v i)) / S - sqrt x)%R with ((IZR (f_root fl (v i)) - S * sqrt x) * / S)%R by (field; lra).
  rewrite U in *. fold S in U0 |- *. rewrite Rabs_mult, (Rabs_right (/ S)) by lra. apply (Rmult_le_reg_r S); [lra|]. rewrite Rmult_assoc, Rinv_l, Rmult_1_r by lra.
  eapply Rle_trans; [exact A|]. rewrite Rmult_plus_distr_r, Rinv_l by lra. lra.
Qed.
Print Assumptions C107_sqrt.

(** Dividing by an integer above the scaling factor gives nothing: every quotient is 0 up to one unit, whatever the argument. *)
Theorem C107_large_refuted : forall p n fl r x v y, good p -> casts_ok (scaling_factor (cfg p)) fl -> drawn p n (fun _ => r) ->
  denotes (ring p) n x true v -> (forall i, (i < n)%nat -> (Rabs (worth p (v i)) <= 2 ^ 29)%R) -> scaling_factor (cfg p) < Z.abs y ->
  division p n (div (ring p) (fops p) (cfg p) fl r x (DInt y)) (fun i z => (Rabs z <= unit_of p)%R).
Proof.
  intros p n fl r x v y G (Hf & _) Hd D HA Hy. pose proof (s_small p) as Ss. assert (Y : y <> 0) by (intros ->; apply lt_IZR in Hy || idtac; pose proof (factor_ok p); cbn in Hy; lia).
  assert (Z0 : f_inv fl (scaling_factor (cfg p)) y = 0).
  { apply (computed_zero _ _ (Hf _ y (or_intror eq_refl) Y)). destruct (int_inverse y Y) as [Y0 _]. unfold Rdiv. rewrite Rabs_mult, (Rabs_right (IZR _)), Rabs_inv by lra.
    assert (B : (IZR (scaling_factor (cfg p)) + 1 <= Rabs (IZR y))%R) by (rewrite <- abs_IZR, <- plus_IZR; apply IZR_le; lia).
    apply (Rmult_le_reg_r (Rabs (IZR y))); [lra|]. rewrite Rmult_assoc, Rinv_l, Rmult_1_r by lra. nra. }
  unfold division, div. rewrite (denotes_scaled _ _ _ _ _ D). destruct (Z.eqb_spec y 0); [contradiction|]. rewrite Z0. eexists. split; [reflexivity|].
  apply bind_assoc3. eapply outcome_bind; [apply (constant_ok p n x v _ true D)|]. intros k (Dk & _).
  assert (W : worth p 0 = 0%R) by (rewrite worth_div; unfold Rdiv; ring).
  apply (product_quotient p n G r x k v _ (2 ^ 29) 2 _ Hd D Dk HA); [intros; rewrite W, Rabs_R0; lra|lra|].
  intros i z Hi H'. rewrite W in H'. replace (z - worth p (v i) * 0)%R with z in H' by ring. exact H'.
Qed.
Print Assumptions C107_large_refuted.
(** Unscaled tensors: every quotient by an integer other than 0, 1 and -1 is 0. *)
Theorem C107_unscaled_refuted : forall p n fl r x v y, casts_ok (scaling_factor (cfg p)) fl -> rnd_ok (ring p) r n n n ->
  denotes (ring p) n x false v -> 2 <= Z.abs y ->
  exists m, div (ring p) (fops p) (cfg p) fl r x (DInt y) = Went m /\ yields (ring p) m (fun z => reveals (ring p) n z false (fun _ => 0)).
Proof.
  intros p n fl r x v y (Hf & _) Hr D Hy. assert (Y : y <> 0) by lia.
  assert (Z0 : f_inv fl 1 y = 0).
  { apply (computed_zero _ _ (Hf _ y (or_introl eq_refl) Y)). destruct (int_inverse y Y) as [Y0 _]. unfold Rdiv. rewrite Rabs_mult, (Rabs_right 1), Rabs_inv by lra.
    assert (B : (2 <= Rabs (IZR y))%R) by (rewrite <- abs_IZR; apply IZR_le; exact Hy).
    apply (Rmult_le_reg_r (Rabs (IZR y))); [lra|]. rewrite Rmult_assoc, Rinv_l, Rmult_1_r by lra. lra. }
  unfold div. rewrite (denotes_scaled _ _ _ _ _ D). destruct (Z.eqb_spec y 0); [contradiction|]. rewrite Z0. eexists. split; [reflexivity|].
  destruct (constant_ok p n x v 0 false D) as (k & E & Dk & _).
  destruct (product_ok (ring p) (ring_lawful p) BMul n n n r x k false false v (fun _ => 0)) as (z & Ez & Dz & _); [split; reflexivity|exact Hr|exact I|exact D|exact Dk|].
  exists z. split.
  - revert E. unfold mul. cbn [bind fresh snd fst]. intros E. unfold bind at 1. rewrite E. cbn [snd]. unfold bind. rewrite Ez.
    rewrite (denotes_scaled _ _ _ _ _ D). cbn [andb snd ret]. reflexivity.
  - apply reveals_of; [apply ring_lawful|]. apply (denotes_eq _ _ _ _ (fun i => v i * 0)); [intros; lia|exact Dz].
Qed.
Print Assumptions C107_unscaled_refuted.
(** Dividing by a Python float never succeeds, although the code has a branch for it. *)
Theorem C107_float_refuted : forall F X c fl r x q m, div F X c fl r x (DFloat q) = Went m -> snd m = Err TypeError.
Proof. intros F X c fl r x q m. cbn [div]. destruct (Qeq_bool q (0 # 1)); intros H; inversion H. reflexivity. Qed.
Print Assumptions C107_float_refuted.
(** Division by 0 and by private or unscaled tensors, roots of private or unscaled tensors: each raises. *)
Theorem C107_raises : forall F X c fl r x v0 v1 s0 s1 sc,
  (forall m, div F X c fl r x (DInt 0) <> Went m) /\
  (forall m, div F X c fl r x (DTensor (Priv s0 s1 sc)) = Went m -> snd m = Err TypeError) /\
  (forall m, div F X c fl r x (DTensor (Pub v0 v1 false)) = Went m -> snd m = Err AssertionError) /\
  snd (sqrt_ F fl (Priv s0 s1 sc)) = Err TypeError /\ snd (sqrt_ F fl (Pub v0 v1 false)) = Err AssertionError.
Proof.
  intros F X c fl r x v0 v1 s0 s1 sc. repeat match goal with |- _ /\ _ => split end; try (intros m H; inversion H); reflexivity.
Qed.
Print Assumptions C107_raises.

(** The hypotheses are met: exact arithmetic is a computation of the kind assumed, and so are tensors, as in ChebProps. *)
Definition exact (s : Z) : casts := MkCasts Z.quot (fun v => Z.quot (s * s) v) (fun v => Z.sqrt (s * v)).
Lemma quot_toward a b : b <> 0 -> toward_zero (IZR a / IZR b) (Z.quot a b).
Proof.
  intros Hb. pose proof (Z.quot_rem' a b) as E. pose proof (Z.rem_bound_abs a b Hb) as B. pose proof (Z.rem_sign_mul a b Hb) as S.
  set (q := Z.quot a b) in *. set (m := Z.rem a b) in *. assert (Hr : (IZR b <> 0)%R) by (apply not_0_IZR; exact Hb).
  assert (M : (0 < IZR b * IZR b)%R) by nra.
  assert (D : forall x : R, (x <= IZR a / IZR b <-> x * (IZR b * IZR b) <= IZR a * IZR b)%R).
  { intros x. replace (IZR a * IZR b)%R with (IZR a / IZR b * (IZR b * IZR b))%R by (field; exact Hr). split; intros H; [apply Rmult_le_compat_r; lra|apply (Rmult_le_reg_r (IZR b * IZR b)); lra]. }
  assert (D' : forall x : R, (IZR a / IZR b <= x <-> IZR a * IZR b <= x * (IZR b * IZR b))%R).
  { intros x. replace (IZR a * IZR b)%R with (IZR a / IZR b * (IZR b * IZR b))%R by (field; exact Hr). split; intros H; [apply Rmult_le_compat_r; lra|apply (Rmult_le_reg_r (IZR b * IZR b)); lra]. }
  assert (Q : a * b = q * (b * b) + m * b) by (rewrite E at 1; ring).
  assert (Bm : - (b * b) < m * b < b * b) by nia.
  split; intros H.
  - apply D in H. rewrite Rmult_0_l, <- mult_IZR in H. apply le_IZR in H. assert (0 <= m * b) by (destruct (Z.eq_dec a 0) as [->|]; [nia|nia]).
    split; [apply D; rewrite <- !mult_IZR; apply IZR_le; lia|]. apply Rnot_le_lt. intros C. apply D in C. rewrite <- plus_IZR, <- !mult_IZR in C. apply le_IZR in C. lia.
  - apply D' in H. rewrite Rmult_0_l, <- mult_IZR in H. apply le_IZR in H. assert (m * b <= 0) by (destruct (Z.eq_dec a 0) as [->|]; [nia|nia]).
    split; [|apply D'; rewrite <- !mult_IZR; apply IZR_le; lia]. apply Rnot_le_lt. intros C. apply D' in C. rewrite <- minus_IZR, <- !mult_IZR in C. apply le_IZR in C. lia.
Qed.
Lemma exactly a v : toward_zero a v -> computed a v.
Proof. intros H. exists a. split; [|exact H]. rewrite Rminus_diag_eq, Rabs_R0 by reflexivity. pose proof eps_small. pose proof (Rabs_pos a). nra. Qed.
Example C107_exact : forall p, casts_ok (scaling_factor (cfg p)) (exact (scaling_factor (cfg p))).
Proof.
  intros p. pose proof (factor_ok p). set (s := scaling_factor (cfg p)) in *. split; [|split].
  - intros S y _ Hy. apply exactly, quot_toward, Hy.
  - intros v Hv _. apply exactly. rewrite <- mult_IZR. apply quot_toward, Hv.
  - intros v Hv _. apply exactly. cbn [exact f_root]. rewrite <- mult_IZR. assert (0 <= s * v) by nia. destruct (Z.sqrt_spec (s * v) H0) as [A B].
    pose proof (Z.sqrt_nonneg (s * v)) as N. set (m := Z.sqrt (s * v)) in *. apply IZR_le in A. apply IZR_lt in B. rewrite (mult_IZR m) in A. rewrite (mult_IZR (Z.succ m)), succ_IZR in B. apply IZR_le in N.
    assert (A' : (IZR m <= sqrt (IZR (s * v)))%R) by (rewrite <- (sqrt_square (IZR m)) by lra; apply sqrt_le_1_alt; exact A).
    assert (B' : (sqrt (IZR (s * v)) < IZR m + 1)%R) by (rewrite <- (sqrt_square (IZR m + 1)) by lra; apply sqrt_lt_1_alt; split; [apply IZR_le; assumption|exact B]).
    split; intros; [split; lra|]. split; lra.
Qed.
(** 10000 / 10000 is 0 at the default precision, and 3 / 2 is 9840 units of 1 / 6561. *)
Definition sample_r : mulrnd (ring Low) := @MkRnd (ring Low) [5] [77] [-8] [2] [13] false [12345].
Definition sample_x (a : Z) : ptensor (ring Low) := Priv (@MkPv (ring Low) Srv0 [12345]) (@MkPv (ring Low) Srv1 [a - 12345]) true.
Definition shown (a : attempt (ring Low)) : option (list Z) :=
  match a with Went m => match snd m with Ok (Priv z0 z1 _) => Some (vadd (ring Low) (pval z0) (pval z1)) | _ => None end | _ => None end.
Example C107_runs :
  shown (div (ring Low) (fops Low) (cfg Low) (exact 6561) sample_r (sample_x (10000 * 6561)) (DInt 10000)) = Some [0] /\
  shown (div (ring Low) (fops Low) (cfg Low) (exact 6561) sample_r (sample_x (3 * 6561)) (DInt 2)) = Some [9840].
Proof. split; lazy; reflexivity. Qed.
