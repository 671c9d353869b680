(** Gradients of the losses, and of the loss by the weights. *)
From Coq Require Import Reals List Arith Lia Lra.
From Verif Require Import GradModel GradSpec GradProofs GradChain.
Import ListNotations.
Local Open Scope R_scope.

Lemma D_scale_r c f t a : D f t a -> D (fun s => f s * c) t (a * c).
Proof. intros H. apply (D_ext (fun s => c * f s)); [intros; ring|]. rewrite Rmult_comm. now apply D_scale. Qed.
Lemma columns n u (f : vec) : sum u (fun j => sum n (fun i => f (i * u + j)%nat)) = sum (n * u) f.
Proof. rewrite sum_grid. apply sum_swap. Qed.
Lemma mse_total n u y p : total_loss MSE n u y p = sum (n * u) (fun i => (y i - p i) * (y i - p i)) * (1 / INR n).
Proof. cbn. unfold mse. rewrite sum_scale_r. f_equal. apply (columns n u (fun i => (y i - p i) * (y i - p i))). Qed.
Lemma bce_total n u y p : sum u (bce n u y p) = sum (n * u) (fun i => - (y i * ln (p i) + (1 - y i) * ln (1 - p i))) * (1 / INR n).
Proof. unfold bce. rewrite sum_scale_r. f_equal. apply (columns n u (fun i => - (y i * ln (p i) + (1 - y i) * ln (1 - p i)))). Qed.

Lemma mse_gradient n u y p : gradient (n * u) (total_loss MSE n u y) p (loss_grad MSE n u y p).
Proof.
  intros c c' <- M. apply (D_ext (fun t => sum (n * u) (fun i => (y i - c t i) * (y i - c t i)) * (1 / INR n))); [intros; symmetry; apply mse_total|].
  eapply D_eq; [|apply (D_scale_r (1 / INR n) (fun t => sum (n * u) (fun i => (y i - c t i) * (y i - c t i))))].
  2:{ apply (D_sum (n * u) (fun t i => (y i - c t i) * (y i - c t i)) (fun i => (0 - c' i) * (y i - c 0 i) + (y i - c 0 i) * (0 - c' i))). intros i I.
      apply (D_mult (fun t => y i - c t i) (fun t => y i - c t i)); (apply (D_minus (fun _ => y i)); [apply D_const|now apply M]). }
  rewrite <- sum_scale_r. apply sum_ext. intros i I. cbn [loss_grad]. ring.
Qed.
Lemma bce_point f t a v : D f t a -> D (fun s => - (v * ln (sigmoid (f s)) + (1 - v) * ln (1 - sigmoid (f s)))) t ((sigmoid (f t) - v) * a).
Proof.
  intros H. pose proof (sigmoid_pos (f t)) as P. pose proof (D_sigmoid f t a H) as S. set (g := fun s => sigmoid (f s)) in *. change (sigmoid (f t)) with (g t) in *.
  eapply D_eq; [|apply (D_opp (fun s => v * ln (g s) + (1 - v) * ln (1 - g s)));
    apply (D_plus (fun s => v * ln (g s)) (fun s => (1 - v) * ln (1 - g s))); [apply (D_scale v (fun s => ln (g s))), (D_ln g), P; exact S|apply (D_scale (1 - v) (fun s => ln (1 - g s))), (D_ln (fun s => 1 - g s))]].
  2:{ apply (D_minus (fun _ => 1) g); [apply D_const|exact S]. } 2: lra.
  field. lra.
Qed.
Lemma bce_gradient z n u y p : gradient (n * u) (total_loss (BCE true z) n u y) p (fun i => (sigmoid (p i) - y i) * (1 / INR n)).
Proof.
  intros c c' <- M. cbn [total_loss]. apply (D_ext (fun t => sum (n * u) (fun i => - (y i * ln (sigmoid (c t i)) + (1 - y i) * ln (1 - sigmoid (c t i)))) * (1 / INR n))).
  { intros s. symmetry. apply (bce_total n u y (fun i => sigmoid (c s i))). }
  eapply D_eq; [|apply (D_scale_r (1 / INR n) (fun t => sum (n * u) (fun i => - (y i * ln (sigmoid (c t i)) + (1 - y i) * ln (1 - sigmoid (c t i))))))].
  2:{ apply (D_sum (n * u) (fun t i => - (y i * ln (sigmoid (c t i)) + (1 - y i) * ln (1 - sigmoid (c t i)))) (fun i => (sigmoid (c 0 i) - y i) * c' i)). intros i I.
      apply (bce_point (fun t => c t i)). now apply M. }
  rewrite <- sum_scale_r. apply sum_ext. intros i I. ring.
Qed.
Lemma sum_pos n f : (0 < n)%nat -> (forall i, (i < n)%nat -> 0 < f i) -> 0 < sum n f.
Proof.
  intros N H. destruct n as [|n]; [lia|]. clear N. induction n as [|n IH]; cbn [sum]; [rewrite Rplus_0_l; apply H; lia|].
  apply Rplus_lt_0_compat; [apply IH; intros; apply H; lia|apply H; lia].
Qed.
Lemma cce_gradient z n u y p : (forall i, (i < n)%nat -> sum u (fun j => y (i * u + j)%nat) = 1) ->
  gradient (n * u) (total_loss (CCE true z) n u y) p (fun i => (softmax u p i - y i) * (1 / INR n)).
Proof.
  intros Y c c' <- M. cbn [total_loss]. unfold cce. destruct (Nat.eq_dec u 0) as [->|U].
  { rewrite Nat.mul_0_r. cbn [sum]. unfold dot. cbn [sum]. rewrite Rmult_0_l. apply D_const. }
  set (S := fun t i => sum u (fun j => exp (c t (i * u + j)%nat))). set (S' := fun i => sum u (fun j => exp (c 0 (i * u + j)%nat) * c' (i * u + j)%nat)).
  assert (SP : forall t i, 0 < S t i) by (intros; apply sum_pos; [lia|intros; apply exp_pos]).
  assert (DS : forall i, (i < n)%nat -> D (fun t => S t i) 0 (S' i)).
  { intros i I. apply (D_sum u (fun t j => exp (c t (i * u + j)%nat)) (fun j => exp (c 0 (i * u + j)%nat) * c' (i * u + j)%nat)). intros j J.
    apply (D_comp (fun t => c t (i * u + j)%nat) exp); [apply M; nia|apply derivable_pt_lim_exp]. }
  apply (D_ext (fun t => sum n (fun i => sum u (fun j => - y (i * u + j)%nat * (c t (i * u + j)%nat - ln (S t i)))) * (1 / INR n))).
  { intros t. f_equal. rewrite sum_grid. apply sum_ext. intros i I. apply sum_ext. intros j J. f_equal. unfold softmax. rewrite grid_div by easy.
    fold (S t i). unfold Rdiv. rewrite ln_mult, ln_exp, ln_Rinv; [ring|apply SP|apply exp_pos|apply Rinv_0_lt_compat, SP]. }
  eapply D_eq; [|apply (D_scale_r (1 / INR n) (fun t => sum n (fun i => sum u (fun j => - y (i * u + j)%nat * (c t (i * u + j)%nat - ln (S t i))))))].
  2:{ apply (D_sum n (fun t i => sum u (fun j => - y (i * u + j)%nat * (c t (i * u + j)%nat - ln (S t i)))) (fun i => sum u (fun j => - y (i * u + j)%nat * (c' (i * u + j)%nat - / S 0 i * S' i)))). intros i I.
      apply (D_sum u (fun t j => - y (i * u + j)%nat * (c t (i * u + j)%nat - ln (S t i))) (fun j => - y (i * u + j)%nat * (c' (i * u + j)%nat - / S 0 i * S' i))). intros j J.
      apply (D_scale (- y (i * u + j)%nat) (fun t => c t (i * u + j)%nat - ln (S t i))). apply (D_minus (fun t => c t (i * u + j)%nat) (fun t => ln (S t i))); [apply M; nia|].
      apply (D_ln (fun t => S t i)); [now apply DS|apply SP]. }
  unfold dot. rewrite sum_grid, <- sum_scale_r. apply sum_ext. intros i I.
  transitivity (sum u (fun j => (exp (c 0 (i * u + j)%nat) / S 0 i - y (i * u + j)%nat) * c' (i * u + j)%nat) * (1 / INR n)).
  - f_equal.
    assert (E1 : sum u (fun j => - y (i * u + j)%nat * (c' (i * u + j)%nat - / S 0 i * S' i)) = sum u (fun j => - y (i * u + j)%nat * c' (i * u + j)%nat) + / S 0 i * S' i * sum u (fun j => y (i * u + j)%nat)).
    { rewrite <- sum_scale, <- sum_plus. apply sum_ext. intros j J. ring. }
    rewrite E1, Y by easy. unfold S'. rewrite Rmult_1_r, <- sum_scale, <- sum_plus. apply sum_ext. intros j J. unfold Rdiv. ring.
  - rewrite <- sum_scale_r. apply sum_ext. intros j J. unfold softmax. rewrite grid_div by easy. fold (S 0 i). ring.
Qed.
Lemma gradient_ext n L p d d' : (forall i, (i < n)%nat -> d i = d' i) -> gradient n L p d -> gradient n L p d'.
Proof. intros E G c c' C M. eapply D_eq; [|apply (G c c' C M)]. apply sum_ext. intros i I. now rewrite E. Qed.
Lemma loss_gradient l n u y p : (0 < n)%nat -> sound_loss l n u y ->
  gradient (n * u) (total_loss l n u y) p (fun i => (if loss_lazy l then / INR n else 1) * loss_grad l n u y p i).
Proof.
  intros N S. assert (NN : INR n <> 0) by (apply not_0_INR; lia). destruct l as [|fl z|fl z]; cbn [sound_loss] in S.
  - apply (gradient_ext _ _ _ (loss_grad MSE n u y p)); [|apply mse_gradient]. intros i I. cbn [loss_lazy]. ring.
  - subst fl. apply (gradient_ext _ _ _ (fun i => (sigmoid (p i) - y i) * (1 / INR n))); [|apply bce_gradient]. intros i I. cbn [loss_lazy loss_grad]. destruct z; field; easy.
  - destruct S as [-> S]. apply (gradient_ext _ _ _ (fun i => (softmax u p i - y i) * (1 / INR n))); [|now apply cce_gradient]. intros i I. cbn [loss_lazy loss_grad]. destruct z; field; easy.
Qed.
Lemma lsum_one f ids k : NoDup ids -> In k ids -> (forall j, In j ids -> j <> k -> f j = 0) -> lsum f ids = f k.
Proof.
  induction ids as [|a ids IH]; intros ND I H; [easy|]. inversion ND as [|? ? NI ND']. subst. cbn. destruct I as [->|I].
  - assert (Z : lsum f ids = 0). { clear IH ND ND'. induction ids as [|b ids IH]; [easy|]. cbn. rewrite IH, (H b); [ring|now right; left|intros ->; apply NI; now left| |].
      - intros K; apply NI; now right. - intros j [->|J]; apply H; [now left|now right; right]. } rewrite Z. ring.
  - rewrite IH; [|easy|easy|intros j J; apply H; now right]. rewrite (H a); [ring|now left|intros ->; easy].
Qed.
Lemma wdot_unit l g q i v : (q < nweights l)%nat -> (i < wsize l q)%nat -> wdot l g (fun q' i' => if (Nat.eqb q' q && Nat.eqb i' i)%bool then v else 0) = g q i * v.
Proof.
  intros Q I. unfold wdot. rewrite (sum_one _ q) by (try easy; intros q' _ N; apply sum_zero; intros j _; apply Nat.eqb_neq in N; rewrite N; cbn; ring).
  unfold dot. rewrite (sum_one _ i); [rewrite !Nat.eqb_refl; easy|easy|]. intros j _ N. apply Nat.eqb_neq in N. rewrite N. rewrite Bool.andb_false_r. ring.
Qed.

Lemma gradient_unique n L p d d' : gradient n L p d -> gradient n L p d' -> forall i, (i < n)%nat -> d i = d' i.
Proof.
  intros G G' i I. set (c := fun (t : R) k => if Nat.eqb k i then p k + t else p k). set (c' := fun k => if Nat.eqb k i then 1 else 0).
  assert (M : moves n (fun t k => c t k - c 0 k + p k) c').
  { intros k K. unfold c, c'. destruct (Nat.eqb k i).
    - apply (D_ext (fun t => p k + t)); [intros; ring|]. eapply D_eq; [|apply (D_plus (fun _ => p k) (fun t => t)); [apply D_const|apply D_id]]. ring.
    - apply (D_ext (fun t => p k)); [intros; ring|]. apply D_const. }
  assert (E : forall v, dot n v c' = v i).
  { intros v. unfold dot. rewrite (sum_one n i); [unfold c'; rewrite Nat.eqb_refl; ring|easy|]. intros k _ K. unfold c'. apply Nat.eqb_neq in K. rewrite K. ring. }
  assert (P : (fun k => c 0 k - c 0 k + p k) = p) by (apply FunctionalExtensionality.functional_extensionality; intros k; ring).
  pose proof (G _ c' P M) as A. pose proof (G' _ c' P M) as B. rewrite E in A, B. exact (uniqueness_limite _ _ _ _ A B).
Qed.
Lemma bce_prob_point f t a v : D f t a -> 0 < f t < 1 -> D (fun s => - (v * ln (f s) + (1 - v) * ln (1 - f s))) t ((f t - v) / (f t * (1 - f t)) * a).
Proof.
  intros S P.
  eapply D_eq; [|apply (D_opp (fun s => v * ln (f s) + (1 - v) * ln (1 - f s)));
    apply (D_plus (fun s => v * ln (f s)) (fun s => (1 - v) * ln (1 - f s))); [apply (D_scale v (fun s => ln (f s))), (D_ln f), P; exact S|apply (D_scale (1 - v) (fun s => ln (1 - f s))), (D_ln (fun s => 1 - f s))]].
  2:{ apply (D_minus (fun _ => 1) f); [apply D_const|exact S]. } 2: lra.
  field. lra.
Qed.
Lemma bce_prob_gradient z n u y p : (forall i, (i < n * u)%nat -> 0 < p i < 1) ->
  gradient (n * u) (total_loss (BCE false z) n u y) p (fun i => (p i - y i) / (p i * (1 - p i)) * (1 / INR n)).
Proof.
  intros P c c' <- M. cbn [total_loss]. apply (D_ext (fun t => sum (n * u) (fun i => - (y i * ln (c t i) + (1 - y i) * ln (1 - c t i))) * (1 / INR n))).
  { intros s. symmetry. apply bce_total. }
  eapply D_eq; [|apply (D_scale_r (1 / INR n) (fun t => sum (n * u) (fun i => - (y i * ln (c t i) + (1 - y i) * ln (1 - c t i)))))].
  2:{ apply (D_sum (n * u) (fun t i => - (y i * ln (c t i) + (1 - y i) * ln (1 - c t i))) (fun i => (c 0 i - y i) / (c 0 i * (1 - c 0 i)) * c' i)). intros i I.
      apply (bce_prob_point (fun t => c t i)); [now apply M|now apply P]. }
  rewrite <- sum_scale_r. apply sum_ext. intros i I. ring.
Qed.
Lemma cce_prob_gradient z n u y p : (forall i, (i < n * u)%nat -> 0 < p i) ->
  gradient (n * u) (total_loss (CCE false z) n u y) p (fun i => - y i / p i * (1 / INR n)).
Proof.
  intros P c c' <- M. cbn [total_loss]. unfold cce.
  eapply D_eq; [|apply (D_scale_r (1 / INR n) (fun t => sum (n * u) (fun i => - y i * ln (c t i))))].
  2:{ apply (D_sum (n * u) (fun t i => - y i * ln (c t i)) (fun i => - y i * (/ c 0 i * c' i))). intros i I.
      apply (D_scale (- y i) (fun t => ln (c t i))). apply (D_ln (fun t => c t i)); [now apply M|now apply P]. }
  rewrite <- sum_scale_r. apply sum_ext. intros i I. unfold Rdiv. ring.
Qed.

(** How much too large the update of a layer is. *)
Lemma step lr mo l h ids n m u x y : (0 < n)%nat -> NoDup ids -> all_smooth h ids n x -> fits h ids m u -> sound_loss l n u y ->
  exists h', fit_batch lr mo l h ids n u x y = Ok (h', total_loss l n u y (snd (call h ids n x))) /\
  (forall k, ~ In k ids -> h' k = h k) /\
  (forall k, kind (h' k) = kind (h k)) /\
  (forall id q i, In id ids -> (q < nweights (kind (h id)))%nat -> (i < wsize (kind (h id)) q)%nat ->
   exists g, partial (fun h => total_loss l n u y (snd (call h ids n x))) h id q i g /\
   let v := mo * velocity (h id) q i + lr * (g * excess l (kind (h id)) n) in
   velocity (h' id) q i = v /\ weights (h' id) q i = weights (h id) q i - v).
Proof.
  intros Hn ND S F SL. assert (NN : INR n <> 0) by (apply not_0_INR; lia). set (p := snd (call h ids n x)).
  destruct (chain lr mo n Hn ids h x m u ND S F (loss_grad l n u y p)) as (h2 & dx & G & B & U1 & U2 & C).
  exists h2. split; [|split; [|split]].
  - unfold fit_batch. subst p. destruct (call h ids n x) as [h1 p] eqn:E. cbn [fst snd] in *. now rewrite B.
  - intros k K. rewrite U2 by easy. now apply call_other.
  - intros k. destruct (in_dec Nat.eq_dec k ids) as [I|I]; [rewrite U1 by easy; cbn; apply call_keeps|rewrite U2 by easy; apply call_keeps].
  - intros id q i I Q W. set (d := fun q' i' => if (Nat.eqb q' q && Nat.eqb i' i)%bool then 1 else 0).
    destruct (C (fun t k => weights (bump h id q i t k)) (fun k => if Nat.eqb k id then d else fun _ _ => 0) (fun _ => x) (fun _ => 0)) as (y' & My & Dy).
    + intros k _. unfold bump. destruct (Nat.eq_dec k id) as [->|N]; [rewrite set_same; cbn|now rewrite set_other].
      apply FunctionalExtensionality.functional_extensionality; intros q'. apply FunctionalExtensionality.functional_extensionality; intros i'. destruct (Nat.eqb q' q && Nat.eqb i' i)%bool; ring.
    + easy.
    + intros k _ q' _ i' _. unfold bump. destruct (Nat.eq_dec k id) as [->|N].
      * rewrite Nat.eqb_refl. apply (D_ext (fun t => if (Nat.eqb q' q && Nat.eqb i' i)%bool then weights (h id) q' i' + t else weights (h id) q' i')); [intros t; now rewrite set_same|].
        unfold d. destruct (Nat.eqb q' q && Nat.eqb i' i)%bool; [|apply D_const]. eapply D_eq; [|apply (D_plus (fun _ => weights (h id) q' i') (fun t => t)); [apply D_const|apply D_id]]. ring.
      * apply (D_ext (fun t => weights (h k) q' i')); [intros t; now rewrite set_other|]. apply Nat.eqb_neq in N. rewrite N. apply D_const.
    + intros j _. apply D_const.
    + assert (ZX : dot (n * m) dx (fun _ => 0) = 0) by (apply sum_zero; intros; ring). rewrite ZX, Rplus_0_l in Dy. clear ZX.
      rewrite (lsum_one _ ids id ND I) in Dy.
      2:{ intros j _ N. apply Nat.eqb_neq in N. rewrite N. assert (Z : wdot (kind (h j)) (G j) (fun _ _ => 0) = 0); [|rewrite Z; ring].
          apply sum_zero. intros. apply sum_zero. intros. ring. }
      rewrite Nat.eqb_refl in Dy. unfold d in Dy. rewrite wdot_unit, Rmult_1_r in Dy by easy.
      set (s := if loss_lazy l then / INR n else 1).
      exists (s * (factor (kind (h id)) n * G id q i)). split.
      * unfold partial. apply (D_ext (fun t => total_loss l n u y (snd (call (with_weights h (fun k => weights (bump h id q i t k))) ids n x)))).
        { intros t. f_equal. apply call_agree. intros k _. cbn. unfold bump. destruct (Nat.eq_dec k id) as [->|N]; [now rewrite set_same|now rewrite set_other]. }
        rewrite <- Dy. eapply D_eq; [|apply (loss_gradient l n u y p Hn SL (fun t => snd (call (with_weights h (fun k => weights (bump h id q i t k))) ids n x)) y')].
        -- unfold dot. rewrite <- sum_scale. apply sum_ext. intros k _. fold s. ring.
        -- unfold p. apply call_agree. intros k _. cbn. unfold bump. destruct (Nat.eq_dec k id) as [->|N]; [rewrite set_same; cbn; split; [easy|]|now rewrite set_other].
           apply FunctionalExtensionality.functional_extensionality; intros q'. apply FunctionalExtensionality.functional_extensionality; intros i'. destruct (Nat.eqb q' q && Nat.eqb i' i)%bool; ring.
        -- exact My.
      * cbn zeta. rewrite U1 by easy. cbn [sgd velocity weights]. destruct (call_keeps n ids h x id) as (K1 & K2 & K3). rewrite K2, K3.
        assert (E : s * (factor (kind (h id)) n * G id q i) * excess l (kind (h id)) n = G id q i).
        { unfold s, factor, excess. destruct (loss_lazy l), (layer_lazy (kind (h id))) as [[|]|] eqn:Z; try (field; easy);
            destruct (kind (h id)); cbn in Z, Q; try discriminate; lia. }
        rewrite E. split; ring.
Qed.
Lemma back_raises lr mo id : forall ids h dy, In id ids -> untrainable (kind (h id)) -> exists e, back_loop lr mo h ids dy = Err e.
Proof.
  induction ids as [|k ids IH]; intros h dy I U; [easy|]. cbn [back_loop].
  destruct (back_layer lr mo h k dy) as [[h1 d1]|e] eqn:B; [|now exists e].
  assert (K : kind (h1 id) = kind (h id)).
  { unfold back_layer in B. destruct (cached (h k)) as [[[n x] y]|]; [|discriminate]. destruct (layer_backward (kind (h k)) (weights (h k)) n x y dy) as [[g dx]|]; [|discriminate].
    injection B as <- _. destruct (Nat.eq_dec id k) as [->|N]; [now rewrite set_same|now rewrite set_other]. }
  destruct I as [->|I]; [|apply IH; [easy|now rewrite K]]. exfalso. unfold back_layer in B. destruct (cached (h id)) as [[[n x] y]|]; [|discriminate].
  destruct (kind (h id)) as [m u b a z|m a|m|first c s|m]; cbn in U; try contradiction; destruct a; cbn in U, B; try contradiction; discriminate.
Qed.
