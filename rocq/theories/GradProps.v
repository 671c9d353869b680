(** C65, C87, C88: training steps. *)
From Coq Require Import Reals List Arith Lia Lra FunctionalExtensionality.
From Verif Require Import GradModel GradSpec GradProofs GradChain GradLoss.
Import ListNotations.
Local Open Scope R_scope.

(** ** C65: Flatten *)

(** The gradient that Flatten passes on is that of its input if channels are last, or if there is one channel or position. *)
Theorem C65_flatten first c s w n x dy g dx : first = false \/ c = 1%nat \/ s = 1%nat ->
  layer_backward (Flatten first c s) w n x (layer_call (Flatten first c s) w x) dy = Ok (g, dx) -> pulls_back (Flatten first c s) w n x dy dx.
Proof.
  intros H B. cbn in B. injection B as <- <-. intros v v' <- M. cbn [fin fout] in *.
  apply (D_ext (fun t => dot (n * (c * s)) dy (v t))).
  - intros t. apply sum_ext. intros i I. f_equal. destruct first; [|easy]. destruct H as [|H]; [discriminate|]. cbn. unfold channels_last. f_equal.
    assert (Z : (c * s <> 0)%nat) by nia. pose proof (Nat.div_mod_eq i (c * s)) as E. set (q := (i / (c * s))%nat) in *. assert (L := Nat.mod_upper_bound i (c * s) Z). set (r := (i mod (c * s))%nat) in *.
    destruct H as [-> | ->].
    + rewrite Nat.mod_1_r, Nat.div_1_r. lia.
    + rewrite Nat.mul_1_r in *. rewrite Nat.mod_small, Nat.div_small by easy. lia.
  - apply (D_sum _ (fun t i => dy i * v t i) (fun i => dy i * v' i)). intros i I. apply D_scale. now apply M.
Qed.
Print Assumptions C65_flatten.
Example C65_flatten_meets : exists g dx, layer_backward (Flatten false 2 3) (fun _ _ => 0) 2 (fun i => INR i) (layer_call (Flatten false 2 3) (fun _ _ => 0) (fun i => INR i)) (fun i => 2 * INR i) = Ok (g, dx) /\ dx 3%nat = 6.
Proof. do 2 eexists. split; [reflexivity|]. cbn. lra. Qed.

(** With channels first, the output is transposed but the gradient is not transposed back. *)
Theorem C65_channels_first_refuted : exists c s w n x dy g dx,
  layer_backward (Flatten true c s) w n x (layer_call (Flatten true c s) w x) dy = Ok (g, dx) /\ ~ pulls_back (Flatten true c s) w n x dy dx.
Proof.
  exists 2%nat, 2%nat, (fun _ _ => 0), 1%nat, (fun _ => 0), (fun i => if Nat.eqb i 1 then 1 else 0). do 2 eexists. split; [reflexivity|]. intros P.
  specialize (P (fun t i => if Nat.eqb i 1 then t else 0) (fun i => if Nat.eqb i 1 then 1 else 0)).
  assert (A : D (fun _ => 0) 0 1); [|pose proof (uniqueness_limite _ _ _ _ A (D_const 0 0)); lra].
  eapply D_eq; [|eapply D_ext; [|apply P]].
  - unfold dot. cbn. ring.
  - intros t. unfold dot. cbn. ring.
  - extensionality i. now destruct (Nat.eqb i 1).
  - intros i _. destruct (Nat.eqb i 1); [apply D_id|apply D_const].
Qed.
Print Assumptions C65_channels_first_refuted.

(** ** C87: one step of training *)

(** [fit_batch] returns the loss of the model before the step, and changes each weight by momentum and the derivative of
    that loss by the weight, multiplied by the batch size if neither the loss nor the layer divides by it, and divided by
    it if both do.  Everything else keeps its value. *)
Theorem C87_step lr mo l h ids n m u x y : (0 < n)%nat -> NoDup ids -> all_smooth h ids n x -> fits h ids m u -> sound_loss l n u y ->
  exists h', fit_batch lr mo l h ids n u x y = Ok (h', total_loss l n u y (snd (call h ids n x))) /\
  (forall k, ~ In k ids -> h' k = h k) /\
  (forall k, kind (h' k) = kind (h k)) /\
  (forall id q i, In id ids -> (q < nweights (kind (h id)))%nat -> (i < wsize (kind (h id)) q)%nat ->
   exists g, partial (fun h => total_loss l n u y (snd (call h ids n x))) h id q i g /\
   let v := mo * velocity (h id) q i + lr * (g * excess l (kind (h id)) n) in
   velocity (h' id) q i = v /\ weights (h' id) q i = weights (h id) q i - v).
Proof. apply step. Qed.
Print Assumptions C87_step.

(** If the Dense layers and the loss agree on who divides by the batch size, it is the step of gradient descent. *)
Theorem C87_sgd lr mo l h ids n m u x y : (0 < n)%nat -> NoDup ids -> all_smooth h ids n x -> fits h ids m u -> sound_loss l n u y ->
  (forall id z, In id ids -> layer_lazy (kind (h id)) = Some z -> z = loss_lazy l) ->
  exists h', fit_batch lr mo l h ids n u x y = Ok (h', total_loss l n u y (snd (call h ids n x))) /\
  (forall id q i, In id ids -> (q < nweights (kind (h id)))%nat -> (i < wsize (kind (h id)) q)%nat ->
   exists g, partial (fun h => total_loss l n u y (snd (call h ids n x))) h id q i g /\
   velocity (h' id) q i = mo * velocity (h id) q i + lr * g /\ weights (h' id) q i = weights (h id) q i - (mo * velocity (h id) q i + lr * g)).
Proof.
  intros Hn ND S F SL Z. assert (NN : INR n <> 0) by (apply not_0_INR; lia). destruct (step lr mo l h ids n m u x y Hn ND S F SL) as (h' & E & _ & _ & H). exists h'. split; [exact E|].
  intros id q i I Q W. destruct (H id q i I Q W) as (g & P & V & U). exists g. split; [exact P|].
  assert (X : excess l (kind (h id)) n = 1).
  { unfold excess. destruct (layer_lazy (kind (h id))) as [z|] eqn:L; [apply Z in L; [subst z; destruct (loss_lazy l); field; easy|easy]|]. destruct (kind (h id)); try discriminate; cbn in Q; lia. }
  rewrite X, Rmult_1_r in V, U. easy.
Qed.
Print Assumptions C87_sgd.
(** Two layers, two samples of two features, all in order. *)
Definition ex_heap : heap := fun k => match k with
  | 0%nat => MkObj (Dense 2 1 true ARelu false) (fun q i => 1) None (fun _ _ => 1 / 2)
  | _ => MkObj (Dense 1 1 true ASigmoid false) (fun q i => 2) None (fun _ _ => 0) end.
Example C87_sgd_meets : let x := fun i => INR i in
  NoDup [0%nat; 1%nat] /\ all_smooth ex_heap [0%nat; 1%nat] 2 x /\ fits ex_heap [0%nat; 1%nat] 2 1 /\ sound_loss MSE 2 1 (fun _ => 1) /\
  (forall id z, In id [0%nat; 1%nat] -> layer_lazy (kind (ex_heap id)) = Some z -> z = loss_lazy MSE).
Proof.
  cbn zeta. split; [|split; [|split; [|split]]].
  - repeat constructor; cbn; intuition lia.
  - cbn [all_smooth ex_heap kind weights smooth]. split; [|split; [|easy]].
    + right. split; [now right; left|]. intros _ p P. assert (C : p = 0%nat \/ p = 1%nat) by lia. destruct C as [-> | ->]; unfold affine; cbn; apply Rgt_not_eq; cbn; lra.
    + right. split; [now right; right|]. discriminate.
  - cbn. easy.
  - exact I.
  - intros id z [<-|[<-|[]]] E; cbn in *; congruence.
Qed.

Lemma bump_same h id q i t : weights (bump h id q i t id) q i = weights (h id) q i + t.
Proof. unfold bump. rewrite set_same. cbn. now rewrite !Nat.eqb_refl. Qed.
(** MeanSquaredError always divides; a Dense layer with [lazy_normalization] divides again: the step is not the gradient. *)
Theorem C87_normalisation_refuted : exists h ids n m u x y h' v g, NoDup ids /\ all_smooth h ids n x /\ fits h ids m u /\
  fit_batch 1 0 MSE h ids n u x y = Ok (h', v) /\ partial (fun h => total_loss MSE n u y (snd (call h ids n x))) h 0 0 0 g /\
  weights (h' 0%nat) 0%nat 0%nat <> weights (h 0%nat) 0%nat 0%nat - g.
Proof.
  set (h := fun _ : nat => MkObj (Dense 1 1 false ALinear true) (fun _ _ => 1) None (fun _ _ => 0)).
  exists h, [0%nat], 2%nat, 1%nat, 1%nat, (fun _ => 1), (fun _ => 0). do 2 eexists. exists 2. repeat split.
  - repeat constructor. easy.
  - right. split; [now left|discriminate].
  - unfold partial. apply (D_ext (fun t => (1 + t) * (1 + t))).
    + intros t. cbn. unfold mse, affine. cbn. field.
    + eapply D_eq; [|apply (D_mult (fun t => 1 + t) (fun t => 1 + t) 0 (0 + 1) (0 + 1)); apply (D_plus (fun _ => 1) (fun t => t)); apply D_const || apply D_id]. ring.
  - cbn. unfold affine. cbn. lra.
Qed.
Print Assumptions C87_normalisation_refuted.
(** A layer object that occurs twice in a model does not get its gradient. *)
Theorem C87_shared_layer_refuted : exists h ids n m u x y h' v g, all_smooth h ids n x /\ fits h ids m u /\
  (forall id z, In id ids -> layer_lazy (kind (h id)) = Some z -> z = loss_lazy MSE) /\
  fit_batch 1 0 MSE h ids n u x y = Ok (h', v) /\ partial (fun h => total_loss MSE n u y (snd (call h ids n x))) h 0 0 0 g /\
  weights (h' 0%nat) 0%nat 0%nat <> weights (h 0%nat) 0%nat 0%nat - g.
Proof.
  set (h := fun _ : nat => MkObj (Dense 1 1 false ALinear false) (fun _ _ => 3) None (fun _ _ => 0)).
  exists h, [0%nat; 0%nat], 1%nat, 1%nat, 1%nat, (fun _ => 1), (fun _ => 0). do 2 eexists. exists 108. repeat split.
  - right. split; [now left|discriminate].
  - right. split; [now left|discriminate].
  - intros id z [<-|[<-|[]]] E; cbn in *; congruence.
  - unfold partial. set (s := fun t : R => (3 + t) * (3 + t)).
    assert (S : D s 0 6). { eapply D_eq; [|apply (D_mult (fun t => 3 + t) (fun t => 3 + t) 0 (0 + 1) (0 + 1)); apply (D_plus (fun _ => 3) (fun t => t)); apply D_const || apply D_id]. ring. }
    apply (D_ext (fun t => s t * s t)).
    + intros t. unfold s. cbn. unfold mse, affine. cbn. unfold affine. cbn. field.
    + eapply D_eq; [|apply (D_mult s s 0 6 6); exact S]. unfold s. ring.
  - cbn. unfold affine. cbn. unfold affine. cbn. lra.
Qed.
Print Assumptions C87_shared_layer_refuted.
(** A model with an activation whose derivative the library does not have cannot be trained: the step raises. *)
Theorem C87_untrainable lr mo l h ids n u x y id : In id ids -> untrainable (kind (h id)) -> exists e, fit_batch lr mo l h ids n u x y = Err e.
Proof.
  intros I U. unfold fit_batch. destruct (call h ids n x) as [h1 p] eqn:E. destruct (call_keeps n ids h x id) as (K & _). rewrite E in K. cbn in K.
  destruct (back_raises lr mo id (rev ids) h1 (loss_grad l n u y p)) as [e R]; [now rewrite <- in_rev|now rewrite K|]. exists e. unfold backward. now rewrite R.
Qed.
Print Assumptions C87_untrainable.
Example C87_untrainable_meets : untrainable (Activation 3 ANone) /\ untrainable (Dense 2 2 true ATanh false) /\ ~ untrainable (Dense 2 2 true ANone false).
Proof. cbn. tauto. Qed.

(** ** C88: gradients of losses *)

(** The gradient that a loss gives is that of its value: mean squared error always, the cross entropies on logits (the
    categorical one for labels whose rows sum to one); with [lazy_normalization] it is the batch size times that. *)
Theorem C88_gradient l n u y p : (0 < n)%nat -> sound_loss l n u y ->
  gradient (n * u) (total_loss l n u y) p (fun i => (if loss_lazy l then / INR n else 1) * loss_grad l n u y p i).
Proof. apply loss_gradient. Qed.
Print Assumptions C88_gradient.
Example C88_gradient_meets : sound_loss (CCE true false) 2 2 (fun i => if Nat.eqb (i mod 3) 0 then 1 else 0).
Proof. split; [easy|]. intros i I. assert (C : i = 0%nat \/ i = 1%nat) by lia. destruct C as [-> | ->]; cbn; lra. Qed.

(** On probabilities, the binary cross entropy (with its default options) gives the gradient times [p (1 - p)]. *)
Theorem C88_binary_probabilities n u y p : (0 < n)%nat -> (forall i, (i < n * u)%nat -> 0 < p i < 1) ->
  gradient (n * u) (total_loss (BCE false false) n u y) p (fun i => loss_grad (BCE false false) n u y p i / (p i * (1 - p i))).
Proof.
  intros N P. eapply gradient_ext; [|now apply bce_prob_gradient]. intros i I. cbn. specialize (P i I). assert (INR n <> 0) by (apply not_0_INR; lia). field. lra.
Qed.
Print Assumptions C88_binary_probabilities.
(** So it is not the gradient unless all predictions are exact. *)
Theorem C88_binary_probabilities_refuted n u y p i : (0 < n)%nat -> (forall i, (i < n * u)%nat -> 0 < p i < 1) -> (i < n * u)%nat -> p i <> y i ->
  ~ gradient (n * u) (total_loss (BCE false false) n u y) p (loss_grad (BCE false false) n u y p).
Proof.
  intros N P I NE G. pose proof (gradient_unique _ _ _ _ _ G (C88_binary_probabilities n u y p N P) i I) as E. cbn in E.
  specialize (P i I). assert (0 < INR n) by (apply lt_0_INR; lia). set (a := (p i - y i) * (1 / INR n)) in *.
  assert (A : a <> 0). { unfold a. apply Rmult_integral_contrapositive_currified; [lra|]. unfold Rdiv. rewrite Rmult_1_l. apply Rinv_neq_0_compat. lra. }
  set (s := p i * (1 - p i)) in *. assert (S : 0 < s) by (unfold s; nra). assert (S1 : s < 1) by (unfold s; nra).
  assert (Q : a * s = a) by (rewrite E at 1; field; lra). apply (Rmult_eq_reg_l a) with (r1 := s) (r2 := 1) in A; lra.
Qed.
Print Assumptions C88_binary_probabilities_refuted.
Example C88_binary_probabilities_meets : (forall i, (i < 1 * 1)%nat -> 0 < (fun _ => 1 / 2) i < 1) /\ (fun _ : nat => 1 / 2) 0%nat <> (fun _ => 1) 0%nat.
Proof. split; [intros; lra|lra]. Qed.
(** The categorical cross entropy on probabilities (its default) has gradient [- y / p] but gives [p - y]. *)
Theorem C88_categorical_probabilities_refuted n u y p i : (0 < n)%nat -> (forall i, (i < n * u)%nat -> 0 < p i < 1) -> (i < n * u)%nat -> y i = 0 \/ y i = 1 ->
  ~ gradient (n * u) (total_loss (CCE false false) n u y) p (loss_grad (CCE false false) n u y p).
Proof.
  intros N P I Y G. assert (P' : forall i, (i < n * u)%nat -> 0 < p i) by (intros; now apply P). pose proof (gradient_unique _ _ _ _ _ G (cce_prob_gradient false n u y p P') i I) as E. cbn in E.
  specialize (P i I). assert (0 < INR n) by (apply lt_0_INR; lia). assert (Z : 1 / INR n <> 0) by (unfold Rdiv; rewrite Rmult_1_l; apply Rinv_neq_0_compat; lra).
  apply Rmult_eq_reg_r in E; [|exact Z]. assert (Q : (p i - y i) * p i = - y i) by (rewrite E; field; lra). destruct Y as [Y|Y]; rewrite Y in Q; nra.
Qed.
Print Assumptions C88_categorical_probabilities_refuted.
(** On logits, the gradient of the categorical cross entropy is wrong for labels whose row does not sum to one. *)
Theorem C88_categorical_labels_refuted : exists n u y p, (0 < n)%nat /\ ~ gradient (n * u) (total_loss (CCE true false) n u y) p (loss_grad (CCE true false) n u y p).
Proof.
  exists 1%nat, 1%nat, (fun _ => 0), (fun _ => 0). split; [lia|]. intros G. specialize (G (fun t _ => t) (fun _ => 1) eq_refl (fun i _ => D_id 0)).
  assert (A : D (fun _ => 0) 0 1); [|pose proof (uniqueness_limite _ _ _ _ A (D_const 0 0)); lra].
  eapply D_eq; [|eapply D_ext; [|exact G]].
  - unfold dot. cbn. unfold softmax. cbn. rewrite exp_0. field.
  - intros t. cbn. unfold cce. cbn. ring.
Qed.
Print Assumptions C88_categorical_labels_refuted.
