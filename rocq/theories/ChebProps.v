(** C106: the polynomial approximations of Pond. *)
From Coq Require Import Reals Lra QArith.
From Verif Require Import Base Factory TensorModel TensorProofs CrtModel CrtProofs CrtFloat CrtProps PondModel PondSpec PondProofs PondTrunc
  PondProps SigReal ChebReal ChebFit ChebModel ChebSpec ChebProofs.
Local Open Scope Z_scope.

Lemma sigma_logistic x : sigma x = logistic x.
Proof. unfold sigma, logistic. unfold Rdiv. apply Rmult_1_l. Qed.
Lemma htan_th x : htan x = th x.
Proof.
  unfold htan, th, logistic. replace (2 * x)%R with (x + x)%R by ring. rewrite Ropp_plus_distr, exp_plus. pose proof (exp_pos x).
  assert (E : (exp x * exp (- x) = 1)%R) by (rewrite <- exp_plus, Rplus_opp_r, exp_0; reflexivity).
  pose proof (exp_pos (- x)) as P. set (a := exp (- x)) in *. assert (exp x = / a)%R as -> by (apply (Rmult_eq_reg_r a); [rewrite E; field; lra|lra]).
  field. nra.
Qed.
Lemma rectified_max x : rectified x = Rmax 0 x.
Proof. unfold rectified, Rmax. destruct (Rle_dec 0 x); reflexivity. Qed.
Lemma within (y a b e1 e2 e : R) : (Rabs (y - a) <= e1 -> Rabs (a - b) <= e2 -> e1 + e2 <= e -> Rabs (y - b) <= e)%R.
Proof. intros H1 H2 H. replace (y - b)%R with ((y - a) + (a - b))%R by ring. eapply Rle_trans; [apply Rabs_triang|]. lra. Qed.
Lemma abs_in (x b c : R) : (Rabs x <= b -> - b <= x <= b)%R.
Proof. intros H. split; [|]; pose proof (Rle_abs x); pose proof (Rle_abs (- x)); rewrite Rabs_Ropp in *; lra. Qed.

(** For a public, private or masked tensor, at both precisions and for all randomness. *)
Theorem C106_sigmoid : forall p n rs t v, good p -> drawn p n rs -> denotes (ring p) n t true v ->
  (forall i, (i < n)%nat -> (Rabs (worth p (v i)) <= 4)%R) ->
  outcome p n (sigmoid (ring p) (fops p) (cfg p) rs t) (fun i y => (Rabs (y - sigma (worth p (v i))) <= 0.031)%R).
Proof.
  intros p n rs t v G Hd D HA. apply (sigmoid_outcome p n rs t v); auto.
  - intros i Hi. pose proof (HA i Hi). lra.
  - intros i y Hi H. rewrite sigma_logistic. pose proof (abs_in _ _ 0 (HA i Hi)).
    destruct p; (eapply within; [exact H|first [apply sig64_fit|apply sig100_fit]; assumption|lra]).
Qed.
Print Assumptions C106_sigmoid.
Theorem C106_tanh : forall p n rs t v, good p -> drawn p n rs -> denotes (ring p) n t true v ->
  (forall i, (i < n)%nat -> (Rabs (worth p (v i)) <= 2.5)%R) ->
  outcome p n (tanh (ring p) (fops p) (cfg p) rs t) (fun i y => (Rabs (y - htan (worth p (v i))) <= 0.066)%R).
Proof.
  intros p n rs t v G Hd D HA. apply (tanh_outcome p n rs t v); auto.
  - intros i Hi. pose proof (HA i Hi). lra.
  - intros i y Hi H. rewrite htan_th. pose proof (abs_in _ _ 0 (HA i Hi)).
    destruct p; (eapply within; [exact H|first [apply tanh64_fit|apply tanh100_fit]; lra|lra]).
Qed.
Print Assumptions C106_tanh.
Theorem C106_relu : forall p n rs t v, good p -> drawn p n rs -> denotes (ring p) n t true v ->
  (forall i, (i < n)%nat -> (Rabs (worth p (v i)) <= 6)%R) ->
  outcome p n (relu (ring p) (fops p) (cfg p) rs t) (fun i y => (Rabs (y - rectified (worth p (v i))) <= 0.4415)%R).
Proof.
  intros p n rs t v G Hd D HA. apply (relu_outcome p n rs t v); auto.
  - intros i Hi. pose proof (HA i Hi). lra.
  - intros i y Hi H. rewrite rectified_max. pose proof (abs_in _ _ 0 (HA i Hi)).
    destruct p; (eapply within; [exact H|first [apply relu64_fit|apply relu100_fit]; lra|lra]).
Qed.
Print Assumptions C106_relu.
Theorem C106_log : forall p n rs t v, good p -> drawn p n rs -> denotes (ring p) n t true v ->
  (forall i, (i < n)%nat -> (0.1 <= worth p (v i) <= 1)%R) ->
  outcome p n (log (ring p) (fops p) (cfg p) rs t) (fun i y => (Rabs (y - ln (worth p (v i))) <= 0.08)%R).
Proof.
  intros p n rs t v G Hd D HA. apply (log_outcome p n rs t v); auto.
  - intros i Hi. pose proof (HA i Hi). apply Rabs_le. lra.
  - intros i y Hi H. destruct p; (eapply within; [exact H|first [apply log64_fit|apply log100_fit]; apply HA; exact Hi|lra]).
Qed.
Print Assumptions C106_log.

(** Outside these ranges the results are wrong whatever the randomness, although the polynomials in the source are fitted to
    wider ones: the coefficients of high degree are below the resolution of the fixed-point encoding and are cut to 0. *)
Theorem C106_sigmoid_far_refuted : forall p n rs t v, good p -> drawn p n rs -> denotes (ring p) n t true v ->
  (forall i, (i < n)%nat -> worth p (v i) = 8%R) ->
  outcome p n (sigmoid (ring p) (fops p) (cfg p) rs t) (fun i y => (3 < y)%R).
Proof.
  intros p n rs t v G Hd D HA. apply (sigmoid_outcome p n rs t v); auto.
  - intros i Hi. rewrite (HA i Hi). apply Rabs_le. lra.
  - intros i y Hi H. rewrite (HA i Hi) in H. apply abs_in in H; [|exact 0%R]. destruct p; cbn [ev sig64 sig100] in H; lra.
Qed.
Print Assumptions C106_sigmoid_far_refuted.
Theorem C106_tanh_far_refuted : forall p n rs t v, good p -> drawn p n rs -> denotes (ring p) n t true v ->
  (forall i, (i < n)%nat -> worth p (v i) = 5%R) ->
  outcome p n (tanh (ring p) (fops p) (cfg p) rs t) (fun i y => (y < -2)%R).
Proof.
  intros p n rs t v G Hd D HA. apply (tanh_outcome p n rs t v); auto.
  - intros i Hi. rewrite (HA i Hi). apply Rabs_le. lra.
  - intros i y Hi H. rewrite (HA i Hi) in H. apply abs_in in H; [|exact 0%R]. destruct p; cbn [ev tanh64 tanh100] in H; lra.
Qed.
Print Assumptions C106_tanh_far_refuted.
Theorem C106_relu_far_refuted : forall p n rs t v, good p -> drawn p n rs -> denotes (ring p) n t true v ->
  (forall i, (i < n)%nat -> worth p (v i) = (-10)%R) ->
  outcome p n (relu (ring p) (fops p) (cfg p) rs t) (fun i y => (y < -5.5)%R).
Proof.
  intros p n rs t v G Hd D HA. apply (relu_outcome p n rs t v); auto.
  - intros i Hi. rewrite (HA i Hi). apply Rabs_le. lra.
  - intros i y Hi H. rewrite (HA i Hi) in H. apply abs_in in H; [|exact 0%R]. destruct p; cbn [ev relu64 relu100] in H; lra.
Qed.
Print Assumptions C106_relu_far_refuted.
(** The hypotheses are met: private and public numbers at both precisions, with masks; runs on a private 3/2 and a private 8
    ([1.5 * 6561] is cut to 9841; the sigmoid of 3/2 is 5364 units and the logarithm of 1/2 is -4548). *)
Definition some_rs (p : precision) (k : nat) : mulrnd (ring p) :=
  let e (v : Z) := [fof (ring p) v] in @MkRnd (ring p) (e 5) (e (if Nat.even k then 77 else 78)) (e (-8)) (e 2) (e 13) false (e (if Nat.even k then 2 ^ 57 else 12345)).
Definition some_x (p : precision) (a : Z) : ptensor (ring p) :=
  Priv (@MkPv (ring p) Srv0 [fof (ring p) 12345]) (@MkPv (ring p) Srv1 [fof (ring p) (a - 12345)]) true.
Definition some_p (p : precision) (a : Z) : ptensor (ring p) :=
  Pub (@MkPv (ring p) Srv0 [fof (ring p) a]) (@MkPv (ring p) Srv1 [fof (ring p) a]) true.
Lemma okT_one p v : okT (ring p) 1 [fof (ring p) v].
Proof. split; [reflexivity|]. constructor; [apply (law_of_wf _ (ring_lawful p))|constructor]. Qed.
Example C106_drawn : forall p, drawn p 1 (some_rs p).
Proof.
  intros p k. split; [unfold rnd_ok, some_rs; cbn; auto 10 using okT_one|]. intros i Hi. assert (i = 0%nat) as -> by lia.
  unfold tval, ent, some_rs. cbn [rtr nth]. rewrite (law_of _ (ring_lawful p)). destruct p, (Nat.even k); vm_compute; reflexivity.
Qed.
Example C106_private : forall p a, denotes (ring p) 1 (some_x p a) true (fun _ => a).
Proof.
  intros p a. cbn [denotes some_x pdev pval]. repeat match goal with |- _ /\ _ => split end; try reflexivity; try apply okT_one.
  intros i Hi. assert (i = 0%nat) as -> by lia. unfold tval, ent. cbn [nth]. rewrite !(law_of _ (ring_lawful p)). unfold eqm. rewrite <- Zplus_mod. f_equal. lia.
Qed.
Example C106_public : forall p a, denotes (ring p) 1 (some_p p a) true (fun _ => a).
Proof.
  intros p a. cbn [denotes some_p pdev pval]. repeat match goal with |- _ /\ _ => split end; try reflexivity; try apply okT_one.
  intros i Hi. assert (i = 0%nat) as -> by lia. unfold tval, ent. cbn [nth]. rewrite !(law_of _ (ring_lawful p)). unfold eqm. rewrite Zmod_mod. split; reflexivity.
Qed.
Example C106_ranges : (Rabs (worth Low 9841) <= 2.5 /\ Rabs (worth (High (fun _ => 0%Z)) (-98304)) <= 2.5 /\ 0.1 <= worth Low 3280 <= 1 /\
  worth Low 52488 = 8 /\ worth Low 32805 = 5 /\ worth Low (-65610) = -10 /\ worth (High (fun _ => 0%Z)) 524288 = 8)%R.
Proof. unfold worth. repeat match goal with |- _ /\ _ => split | |- (Rabs _ <= _)%R => apply Rabs_le end; lra. Qed.
Definition shown (m : M (ring Low) (ptensor (ring Low))) : option (list Z) :=
  match snd m with Ok (Priv z0 z1 _) => Some (vadd (ring Low) (pval z0) (pval z1)) | Ok (Pub z0 _ _) => Some (pval z0) | _ => None end.
Example C106_runs :
  shown (sigmoid (ring Low) (fops Low) (cfg Low) (some_rs Low) (some_x Low 9841)) = Some [5233] /\
  shown (sigmoid (ring Low) (fops Low) (cfg Low) (some_rs Low) (some_x Low 52488)) = Some [20240] /\
  shown (log (ring Low) (fops Low) (cfg Low) (some_rs Low) (some_p Low 3280)) = Some [-4513].
Proof. split; [lazy; reflexivity|split; lazy; reflexivity]. Qed.
