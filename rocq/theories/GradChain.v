(** Backpropagation through a whole model. *)
From Coq Require Import Reals List Arith Lia Lra.
From Verif Require Import GradModel GradSpec GradProofs.
Import ListNotations.
Local Open Scope R_scope.

Definition agree (h h' : heap) (ids : list nat) : Prop := forall k, In k ids -> kind (h k) = kind (h' k) /\ weights (h k) = weights (h' k).
Lemma agree_tail h h' id ids : agree h h' (id :: ids) -> agree h h' ids.
Proof. intros A k K. apply A. now right. Qed.
Lemma set_same h id o : set h id o id = o. Proof. unfold set. now rewrite Nat.eqb_refl. Qed.
Lemma set_other h id o k : k <> id -> set h id o k = h k. Proof. intros N. unfold set. now apply Nat.eqb_neq in N as ->. Qed.
Lemma agree_set h h' id ids c v : agree h h' ids -> agree (set h id (MkObj (kind (h id)) (weights (h id)) c v)) h' ids.
Proof. intros A k K. destruct (Nat.eq_dec k id) as [->|N]; [rewrite set_same; cbn; now apply A|rewrite set_other by easy; now apply A]. Qed.
Lemma agree_sym h h' ids : agree h h' ids -> agree h' h ids.
Proof. intros A k K. destruct (A k K). easy. Qed.
Lemma call_agree n ids : forall h h' x, agree h h' ids -> snd (call h ids n x) = snd (call h' ids n x).
Proof.
  induction ids as [|id ids IH]; intros h h' x A; [easy|]. cbn [call]. destruct (A id (or_introl eq_refl)) as [K W]. rewrite K, W.
  apply IH. intros k I. destruct (Nat.eq_dec k id) as [->|N]; [rewrite !set_same; easy|rewrite !set_other by easy]. apply A. now right.
Qed.
Lemma smooth_agree n ids : forall h h' x, agree h h' ids -> all_smooth h ids n x -> all_smooth h' ids n x.
Proof.
  induction ids as [|id ids IH]; intros h h' x A; [easy|]. cbn. destruct (A id (or_introl eq_refl)) as [-> ->]. intros [S T]. split; [easy|]. apply (IH h); [exact (agree_tail _ _ _ _ A)|easy].
Qed.
Lemma fits_agree ids : forall h h' m u, agree h h' ids -> fits h ids m u -> fits h' ids m u.
Proof.
  induction ids as [|id ids IH]; intros h h' m u A; [easy|]. cbn. destruct (A id (or_introl eq_refl)) as [-> _]. intros [S T]. split; [easy|]. apply (IH h); [exact (agree_tail _ _ _ _ A)|easy].
Qed.
Lemma call_other n ids : forall h x k, ~ In k ids -> fst (call h ids n x) k = h k.
Proof.
  induction ids as [|id ids IH]; intros h x k N; [easy|]. cbn [call]. rewrite IH by (intros I; apply N; now right). apply set_other. intros ->. apply N. now left.
Qed.
Lemma call_keeps n ids : forall h x k, let h1 := fst (call h ids n x) in kind (h1 k) = kind (h k) /\ weights (h1 k) = weights (h k) /\ velocity (h1 k) = velocity (h k).
Proof.
  induction ids as [|id ids IH]; intros h x k; [easy|]. cbn [call].
  destruct (IH (set h id (MkObj (kind (h id)) (weights (h id)) (Some (n, x, layer_call (kind (h id)) (weights (h id)) x)) (velocity (h id)))) (layer_call (kind (h id)) (weights (h id)) x) k) as (K & W & V).
  cbn zeta. rewrite K, W, V. destruct (Nat.eq_dec k id) as [->|N]; [rewrite set_same; easy|rewrite set_other by easy; easy].
Qed.
Lemma back_app lr mo a : forall h b dy, back_loop lr mo h (a ++ b) dy = match back_loop lr mo h a dy with Err e => Err e | Ok (h, dy) => back_loop lr mo h b dy end.
Proof. induction a as [|id a IH]; intros h b dy; [easy|]. cbn. destruct (back_layer lr mo h id dy) as [[h' d]|]; [apply IH|easy]. Qed.

(** Weights replaced. *)
Definition with_weights (h : heap) (W : nat -> nat -> vec) : heap := fun k => MkObj (kind (h k)) (W k) (cached (h k)) (velocity (h k)).
Fixpoint lsum (f : nat -> R) (ids : list nat) : R := match ids with [] => 0 | id :: ids => f id + lsum f ids end.
Lemma lsum_ext f g ids : (forall k, In k ids -> f k = g k) -> lsum f ids = lsum g ids.
Proof. induction ids as [|id ids IH]; intros H; [easy|]. cbn. rewrite H, IH by (intros; try apply H; now (left + right)). easy. Qed.

Lemma chain lr mo n : (0 < n)%nat -> forall ids h x0 m u, NoDup ids -> all_smooth h ids n x0 -> fits h ids m u -> forall dy,
  exists h2 dx G, backward lr mo (fst (call h ids n x0)) ids dy = Ok (h2, dx) /\
  (forall k, In k ids -> h2 k = sgd lr mo (fst (call h ids n x0) k) (G k)) /\ (forall k, ~ In k ids -> h2 k = fst (call h ids n x0) k) /\
  forall (W : R -> nat -> nat -> vec) W' x x', (forall k, In k ids -> W 0 k = weights (h k)) -> x 0 = x0 ->
    (forall k, In k ids -> wmoves (kind (h k)) (fun t => W t k) (W' k)) -> moves (n * m) x x' ->
    exists y', moves (n * u) (fun t => snd (call (with_weights h (W t)) ids n (x t))) y' /\
    dot (n * u) dy y' = dot (n * m) dx x' + lsum (fun k => factor (kind (h k)) n * wdot (kind (h k)) (G k) (W' k)) ids.
Proof.
  intros Hn. induction ids as [|id ids IH]; intros h x0 m u ND S F dy.
  - exists h, dy, (fun _ _ _ => 0). cbn in *. subst u. split; [easy|]. split; [easy|]. split; [easy|]. intros W W' x x' _ _ _ M. exists x'. split; [exact M|]. cbn. ring.
  - inversion ND as [|? ? NI ND' E1]. subst. cbn [all_smooth fits] in S, F. destruct S as [S0 S]. destruct F as [F0 F]. cbn [call].
    set (y0 := layer_call (kind (h id)) (weights (h id)) x0) in *. set (h' := set h id (MkObj (kind (h id)) (weights (h id)) (Some (n, x0, y0)) (velocity (h id)))).
    assert (A : agree h h' ids). { intros k K. unfold h'. destruct (Nat.eq_dec k id) as [->|N]; [easy|now rewrite set_other]. }
    destruct (IH h' y0 (fout (kind (h id))) u ND' (smooth_agree n ids h h' y0 A S) (fits_agree ids h h' _ _ A F) dy) as (h2 & d1 & G & B & U1 & U2 & C).
    set (h1 := fst (call h' ids n y0)) in *.
    assert (HID : h2 id = MkObj (kind (h id)) (weights (h id)) (Some (n, x0, y0)) (velocity (h id))).
    { rewrite (U2 id NI). unfold h1. rewrite call_other by easy. unfold h'. apply set_same. }
    assert (HID1 : h1 id = h2 id) by (symmetry; now apply U2).
    destruct (layer_defined (kind (h id)) (weights (h id)) n x0 y0 d1 S0) as (g & dx & LB).
    exists (set h2 id (sgd lr mo (h2 id) g)), dx, (fun k => if Nat.eqb k id then g else G k). split; [|split; [|split]].
    + unfold backward in *. cbn [rev]. rewrite back_app, B. cbn [back_loop]. unfold back_layer. rewrite HID. cbn [cached kind weights]. rewrite LB. reflexivity.
    + intros k [<-|K].
      * rewrite set_same, Nat.eqb_refl. now rewrite HID1.
      * assert (N : k <> id) by (intros ->; easy). rewrite set_other by easy. apply Nat.eqb_neq in N. rewrite N. now apply U1.
    + intros k K. rewrite set_other by (intros ->; apply K; now left). apply U2. intros I. apply K. now right.
    + intros W W' x x' W0 X0 WM XM.
      destruct (layer_sound (kind (h id)) (weights (h id)) n x0 d1 g dx Hn S0 LB (fun t => W t id) (W' id) x x') as (y1 & My & Dy).
      { apply W0. now left. } { easy. } { apply WM. now left. } { now rewrite F0. }
      destruct (C W W' (fun t => layer_call (kind (h id)) (W t id) (x t)) y1) as (y' & My' & Dy').
      { intros k K. rewrite (W0 k) by now right. now apply A. } { rewrite X0, W0 by now left. easy. }
      { intros k K. destruct (A k K) as [<- _]. apply WM. now right. } { exact My. }
      exists y'. split.
      * intros i I. apply (D_ext (fun t => snd (call (with_weights h' (W t)) ids n (layer_call (kind (h id)) (W t id) (x t))) i)); [|now apply My'].
        intros t. cbn [call]. cbn [with_weights kind weights]. apply (f_equal (fun v : vec => v i)). apply call_agree. intros k K. assert (N : k <> id) by (intros ->; easy). rewrite set_other by easy.
        unfold with_weights. cbn. destruct (A k K) as [-> _]. easy.
      * rewrite Dy', Dy. cbn [lsum]. rewrite Nat.eqb_refl. rewrite F0. rewrite Rplus_assoc. do 2 f_equal. apply lsum_ext. intros k K.
        assert (N : k <> id) by (intros ->; easy). apply Nat.eqb_neq in N. rewrite N. destruct (A k K) as [-> _]. reflexivity.
Qed.
