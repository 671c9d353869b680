(** Tensors as dual tensors without slopes: they keep the meaning of operators. *)
From Coq Require Import List Arith Bool Lia ZArith Permutation Ring Ring_theory.
From Verif Require Import ConvModel ConvSpec ConvProofs ConvGrad ConvBack OnnxModel OnnxSpec OnnxProofs OnnxConv.
Import ListNotations.

Section OnnxF.
Context {A : Type} (zero one : A) (add mul sub : A -> A -> A) (opp : A -> A) (RT : ring_theory zero one add mul sub opp eq) (positive : A -> bool).
Add Ring Aring9 : RT.
Notation D := (@dual A).
Notation dzero := (OnnxSpec.dzero zero).
Notation dadd := (OnnxSpec.dadd add).
Notation dmul := (OnnxSpec.dmul add mul).
Notation dopp := (OnnxSpec.dopp opp).
Notation dpositive := (OnnxSpec.dpositive positive).
Notation sum := (ConvModel.sum zero add).
Definition lift (t : ten A) : ten D := Ten (dims t) (fun idx => (val t idx, zero)).
Let sum_ext := sum_ext zero add.
Let sum_zero := sum_zero zero one add mul sub opp RT.
Let sum_sigma := sum_sigma zero one add mul sub opp RT.
Let fst_sigma := fst_sigma zero one add mul sub opp RT.
Let snd_sigma := snd_sigma zero one add mul sub opp RT.

Lemma sigma_lift n (F : nat -> A) (G : nat -> D) : (forall i, i < n -> G i = (F i, zero)) -> ConvSpec.sigma dzero dadd n G = (ConvSpec.sigma zero add n F, zero).
Proof.
  intros H. apply injective_projections; cbn [fst snd].
  - rewrite fst_sigma, <- sum_sigma. apply sum_ext. intros i Hi. rewrite (H i Hi). reflexivity.
  - rewrite snd_sigma. rewrite (sum_ext n _ (fun _ => zero)); [apply sum_zero|]. intros i Hi. rewrite (H i Hi). reflexivity.
Qed.
Lemma pair_add a b : dadd (a, zero) (b, zero) = (add a b, zero). Proof. unfold OnnxSpec.dadd. cbn. f_equal. ring. Qed.
Lemma pair_mul a b : dmul (a, zero) (b, zero) = (mul a b, zero). Proof. unfold OnnxSpec.dmul. cbn. f_equal. ring. Qed.
Lemma pair_opp a : dopp (a, zero) = (opp a, zero). Proof. unfold OnnxSpec.dopp. cbn. f_equal. ring. Qed.

Lemma affine_lift ta tb x w (c : nat -> A) (d : nat -> D) y : (forall j, d j = (c j, zero)) -> affine zero add mul ta tb x w c y -> affine dzero dadd dmul ta tb (lift x) (lift w) d (lift y).
Proof.
  intros Hc (n & m & u & Dx & Dw & Dy & M). exists n, m, u. split; [exact Dx|]. split; [exact Dw|]. split; [exact Dy|]. intros i j Hi Hj. cbn [lift val]. rewrite (M i j Hi Hj), (Hc j), (sigma_lift m (fun q => mul (val x (if ta then [q; i] else [i; q])) (val w (if tb then [j; q] else [q; j])))); [symmetry; apply pair_add|].
  intros q _. apply pair_mul.
Qed.
Lemma convolved_lift s0 s1 pads x w (c : nat -> A) (d : nat -> D) y : (forall j, d j = (c j, zero)) -> convolved zero add mul s0 s1 pads x w c y -> convolved dzero dadd dmul s0 s1 pads (lift x) (lift w) d (lift y).
Proof.
  intros Hc. unfold convolved. destruct (borders pads) as [[[top lft] bottom] rgt]. intros (n & ch & h & v & k0 & k1 & f & ho & wo & Dx & Dw & Dy & W0 & W1 & M). exists n, ch, h, v, k0, k1, f, ho, wo. split; [exact Dx|]. split; [exact Dw|]. split; [exact Dy|]. split; [exact W0|]. split; [exact W1|].
  intros b g i j Hb Hg Hi Hj. cbn [lift val]. rewrite (M b g i j Hb Hg Hi Hj), (Hc g). unfold correlation. erewrite sigma_lift; [symmetry; apply pair_add|]. intros u _. apply sigma_lift. intros q _. apply sigma_lift. intros e _. rewrite <- pair_mul. f_equal.
  unfold extended, at4. cbn [lift val]. destruct (_ && _ && _ && _); reflexivity.
Qed.
Lemma means_lift o ins y : means zero add mul opp positive o ins y -> means dzero dadd dmul dopp dpositive o (map lift ins) (lift y).
Proof.
  destruct o; destruct ins as [|x [|z [|c [|d ins]]]]; cbn [map means]; try (intros []; fail).
  - intros (Dy & [(Ez & M)|(Ez & N & M)]); (split; [exact Dy|]); [left|right; split; [exact Ez|]].
    + split; [exact Ez|]. intros idx Hi. cbn [lift val]. rewrite pair_add. f_equal. exact (M idx Hi).
    + split; [exact N|]. intros b idx Hi. cbn [lift val]. rewrite pair_add. f_equal. exact (M b idx Hi).
  - intros (Dy & Ez & M). split; [exact Dy|]. split; [exact Ez|]. intros idx Hi. cbn [lift val]. rewrite pair_opp, pair_add. f_equal. exact (M idx Hi).
  - intros (Dy & Ez & M). split; [exact Dy|]. split; [exact Ez|]. intros idx Hi. cbn [lift val]. rewrite pair_mul. f_equal. exact (M idx Hi).
  - intros (Dy & M). split; [exact Dy|]. intros idx Hi. cbn [lift val]. rewrite pair_opp. f_equal. exact (M idx Hi).
  - apply affine_lift. reflexivity.
  - intros (M & Dc). split; [|exact Dc]. revert M. apply affine_lift. reflexivity.
  - apply convolved_lift. reflexivity.
  - intros (M & Dc). split; [|exact Dc]. revert M. apply convolved_lift. reflexivity.
  - intros (Dy & M). split; [exact Dy|]. intros idx Hi. cbn [lift val]. unfold OnnxSpec.dpositive. cbn [fst]. rewrite (M idx Hi). destruct (positive (val x idx)); reflexivity.
  - intros (n & d & Ex & Dy & M). exists n, d. split; [exact Ex|]. split; [exact Dy|]. intros b idx Hi. cbn [lift val]. f_equal. exact (M b idx Hi).
  - intros (P & Dy & M). split; [exact P|]. split; [exact Dy|]. intros idx Hi. cbn [lift val]. f_equal. exact (M idx Hi).
Qed.
Lemma sound_lift {B} (g : graph B) (V : nat -> ten A) : sound zero add mul opp positive g V -> sound dzero dadd dmul dopp dpositive g (fun i => lift (V i)).
Proof.
  intros [H1 H2 H3 H4 H5 H6 H7 H8]. constructor; try assumption. revert H8. apply Forall_impl. intros n. apply Forall_impl. intros o M. rewrite <- (map_map V lift). apply means_lift, M.
Qed.
Lemma values_lift (t : ten A) : values (lift t) = t. Proof. destruct t. reflexivity. Qed.
End OnnxF.
