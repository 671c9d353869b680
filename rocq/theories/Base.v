(** Arithmetic base: word wrap-around and congruence modulo m.

    [swrap w] is the value stored in a [w]-bit two's complement word
    (TensorFlow's int8/int16/int32/int64 arithmetic, used by every native
    tensor in /repo/tf_encrypted/tensor/native.py); [uwrap w] is the unsigned
    reading of the same word (C++ kernels under /repo/operations). *)
From Coq Require Export ZArith Lia List Bool.
From Coq Require Export Morphisms Setoid.
From Coq Require Import ZifyBool ZifyNat.
Export ListNotations.
#[export] Set Warnings "-notation-overridden".
Global Open Scope Z_scope.

(** Models the C/TensorFlow wrap-around of signed [w]-bit integers
    (native.py 342-361: results of [x.value + y.value] etc.). *)
Definition swrap (w z : Z) : Z := (z + 2 ^ (w - 1)) mod 2 ^ w - 2 ^ (w - 1).

(** Unsigned [w]-bit reading (aux_kernels.cc, generators.h use unsigned words). *)
Definition uwrap (w z : Z) : Z := z mod 2 ^ w.

(** The range of a signed [w]-bit word (native.py 79-89: NATIVE_TYPE.min/max). *)
Definition in_s (w z : Z) : Prop := - 2 ^ (w - 1) <= z < 2 ^ (w - 1).

(** Congruence modulo [m]: mathematical notion, used in statements. *)
Definition eqm (m a b : Z) : Prop := a mod m = b mod m.

Lemma eqm_refl m a : eqm m a a. Proof. reflexivity. Qed.
Lemma eqm_sym m a b : eqm m a b -> eqm m b a. Proof. unfold eqm; congruence. Qed.
Lemma eqm_trans m a b c : eqm m a b -> eqm m b c -> eqm m a c.
Proof. unfold eqm; congruence. Qed.

#[export] Instance eqm_equiv m : Equivalence (eqm m).
Proof. split; red; [apply eqm_refl|apply eqm_sym|apply eqm_trans]. Qed.

#[export] Instance eqm_add m : Proper (eqm m ==> eqm m ==> eqm m) Z.add.
Proof.
  intros a b H c d H'. unfold eqm in *.
  rewrite (Zplus_mod a c), (Zplus_mod b d), H, H'. reflexivity.
Qed.
#[export] Instance eqm_sub m : Proper (eqm m ==> eqm m ==> eqm m) Z.sub.
Proof.
  intros a b H c d H'. unfold eqm in *.
  rewrite (Zminus_mod a c), (Zminus_mod b d), H, H'. reflexivity.
Qed.
#[export] Instance eqm_mul m : Proper (eqm m ==> eqm m ==> eqm m) Z.mul.
Proof.
  intros a b H c d H'. unfold eqm in *.
  rewrite (Zmult_mod a c), (Zmult_mod b d), H, H'. reflexivity.
Qed.
#[export] Instance eqm_opp m : Proper (eqm m ==> eqm m) Z.opp.
Proof.
  intros a b H. replace (- a) with (0 - a) by ring. replace (- b) with (0 - b) by ring.
  apply eqm_sub; [apply eqm_refl|exact H].
Qed.

Lemma eqm_eq m a b : a = b -> eqm m a b. Proof. intros ->; apply eqm_refl. Qed.

Lemma eqm_mod_l m a : eqm m (a mod m) a.
Proof.
  unfold eqm. destruct (Z.eq_dec m 0) as [->|Hm].
  - rewrite !Zmod_0_r. reflexivity.
  - apply Z.mod_mod; assumption.
Qed.

Lemma eqm_exists m a b : m <> 0 -> (eqm m a b <-> exists k, a = b + k * m).
Proof.
  intros Hm. split.
  - intros H. exists (a / m - b / m). unfold eqm in H.
    pose proof (Z.div_mod a m Hm). pose proof (Z.div_mod b m Hm). nia.
  - intros [k ->]. unfold eqm. apply Z.mod_add; assumption.
Qed.

Lemma eqm_small m a b : eqm m a b -> 0 <= a < m -> 0 <= b < m -> a = b.
Proof. unfold eqm. intros H Ha Hb. rewrite !Z.mod_small in H by assumption. exact H. Qed.

Lemma eqm_range m lo a b : 0 < m -> eqm m a b -> lo <= a < lo + m -> lo <= b < lo + m -> a = b.
Proof.
  intros Hm H Ha Hb. apply eqm_exists in H; [|lia]. destruct H as [k Hk].
  assert (k = 0 \/ k <= -1 \/ 1 <= k) as [->|[Hl|Hl]] by lia; [lia| |]; exfalso; nia.
Qed.

Lemma pow2_pos w : 0 <= w -> 0 < 2 ^ w.
Proof. intros; apply Z.pow_pos_nonneg; lia. Qed.

Lemma pow2_half w : 0 < w -> 2 ^ w = 2 * 2 ^ (w - 1).
Proof.
  intros. replace w with ((w - 1) + 1) at 1 by lia.
  rewrite Z.pow_add_r by lia. change (2 ^ 1) with 2. ring.
Qed.

Lemma pow2_split a b : 0 <= a -> 0 <= b -> 2 ^ (a + b) = 2 ^ a * 2 ^ b.
Proof. intros; apply Z.pow_add_r; lia. Qed.

Lemma swrap_range w z : 0 < w -> in_s w (swrap w z).
Proof.
  intros Hw. unfold in_s, swrap. pose proof (pow2_half w Hw).
  pose proof (pow2_pos (w - 1) ltac:(lia)).
  pose proof (Z.mod_pos_bound (z + 2 ^ (w - 1)) (2 ^ w) ltac:(lia)). lia.
Qed.

Lemma swrap_eqm w z : 0 < w -> eqm (2 ^ w) (swrap w z) z.
Proof.
  intros Hw. unfold swrap.
  rewrite (eqm_mod_l (2 ^ w) (z + 2 ^ (w - 1))). apply eqm_eq. ring.
Qed.

Lemma swrap_id w z : 0 < w -> in_s w z -> swrap w z = z.
Proof.
  intros Hw H. unfold swrap, in_s in *. pose proof (pow2_half w Hw).
  rewrite Z.mod_small by lia. ring.
Qed.

Lemma eqm_swrap_eq w a b : 0 < w -> eqm (2 ^ w) a b -> swrap w a = swrap w b.
Proof.
  intros Hw H. unfold swrap. f_equal.
  change (eqm (2 ^ w) (a + 2 ^ (w - 1)) (b + 2 ^ (w - 1))). rewrite H. reflexivity.
Qed.

Lemma in_s_eqm_eq w a b : 0 < w -> in_s w a -> in_s w b -> eqm (2 ^ w) a b -> a = b.
Proof.
  intros Hw Ha Hb H. rewrite <- (swrap_id w a), <- (swrap_id w b) by assumption.
  apply eqm_swrap_eq; assumption.
Qed.

Lemma swrap_eq_iff w a b : 0 < w -> (swrap w a = swrap w b <-> eqm (2 ^ w) a b).
Proof.
  intros Hw; split.
  - intros H. rewrite <- (swrap_eqm w a), <- (swrap_eqm w b), H by assumption. reflexivity.
  - apply eqm_swrap_eq; assumption.
Qed.

Lemma swrap_mod w z : 0 < w -> (swrap w z) mod 2 ^ w = z mod 2 ^ w.
Proof. intros; apply swrap_eqm; assumption. Qed.

Lemma uwrap_range w z : 0 <= w -> 0 <= uwrap w z < 2 ^ w.
Proof. intros. apply Z.mod_pos_bound. apply pow2_pos; assumption. Qed.

(** Sum of a list of integers: mathematical notion used in statements. *)
Definition zsum (l : list Z) : Z := fold_right Z.add 0 l.

Lemma zsum_app l l' : zsum (l ++ l') = zsum l + zsum l'.
Proof. induction l as [|x l IH]; cbn; [reflexivity|]. unfold zsum in *. rewrite IH. ring. Qed.
