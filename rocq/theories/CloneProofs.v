(** Proofs about the weights of tfe.keras models: what layers compute. *)
From Coq Require Import List Arith Bool Lia Ring Ring_theory.
From Verif Require Import ConvModel ConvSpec ConvProofs CloneModel CloneSpec.
Import ListNotations.

(** Broadcasting to a shape that covers the other one. *)
Fixpoint covers (d e : list nat) : Prop :=
  match e with [] => True | b :: e => match d with [] => False | a :: d => (b = a \/ b = 1) /\ covers d e end end.
Lemma broadcast_rev_l d e : covers d e -> broadcast_rev d e = Ok d.
Proof.
  revert e. induction d as [|a d IH]; intros [|b e] H; cbn in *; try reflexivity; [destruct H|]. destruct H as [H H']. rewrite (IH _ H').
  destruct (Nat.eqb_spec a b) as [E|E]; [reflexivity|]. destruct H as [H|H]; [congruence|]. subst b. destruct (Nat.eqb_spec a 1); [congruence|]. reflexivity.
Qed.
Lemma broadcast_rev_r d e : covers e d -> broadcast_rev d e = Ok e.
Proof.
  revert d. induction e as [|a e IH]; intros [|b d] H; cbn in *; try reflexivity; [destruct H|]. destruct H as [H H']. rewrite (IH _ H').
  destruct (Nat.eqb_spec b a) as [E|E]; [congruence|]. destruct H as [H|H]; [congruence|]. subst b. reflexivity.
Qed.
Lemma broadcast_l d e : covers (rev d) (rev e) -> broadcast d e = Ok d.
Proof. intros H. unfold broadcast. rewrite (broadcast_rev_l _ _ H), rev_involutive. reflexivity. Qed.
Lemma broadcast_r d e : covers (rev e) (rev d) -> broadcast d e = Ok e.
Proof. intros H. unfold broadcast. rewrite (broadcast_rev_r _ _ H), rev_involutive. reflexivity. Qed.
Lemma within_length idx d : CloneSpec.within idx d -> length idx = length d.
Proof. induction 1; cbn; congruence. Qed.
Lemma stretch_self idx d : CloneSpec.within idx d -> stretch d idx = idx.
Proof.
  intros H. unfold stretch. rewrite (within_length _ _ H), Nat.sub_diag. cbn [skipn]. induction H as [|i a idx d Hi H IH]; [reflexivity|]. cbn [combine map]. rewrite IH. f_equal.
  destruct (Nat.eqb_spec a 1); [lia|reflexivity].
Qed.
Lemma low a i : i < a -> (if Nat.eqb a 1 then 0 else i) = i.
Proof. destruct (Nat.eqb_spec a 1); lia. Qed.

Section CloneP.
Context {A : Type} (zero one : A) (add mul sub : A -> A -> A) (opp : A -> A) (RT : ring_theory zero one add mul sub opp eq).
Context (sqrt recip : A -> A) (epsilon : A).
Add Ring Aring8 : RT.
Notation sigma := (ConvSpec.sigma zero add).
Notation config := (config (A:=A)).
Notation layer := (layer (A:=A)).

Lemma broadcasted_l f (x y : ten A) : covers (rev (dims x)) (rev (dims y)) ->
  exists z, broadcasted f x y = Ok z /\ dims z = dims x /\ forall idx, CloneSpec.within idx (dims x) -> val z idx = f (val x idx) (val y (stretch (dims y) idx)).
Proof.
  intros H. unfold broadcasted. rewrite (broadcast_l _ _ H). eexists. split; [reflexivity|]. split; [reflexivity|]. intros idx W. cbn [val]. rewrite (stretch_self _ _ W). reflexivity.
Qed.
Lemma broadcasted_r f (x y : ten A) : covers (rev (dims y)) (rev (dims x)) ->
  exists z, broadcasted f x y = Ok z /\ dims z = dims y /\ forall idx, CloneSpec.within idx (dims y) -> val z idx = f (val x (stretch (dims x) idx)) (val y idx).
Proof.
  intros H. unfold broadcasted. rewrite (broadcast_r _ _ H). eexists. split; [reflexivity|]. split; [reflexivity|]. intros idx W. cbn [val]. rewrite (stretch_self _ _ W). reflexivity.
Qed.

(** The mask of DepthwiseConv2D. *)
Lemma mask_inner m d (l : list nat) (t : ten A) : let z := fold_left (fun t i =>
      Ten (dims t) (fun idx => match idx with [_; _; i'; j] => if Nat.eqb i' i && Nat.eqb j (d + i * m) then one else val t idx | _ => val t idx end)) l t in
  dims z = dims t /\ forall u v i j, val z [u; v; i; j] = if existsb (Nat.eqb i) l && Nat.eqb j (d + i * m) then one else val t [u; v; i; j].
Proof.
  revert t. induction l as [|a l IH]; intros t z; [split; reflexivity|]. subst z. cbn [fold_left]. match goal with |- context [fold_left _ l ?s] => set (t1 := s) end.
  destruct (IH t1) as [D V]. split; [exact D|]. intros u v i j. rewrite V. unfold t1. cbn [val existsb]. destruct (Nat.eqb_spec i a) as [->|E]; cbn [andb orb].
  - destruct (Nat.eqb j (d + a * m)); [|rewrite andb_false_r; reflexivity]. destruct (existsb (Nat.eqb a) l); reflexivity.
  - reflexivity.
Qed.
Lemma mask_ok k0 k1 c m : dims (get_mask zero one k0 k1 c m) = [k0; k1; c; c * m] /\
  forall u v i e d, i < c -> d < m -> val (get_mask zero one k0 k1 c m) [u; v; i; e * m + d] = if Nat.eqb i e then one else zero.
Proof.
  unfold get_mask. set (F := fun (t : ten A) d => fold_left _ (seq 0 c) t).
  assert (G : forall l t, let z := fold_left F l t in dims z = dims t /\
    forall u v i j, i < c -> val z [u; v; i; j] = if existsb (fun d => Nat.eqb j (d + i * m)) l then one else val t [u; v; i; j]).
  { induction l as [|a l IH]; intros t z; [split; reflexivity|]. subst z. cbn [fold_left]. destruct (IH (F t a)) as [D V]. destruct (mask_inner m a (seq 0 c) t) as [D1 V1]. fold (F t a) in D1, V1.
    split; [congruence|]. intros u v i j Hi. rewrite V, V1 by exact Hi. cbn [existsb].
    assert (X : existsb (Nat.eqb i) (seq 0 c) = true) by (apply existsb_exists; exists i; split; [apply in_seq; lia|apply Nat.eqb_refl]). rewrite X. cbn [andb].
    destruct (Nat.eqb j (a + i * m)); [|reflexivity]. cbn [orb]. destruct (existsb _ l); reflexivity. }
  destruct (G (seq 0 m) (Ten [k0; k1; c; c * m] (fun _ => zero))) as [D V]. split; [exact D|]. intros u v i e d Hi Hd. rewrite V by exact Hi. cbn [val].
  destruct (Nat.eqb_spec i e) as [->|E].
  - assert (X : existsb (fun d0 => Nat.eqb (e * m + d) (d0 + e * m)) (seq 0 m) = true) by (apply existsb_exists; exists d; split; [apply in_seq; lia|apply Nat.eqb_eq; lia]). rewrite X. reflexivity.
  - assert (X : existsb (fun d0 => Nat.eqb (e * m + d) (d0 + i * m)) (seq 0 m) = false); [|rewrite X; reflexivity].
    apply not_true_iff_false. intros X. apply existsb_exists in X. destruct X as (d0 & X & Y). apply in_seq in X. apply Nat.eqb_eq in Y. apply E.
    destruct (Nat.lt_trichotomy i e) as [L|[L|L]]; [|exact L|]; exfalso; nia.
Qed.
(** A kernel for each channel becomes the kernel of a convolution over all channels. *)
Lemma rearrange_ok k0 k1 c m (K : ten A) : 0 < m -> dims K = [k0; k1; c; m] ->
  exists W, rearrange zero one mul k0 k1 c m K = Ok W /\ dims W = [k0; k1; c; c * m] /\
  forall u v i e d, u < k0 -> v < k1 -> i < c -> e < c -> d < m -> val W [u; v; i; e * m + d] = if Nat.eqb i e then val K [u; v; e; d] else zero.
Proof.
  intros Hm D. unfold rearrange. destruct (mask_ok k0 k1 c m) as [Dk Vk]. destruct (Nat.ltb_spec 1 m) as [L|L].
  - destruct (reshape_ok [k0; k1; 1; c * m] K) as (K1 & E1 & D1 & V1); [rewrite D; cbn; lia|]. rewrite E1.
    destruct (broadcasted_r mul K1 (get_mask zero one k0 k1 c m)) as (W & EW & DW & VW). { rewrite D1, Dk. cbn. auto 10. }
    rewrite EW. exists W. split; [reflexivity|]. split; [congruence|]. intros u v i e d Hu Hv Hi He Hd. assert (J : e * m + d < c * m) by nia.
    rewrite VW by (rewrite Dk; apply w4; assumption). rewrite Vk by assumption. rewrite D1. unfold stretch. cbn [length Nat.sub skipn combine map]. rewrite Nat.eqb_refl, !low by assumption.
    rewrite (V1 _ [u; v; e; d]); [destruct (Nat.eqb i e); ring|apply w4; lia|rewrite D; apply w4; assumption|rewrite D; cbn; lia].
  - assert (m = 1) by lia. subst m. rewrite Nat.mul_1_r in *. destruct (broadcasted_r mul K (get_mask zero one k0 k1 c 1)) as (W & EW & DW & VW). { rewrite D, Dk. cbn. auto 10. }
    rewrite Dk in DW, VW. rewrite EW. exists W. split; [reflexivity|]. split; [exact DW|]. intros u v i e d Hu Hv Hi He Hd. assert (d = 0) by lia. subst d.
    rewrite VW by (apply w4; lia). rewrite Vk by lia. rewrite D. unfold stretch. cbn [length Nat.sub skipn combine map]. rewrite !low by assumption. cbn [Nat.eqb].
    destruct (Nat.eqb_spec i e) as [->|]; ring.
Qed.
(** Its convolution takes each channel by itself. *)
Lemma sigma_ext n f g : (forall i, i < n -> f i = g i) -> sigma n f = sigma n g.
Proof. intros H. rewrite <- !(sum_sigma zero one add mul sub opp RT). apply (sum_ext zero add). exact H. Qed.
Lemma sigma_one n e (f : nat -> A) : e < n -> sigma n (fun i => if Nat.eqb i e then f i else zero) = f e.
Proof.
  intros H. rewrite <- (sum_sigma zero one add mul sub opp RT). induction n as [|n IH]; [lia|]. cbn [ConvModel.sum]. destruct (Nat.eqb_spec n e) as [->|E].
  - rewrite (sum_ext zero add e _ (fun _ => zero)). 2: { intros i Hi. destruct (Nat.eqb_spec i e); [lia|reflexivity]. }
    rewrite (sum_zero zero one add mul sub opp RT). ring.
  - rewrite IH by lia. ring.
Qed.
Lemma depth_correlation img (W K : ten A) k0 k1 c m sh sw b e d i j :
  (forall u v i e d, u < k0 -> v < k1 -> i < c -> e < c -> d < m -> val W [u; v; i; e * m + d] = if Nat.eqb i e then val K [u; v; e; d] else zero) -> e < c -> d < m ->
  correlation zero add mul img (at4 W) c k0 k1 sh sw b (e * m + d) i j = sigma k0 (fun u => sigma k1 (fun v => mul (img b e (i * sh + u) (j * sw + v)) (at4 K u v e d))).
Proof.
  intros H He Hd. unfold correlation. apply sigma_ext. intros u Hu. apply sigma_ext. intros v Hv.
  rewrite (sigma_ext c _ (fun ch => if Nat.eqb ch e then mul (img b ch (i * sh + u) (j * sw + v)) (at4 K u v e d) else zero)).
  - apply (sigma_one c e (fun ch => mul (img b ch (i * sh + u) (j * sw + v)) (at4 K u v e d)) He).
  - intros ch Hc. unfold at4. rewrite H by assumption. destruct (Nat.eqb ch e); ring.
Qed.

(** Convolutions with a bias and an activation. *)
Definition bias3 (b : option (ten A)) (g : nat) (v : A) : A := match b with Some b => add v (val b [g; 0; 0]) | None => v end.
Lemma acted_activated act (y : ten A) : acted act y (activated act y).
Proof. destruct act; reflexivity. Qed.
Lemma keeps_dims act (y : ten A) : keeps act -> dims (activated act y) = dims y.
Proof. destruct act; [intros H; apply H|reflexivity]. Qed.
Lemma convolve_ok L (K : ten A) bias act (x : ten A) n c h w kh kw f ho wo :
  dims x = shape (channels_first L) n c h w -> dims K = [kh; kw; c; f] -> match bias with Some b => dims b = [f; 1; 1] | None => True end ->
  0 < kh -> 0 < kw -> 0 < c -> 0 < f -> 0 < stride0 L -> 0 < stride1 L -> windows (pad L) h kh (stride0 L) ho -> windows (pad L) w kw (stride1 L) wo ->
  exists y top left, convolve zero add mul L K bias act x = Ok (activated act y) /\ dims y = shape (channels_first L) n f ho wo /\
  placed (pad L) h kh (stride0 L) ho top /\ placed (pad L) w kw (stride1 L) wo left /\
  forall b g i j, b < n -> g < f -> i < ho -> j < wo -> nchw (channels_first L) y b g i j =
    bias3 bias g (correlation zero add mul (extended zero (nchw (channels_first L) x) h w top left) (at4 K) c kh kw (stride0 L) (stride1 L) b g i j).
Proof.
  intros Dx Dk Db H1 H2 H3 H4 S0 S1 W0 W1. unfold convolve. set (x1 := if channels_first L then x else transpose [0; 3; 1; 2] x).
  assert (D1 : dims x1 = [n; c; h; w]). { unfold x1. unfold shape in Dx. destruct (channels_first L); [exact Dx|]. unfold transpose. cbn [dims]. rewrite Dx. reflexivity. }
  destruct (conv2d_ok zero one add mul sub opp RT x1 K n c h w kh kw f (stride0 L) (stride1 L) (pad L) D1 Dk H1 H2 H3 H4) as (z & Ez & Dz & Vz). cbv zeta in *. rewrite Ez.
  rewrite (windows_unique _ _ _ _ _ _ (out_len_windows (pad L) h kh (stride0 L) S0) W0) in *. rewrite (windows_unique _ _ _ _ _ _ (out_len_windows (pad L) w kw (stride1 L) S1) W1) in *.
  assert (Q : exists y1, match bias with Some b => broadcasted add z b | None => Ok z end = Ok y1 /\ dims y1 = [n; f; ho; wo] /\
    forall b g i j, b < n -> g < f -> i < ho -> j < wo -> at4 y1 b g i j = bias3 bias g (at4 z b g i j)).
  { destruct bias as [b|]; [|exists z; split; [reflexivity|]; split; [exact Dz|]; reflexivity].
    destruct (broadcasted_l add z b) as (y1 & E1 & Y1 & V1). { rewrite Dz, Db. cbn. auto 10. }
    exists y1. split; [exact E1|]. split; [congruence|]. intros b' g i j Hb Hg Hi Hj. unfold at4. rewrite V1 by (rewrite Dz; apply w4; assumption). rewrite Db.
    unfold stretch. cbn [length Nat.sub skipn combine map Nat.eqb]. rewrite low by exact Hg. reflexivity. }
  destruct Q as (y1 & E1 & Y1 & V1). rewrite E1. set (y := if channels_first L then y1 else transpose [0; 2; 3; 1] y1).
  exists y, (tf_before (pad L) h kh (stride0 L)), (tf_before (pad L) w kw (stride1 L)). split; [reflexivity|].
  split. { unfold y, shape. destruct (channels_first L); [exact Y1|]. unfold transpose. cbn [dims]. rewrite Y1. reflexivity. }
  assert (P : forall p h k s o, 0 < s -> windows p h k s o -> placed p h k s o (tf_before p h k s)).
  { clear. intros p h k s o S W. destruct p; [|reflexivity]. unfold placed, tf_before. rewrite <- (windows_unique _ _ _ _ _ _ (out_len_windows SAME h k s S) W). reflexivity. }
  split; [apply P; assumption|]. split; [apply P; assumption|]. intros b g i j Hb Hg Hi Hj.
  assert (R : nchw (channels_first L) y b g i j = at4 y1 b g i j). { unfold y, nchw. destruct (channels_first L); reflexivity. }
  rewrite R, V1, Vz by assumption. f_equal. unfold conv_at, correlation, pixel.
  rewrite (sum_sigma zero one add mul sub opp RT). apply sigma_ext. intros u Hu. rewrite (sum_sigma zero one add mul sub opp RT). apply sigma_ext. intros v Hv.
  rewrite (sum_sigma zero one add mul sub opp RT). apply sigma_ext. intros ch Hch. f_equal. unfold extended, x1, nchw. destruct (channels_first L); reflexivity.
Qed.

(** Normalizations: [chan] is the index of a weight. *)
Definition chan (axis : nat) (idx : list nat) : list nat := set_nth axis (nth axis idx 0) (repeat 0 (length idx)).
Definition norm_shape (axis : nat) (d : list nat) : list nat := set_nth axis (nth axis d 0) (repeat 1 (length d)).
Definition normal (axis : nat) (d : list nat) : Prop := axis = 1 /\ length d = 2 \/ axis = 1 /\ length d = 4 \/ axis = 3 /\ length d = 4.
Ltac axes H := destruct H as [[-> H]|[[-> H]|[-> H]]].
Ltac shape_of d H := repeat (destruct d as [|? d]; cbn in H; try discriminate H).
Lemma norm_covers axis d : normal axis d -> covers (rev d) (rev (norm_shape axis d)).
Proof. intros N. axes N; shape_of d N; cbn; auto 10. Qed.
Lemma norm_covers' axis d : normal axis d -> covers (rev (norm_shape axis d)) (rev (norm_shape axis d)).
Proof. intros N. axes N; shape_of d N; cbn; auto 10. Qed.
Lemma norm_stretch axis d idx : normal axis d -> CloneSpec.within idx d -> stretch (norm_shape axis d) idx = chan axis idx.
Proof.
  intros N W. axes N; shape_of d N; repeat match goal with W : CloneSpec.within _ _ |- _ => inversion W; clear W; subst | W : Forall2 _ _ _ |- _ => inversion W; clear W; subst end;
    unfold stretch, chan; cbn; rewrite low by assumption; reflexivity.
Qed.
Lemma norm_l f axis (x y : ten A) : normal axis (dims x) -> dims y = norm_shape axis (dims x) ->
  exists z, broadcasted f x y = Ok z /\ dims z = dims x /\ forall idx, CloneSpec.within idx (dims x) -> val z idx = f (val x idx) (val y (chan axis idx)).
Proof.
  intros N D. destruct (broadcasted_l f x y) as (z & E & Dz & V); [rewrite D; apply norm_covers, N|]. exists z. split; [exact E|]. split; [exact Dz|].
  intros idx W. rewrite V by exact W. rewrite D, (norm_stretch _ _ _ N W). reflexivity.
Qed.
Lemma norm_r f axis (x y : ten A) : normal axis (dims x) -> dims y = norm_shape axis (dims x) ->
  exists z, broadcasted f y x = Ok z /\ dims z = dims x /\ forall idx, CloneSpec.within idx (dims x) -> val z idx = f (val y (chan axis idx)) (val x idx).
Proof.
  intros N D. destruct (broadcasted_r f y x) as (z & E & Dz & V); [rewrite D; apply norm_covers, N|]. exists z. split; [exact E|]. split; [exact Dz|].
  intros idx W. rewrite V by exact W. rewrite D, (norm_stretch _ _ _ N W). reflexivity.
Qed.
End CloneP.
