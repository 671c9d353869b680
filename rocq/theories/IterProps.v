(** C111: dealing out a private tensor in batches. *)
From Coq Require Import Lia Permutation.
From Verif Require Import Base TensorModel Aby3Model Aby3Spec IterModel IterSpec IterProofs.

Lemma rows_pos {A} (l : list A) : (0 < length l)%nat -> l <> [].
Proof. destruct l; [cbn; lia|discriminate]. Qed.

(** With [repeat] every batch is full.  Which rows it holds is decided by the number of rows and the public seed alone, alike for
    all shares: in order and from the start again without [shuffle]; with it every place of the endless sequence is used at most
    once, and no row comes more than 511 places early. *)
Theorem C111_repeat : forall N B shuffle pick, (0 < N)%nat -> let b := Z.to_nat (Z.max 1 B) in
  exists s : nat -> nat, (forall t, (s t < N)%nat) /\ (shuffle = false -> forall t, s t = (t mod N)%nat) /\
    (shuffle = true -> exists p : nat -> nat, (forall t u, p t = p u -> t = u) /\ (forall t, (p t < t + 512)%nat) /\ forall t, s t = (p t mod N)%nat) /\
    forall P g x vs j, holds P x vs -> length vs = N -> mfc x = g ->
      exists z, iterate g x B true shuffle pick j = Ok z /\ holds P z (chosen vs (fun i => s (j * b + i)%nat) b) /\ msc z = msc x /\ mty z = mty x /\ mfc z = mfc x.
Proof.
  intros N B shuffle pick HN b. exists (fun t => if shuffle then (place pick t mod N)%nat else (t mod N)%nat).
  assert (Hs : forall t, ((if shuffle then place pick t mod N else t mod N) < N)%nat) by (intro t; destruct shuffle; apply Nat.mod_upper_bound; lia).
  split; [exact Hs|]. split; [intros ->; reflexivity|]. split.
  { intros ->. exists (place pick). split; [apply place_inj|]. split; [apply place_bound|reflexivity]. }
  intros P g x vs j Hx <- Hg. apply (iterate_ok P g x vs B true shuffle pick j (fun i => if shuffle then (place pick (j * b + i) mod length vs)%nat else ((j * b + i) mod length vs)%nat) Hx Hg); [auto|].
  intros l Hl. fold b. apply (batch_full B true shuffle pick l j (fun t => nth (if shuffle then (place pick t mod length vs)%nat else (t mod length vs)%nat) l [])).
  intros i _. rewrite <- Hl in *. assert (Hl0 : l <> []) by (apply rows_pos; exact HN). destruct shuffle.
  - apply stream_repeat. exact Hl0.
  - unfold stream. rewrite (source_repeat l [] _ Hl0). reflexivity.
Qed.
Print Assumptions C111_repeat.

(** Without [repeat] the rows are dealt once, in order or in an order fixed by the seed; the batches are those that can be filled,
    and after them an exception is raised: rows that do not fill a batch are not delivered. *)
Theorem C111_once : forall N B shuffle pick, let b := Z.to_nat (Z.max 1 B) in
  exists o : list nat, Permutation o (seq 0 N) /\ (shuffle = false -> o = seq 0 N) /\
    forall P g x vs, holds P x vs -> length vs = N -> mfc x = g ->
      (forall j, (S j * b <= N)%nat -> exists z, iterate g x B false shuffle pick j = Ok z /\ holds P z (chosen vs (fun i => nth (j * b + i) o 0%nat) b) /\ msc z = msc x /\ mty z = mty x /\ mfc z = mfc x) /\
      (forall j, (N < S j * b)%nat -> iterate g x B false shuffle pick j = Err (if (N <=? j * b)%nat then OutOfRange else InvalidArgument)).
Proof.
  intros N B shuffle pick b. set (o := if shuffle then order pick N else seq 0 N). assert (Hp : Permutation o (seq 0 N)) by (unfold o; destruct shuffle; [apply order_perm|apply Permutation_refl]).
  exists o. split; [exact Hp|]. split; [unfold o; intros ->; reflexivity|]. intros P g x vs Hx <- Hg. assert (Hlen : length o = length vs) by (rewrite (Permutation_length Hp); apply seq_length).
  assert (St : forall (l : list row) t, length l = length vs -> stream false shuffle pick l t = option_map (fun i => nth i l []) (nth_error o t)).
  { intros l t Hl. unfold o. destruct shuffle; [rewrite <- Hl; apply stream_once|]. unfold stream. rewrite (source_once l [] t), Hl. f_equal. unfold upto. destruct (t <? length vs)%nat eqn:E.
    - apply Nat.ltb_lt in E. symmetry. rewrite (nth_error_nth' _ 0%nat) by (rewrite seq_length; exact E). rewrite seq_nth by exact E. reflexivity.
    - apply Nat.ltb_ge in E. symmetry. apply nth_error_None. rewrite seq_length. exact E. }
  split.
  - intros j Hj. apply (iterate_ok P g x vs B false shuffle pick j (fun i => nth (j * b + i) o 0%nat) Hx Hg).
    + intros i Hi. fold b in Hi. assert (I1 : In (nth (j * b + i) o 0%nat) o) by (apply nth_In; lia). pose proof (Permutation_in _ Hp I1) as I2. apply in_seq in I2. lia.
    + intros l Hl. fold b. apply (batch_full B false shuffle pick l j (fun t => nth (nth t o 0%nat) l [])). fold b. intros i Hi. rewrite (St l _ Hl), (nth_error_nth' _ 0%nat) by lia. reflexivity.
  - intros j Hj. assert (Hl : length (m00 x) = length vs) by (destruct Hx as [Sh _]; unfold shape_ok in Sh; inversion Sh; subst; apply rows_len; assumption).
    pose proof (batch_end B false shuffle pick (m00 x) j (length vs - j * b)) as E. fold b in E. cbv zeta in E. apply iterate_err. rewrite E; clear E.
    + f_equal. destruct (length vs <=? j * b)%nat eqn:F; [apply Nat.leb_le in F; replace (length vs - j * b)%nat with 0%nat by lia; reflexivity|].
      apply Nat.leb_gt in F. replace (Nat.eqb (length vs - j * b) 0) with false by (symmetry; apply Nat.eqb_neq; lia). reflexivity.
    + assert (0 < b)%nat by (unfold b; lia). lia.
    + intros i Hi. rewrite (St _ _ Hl), (nth_error_nth' _ 0%nat) by lia. discriminate.
    + rewrite (St _ _ Hl). rewrite (proj2 (nth_error_None o _)) by lia. reflexivity.
Qed.
Print Assumptions C111_once.

(** A run of [N] rows under [repeat] and [shuffle] need not hold every row once: for at most 512 rows some random numbers deal
    the first row twice running. *)
Theorem C111_epoch_refuted : forall N, (0 < N <= 512)%nat -> exists pick, forall P g x vs, holds P x vs -> length vs = N -> mfc x = g ->
  forall j, (j < 2)%nat -> exists z, iterate g x 1 true true pick j = Ok z /\ holds P z [nth 0 vs []].
Proof.
  intros N HN. exists (fun t => match t with O => 0%nat | _ => (N - 1)%nat end). set (pick := fun t : nat => match t with O => 0%nat | _ => (N - 1)%nat end).
  assert (F1 : fill 512 512 (upto None) [] 0 = (seq 0 512, 512%nat)) by (vm_compute; reflexivity).
  assert (F2 : fill 512 512 (upto None) (seq 1 511) 512 = (seq 1 512, 513%nat)) by (vm_compute; reflexivity).
  assert (D : forall k, draws 512 pick (upto None) (S (S k)) 0 [] 0 = 0%nat :: N :: draws 512 pick (upto None) k 2 (tl (put (N - 1) 1%nat (seq 1 512))) 513).
  { intro k. cbn [draws]. rewrite F1. change (seq 0 512) with (0%nat :: seq 1 511) at 1. cbv iota. rewrite seq_length. change (pick 0%nat mod 512)%nat with 0%nat.
    change (nth 0 (seq 0 512) 0%nat) with 0%nat. change (tl (put 0 0%nat (seq 0 512))) with (seq 1 511). rewrite F2. change (seq 1 512) with (1%nat :: seq 2 511) at 1. cbv iota. rewrite seq_length.
    assert (M : (pick 1%nat mod 512 = N - 1)%nat) by (cbn [pick]; apply Nat.mod_small; lia). rewrite M. rewrite seq_nth by lia. replace (1 + (N - 1))%nat with N by lia. reflexivity. }
  assert (P0 : place pick 0 = 0%nat).
  { pose proof (place_nth pick 0 2 ltac:(lia)) as E. rewrite D in E. cbn [nth_error] in E. congruence. }
  assert (P1 : place pick 1 = N) by (unfold place; rewrite D; reflexivity).
  intros P g x vs Hx <- Hg j Hj.
  destruct (iterate_ok P g x vs 1 true true pick j (fun i => 0%nat) Hx Hg) as (z & E & H & _).
  - intros; lia.
  - intros l Hl. rewrite (batch_full 1 true true pick l j (fun t => nth (place pick t mod length l) l [])).
    + change (Z.to_nat (Z.max 1 1)) with 1%nat. cbn [seq map]. do 3 f_equal. rewrite Nat.mul_1_r, Nat.add_0_r.
      assert (j = 0 \/ j = 1)%nat as [-> | ->] by lia; [rewrite P0; apply Nat.mod_small; lia|rewrite P1, Hl; apply Nat.mod_same; lia].
    + intros i _. apply stream_repeat. apply rows_pos. lia.
  - exists z. split; [exact E|]. exact H.
Qed.
Print Assumptions C111_epoch_refuted.

(** Whatever the word size of the tensor, its batches are labelled with the default one. *)
Theorem C111_factory_refuted : exists g x z, mfc x <> g /\ holds (arith 8) x [[5]; [6]] /\ iterate g x 1 true false (fun _ => 0%nat) 0 = Ok z /\ mfc z <> mfc x /\ ~ holds (arith 8) z [[5]].
Proof.
  exists (FI 64), (Mat [[1]; [2]] [[1]; [2]] [[1]; [2]] [[3]; [2]] [[3]; [2]] [[1]; [2]] false Arith (FI 8)). eexists.
  split; [discriminate|]. split.
  { split; [repeat constructor|]. intros i e Hi He. cbn [length] in Hi. destruct i as [|[|i]]; cbn in He; [| |lia]; (destruct e as [|e]; [|lia]); cbn; unfold arith, placed, arith_vals, replicated, word; cbn; repeat split; lia. }
  split; [reflexivity|]. split; [discriminate|]. intros (_ & H). specialize (H 0%nat 0%nat). cbn in H. destruct H as (_ & _ & Q & _); [lia|lia|discriminate].
Qed.
Print Assumptions C111_factory_refuted.

(** ** Instances *)
Definition ex_mat : mat := Mat [[1; 0]; [2; 0]; [3; 0]] [[2; 7]; [2; 7]; [2; 7]] [[2; 7]; [2; 7]; [2; 7]] [[3; 4]; [4; 4]; [5; 4]] [[3; 4]; [4; 4]; [5; 4]] [[1; 0]; [2; 0]; [3; 0]] true Arith (FI 64).
Example C111_holds : holds (arith 64) ex_mat [[6; 11]; [8; 11]; [10; 11]].
Proof.
  split; [repeat constructor|]. intros i e Hi He. cbn [length] in Hi. destruct i as [|[|[|i]]]; cbn in He; try lia; (destruct e as [|[|e]]; try lia); cbn; unfold arith, placed, arith_vals, replicated, word; cbn; repeat split; lia.
Qed.
(** In order, twice as many batches as the tensor fills: the second one wraps around. *)
Example C111_wraps : exists z, iterate (FI 64) ex_mat 2 true false (fun _ => 0%nat) 1 = Ok z /\ m00 z = [[3; 0]; [1; 0]] /\ m20 z = [[5; 4]; [3; 4]].
Proof. eexists. split; [reflexivity|]. split; reflexivity. Qed.
(** Once, shuffled: one batch of two rows, then the exception for the third row. *)
Example C111_shuffled : (exists z, iterate (FI 64) ex_mat 2 false true (fun t => (2 - t)%nat) 0 = Ok z /\ m00 z = [[3; 0]; [1; 0]]) /\
  iterate (FI 64) ex_mat 2 false true (fun t => (2 - t)%nat) 1 = Err InvalidArgument /\ iterate (FI 64) ex_mat 2 false true (fun t => (2 - t)%nat) 2 = Err OutOfRange.
Proof. split; [eexists; split; vm_compute; reflexivity|]. split; vm_compute; reflexivity. Qed.
