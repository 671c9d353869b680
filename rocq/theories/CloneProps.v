(** Theorems about the weights of tfe.keras models and about clone_model. *)
From Coq Require Import List Arith Bool Lia ZArith Ring_theory InitialRing.
From Verif Require Import ConvModel ConvSpec ConvProofs CloneModel CloneSpec CloneProofs CloneMain CloneNet CloneOwn.
Import ListNotations.

Section Props.
Context {A : Type} (zero one : A) (add mul sub : A -> A -> A) (opp : A -> A) (RT : ring_theory zero one add mul sub opp eq).
Context (sqrt recip : A -> A) (epsilon : A).
Notation clone_model := (clone_model zero one add mul sub sqrt recip epsilon).
Notation set_weights := (set_weights zero one add mul sqrt recip epsilon).
Notation run := (run zero add mul sub).
Notation keras_net := (keras_net zero add mul sub sqrt recip epsilon).
Notation made := (made zero one add mul sub sqrt recip epsilon).

(** C100: a clone of a model of tf.keras computes what the model computes, whatever the initializers made. *)
Theorem C100_clone init input cs wss d d' n0 : supported_net cs d d' -> weighted cs wss d -> concat wss <> [] -> dims input = n0 :: d ->
  exists M, clone_model init (Some input) cs (concat wss) = Ok M /\
  forall n x, dims x = n :: d -> exists z, run (layers M) x = Ok z /\ dims z = n :: d' /\ keras_net cs wss x z.
Proof.
  intros S W N D. unfold clone_model, CloneModel.clone_model.
  destruct (from_config_ok zero one add mul sub opp RT sqrt recip epsilon init input cs d d' S 0 (Model [] None) input n0) as (M & E & ls & L & Q); [left; auto|exact D|]. rewrite E.
  assert (G : forall wss : list (list (ten A)), concat (tagged (repeat Arr (length wss)) wss) = map (pair Arr) (concat wss)).
  { clear. induction wss as [|ws wss IH]; [reflexivity|]. unfold tagged in *. cbn [length repeat combine map concat]. rewrite IH, map_app. reflexivity. }
  rewrite <- G. cbn in L. rewrite <- L in Q.
  assert (Lw : length cs = length wss). { clear -W. revert d wss W. induction cs as [|c cs IH]; intros d [|ws wss] W; cbn in W; try destruct W; [reflexivity|]. destruct H0 as (e & _ & H0). cbn. f_equal. apply (IH e wss H0). }
  apply (set_weights_ok zero one add mul sub opp RT sqrt recip epsilon cs wss (repeat Arr (length wss)) d d' M); try assumption.
  - intros ->. destruct wss; [apply N; reflexivity|discriminate Lw].
  - rewrite <- Lw. clear. induction cs as [|c cs IH]; cbn; constructor; [destruct c; reflexivity|exact IH].
  - split; [apply repeat_length|]. right. split; [exact N|reflexivity].
Qed.
(** C101: after set_weights a model computes what a model of tf.keras with these weights computes, whatever its weights were before. *)
Theorem C101_set_weights init input cs wss ks d d' n0 M g : made init input cs M -> cs <> [] -> supported_net cs d d' -> weighted cs wss d -> dims input = n0 :: d ->
  Forall2 (fun c k => takes c k = true) cs ks -> written ks wss g ->
  exists M', set_weights M g = Ok M' /\ forall n x, dims x = n :: d -> exists z, run (layers M') x = Ok z /\ dims z = n :: d' /\ keras_net cs wss x z.
Proof.
  intros H N S W D T G. apply (set_weights_ok zero one add mul sub opp RT sqrt recip epsilon cs wss ks d d' M g); try assumption.
  apply (made_inv zero one add mul sub opp RT sqrt recip epsilon init input cs d d' n0 M H S D).
Qed.
(** C102: setting the weights of a model to copies of the weights that it has changes none of them. *)
Theorem C102_own_weights init input cs d d' n0 M : made init input cs M -> cs <> [] -> supported_net cs d d' -> dims input = n0 :: d -> Forall one_each cs ->
  exists M', set_weights M (own M) = Ok M' /\ Forall2 same_layer (layers M) (layers M').
Proof.
  intros H N S D O. pose proof (made_inv zero one add mul sub opp RT sqrt recip epsilon init input cs d d' n0 M H S D) as I0.
  destruct (own_net zero one add mul sub opp RT sqrt recip epsilon cs d (layers M) I0 O (made_tidy zero one add mul sub opp RT sqrt recip epsilon init input cs M H)) as (ls & E & F).
  exists (Model ls (outputs M)). split; [|exact F]. unfold own, set_weights, CloneModel.set_weights. destruct (map _ (layers M)) as [|ws wss] eqn:Em; [|rewrite E; reflexivity].
  apply map_eq_nil in Em. rewrite Em in I0. destruct cs; [congruence|destruct I0].
Qed.
End Props.
Print Assumptions C100_clone.
Print Assumptions C101_set_weights.
Print Assumptions C102_own_weights.

(** A network: a convolution of images whose channels come last, a normalization, a DepthwiseConv2D layer with two kernels for each
    channel, a layer without weights, and a Dense layer. *)
Definition zflatten (t : ten Z) : res (ten Z) := match dims t with n :: d => reshape [n; psize d] t | [] => Err ValueError end.
Definition zten (d : list nat) (l : list Z) : ten Z := Ten d (fun idx => nth (ravel d idx) l 0%Z).
Definition ex_net (m : nat) : list (config (A:=Z)) :=
  [ConvC 1 1 2 (Conv 1 1 SAME false false) true None; NormC 3 true true; DepthC 1 1 m (Conv 1 1 VALID false false) true None; PlainC zflatten; DenseC 1 true None].
Definition ex_weights : list (list (ten Z)) :=
  [[zten [1; 1; 1; 2] [2; 3]%Z; zten [2] [1; 0]%Z]; [zten [2] [1; 2]%Z; zten [2] [5; 6]%Z; zten [2] [1; 1]%Z; zten [2] [1; 2]%Z];
   [zten [1; 1; 2; 2] [1; 2; 3; 4]%Z; zten [4] [0; 0; 1; 1]%Z]; []; [zten [4; 1] [1; 10; 100; 1000]%Z; zten [1] [7]%Z]].
Definition ex_init : nat -> nat -> list nat -> list nat -> Z := fun i j _ _ => Z.of_nat (i + j).
Definition ex_input : ten Z := zten [1; 1; 1; 1] [0%Z].
(** With 1 for the square root of the variance plus epsilon, and its reciprocal. *)
Definition zclone := CloneModel.clone_model 0%Z 1%Z Z.add Z.mul Z.sub (fun x => x) (fun x => x) 0%Z ex_init.
Definition zrun := CloneModel.run 0%Z Z.add Z.mul Z.sub.
Definition zset := CloneModel.set_weights 0%Z 1%Z Z.add Z.mul (fun x => x) (fun x => x) 0%Z.
Lemma ex_supported m : 0 < m -> supported_net (ex_net m) [1; 1; 1] [1].
Proof.
  intros Hm. exists [1; 1; 2]. split. { exists 1, 1, 1, 1, 1. cbn. repeat split; try lia; intros; lia. }
  exists [1; 1; 2]. split. { cbn. auto 10. }
  exists [1; 1; 2 * m]. split. { exists 2, 1, 1, 1, 1. cbn -[Nat.mul]. repeat split; try lia; intros; lia. }
  exists [2 * m]. split. { intros n x D. unfold zflatten. rewrite D. destruct (reshape_ok [n; psize [1; 1; 2 * m]] x) as (z & E & Dz & _); [rewrite D; cbn; lia|]. exists z. split; [exact E|]. rewrite Dz. cbn. f_equal. f_equal. lia. }
  exists [1]. split; [|reflexivity]. cbn. auto.
Qed.
Example C100_network : supported_net (ex_net 2) [1; 1; 1] [1] /\ weighted (ex_net 2) ex_weights [1; 1; 1] /\ concat ex_weights <> [] /\
  match zclone (Some ex_input) (ex_net 2) (concat ex_weights) with Ok M => match zrun (layers M) (zten [1; 1; 1; 1] [3%Z]) with Ok z => Some (dims z, val z [0; 0]) | _ => None end | _ => None end
    = Some ([1; 1], (11 + 10 * 22 + 100 * (3 * 38 + 1) + 1000 * (4 * 38 + 1) + 7)%Z).
Proof.
  split; [apply ex_supported; lia|]. split.
  { split; [reflexivity|]. exists [1; 1; 2]. split. { exists 1, 1, 1, 1, 1. cbn. repeat split; try lia; intros; lia. }
    split; [reflexivity|]. exists [1; 1; 2]. split. { cbn. auto 10. }
    split; [reflexivity|]. exists [1; 1; 4]. split. { exists 2, 1, 1, 1, 1. cbn. repeat split; try lia; intros; lia. }
    split; [reflexivity|]. exists [4]. split. { intros n x D. unfold zflatten. rewrite D. destruct (reshape_ok [n; psize [1; 1; 4]] x) as (z & E & Dz & _); [rewrite D; reflexivity|]. exists z. split; [exact E|exact Dz]. }
    split; [reflexivity|]. exists [1]. split; [cbn; auto|exact I]. }
  split; [discriminate|]. vm_compute. reflexivity.
Qed.
(** The model of C101 exists, and C102 applies to it when each channel has one kernel. *)
Example C101_network : (exists M, made 0%Z 1%Z Z.add Z.mul Z.sub (fun x => x) (fun x => x) 0%Z ex_init ex_input (ex_net 2) M) /\
  Forall2 (fun c k => takes c k = true) (ex_net 2) [Priv; PubVar; Arr; Arr; PrivVar] /\
  written [Priv; PubVar; Arr; Arr; PrivVar] ex_weights (Nested (tagged [Priv; PubVar; Arr; Arr; PrivVar] ex_weights)).
Proof.
  split. { destruct (from_config_ok 0%Z 1%Z Z.add Z.mul Z.sub Z.opp Zth (fun x => x) (fun x => x) 0%Z ex_init ex_input (ex_net 2) [1; 1; 1] [1] (ex_supported 2 ltac:(lia)) 0 (Model [] None) ex_input 1) as (M & E & _); [left; auto|reflexivity|].
    exists M. apply made_new. exact E. }
  split; [repeat constructor|]. split; [reflexivity|]. left. reflexivity.
Qed.
Example C102_network : (exists M, made 0%Z 1%Z Z.add Z.mul Z.sub (fun x => x) (fun x => x) 0%Z ex_init ex_input (ex_net 1) M) /\ Forall one_each (ex_net 1).
Proof.
  split; [|repeat constructor]. destruct (from_config_ok 0%Z 1%Z Z.add Z.mul Z.sub Z.opp Zth (fun x => x) (fun x => x) 0%Z ex_init ex_input (ex_net 1) [1; 1; 1] [1] (ex_supported 1 ltac:(lia)) 0 (Model [] None) ex_input 1) as (M & E & _); [left; auto|reflexivity|].
  exists M. apply made_new. exact E.
Qed.

(** A model of tf.keras whose layers have no weights cannot be cloned. *)
Theorem C100_weightless_refuted : exists cs d d' (input : ten Z), supported_net cs d d' /\ weighted cs [[]] d /\ cs <> [] /\ dims input = 1 :: d /\
  zclone (Some input) cs (concat [[]]) = Err IndexError.
Proof.
  exists [PlainC zflatten], [1; 1; 1], [1], ex_input.
  assert (S : supported (PlainC zflatten) [1; 1; 1] [1]). { intros n x D. unfold zflatten. rewrite D. destruct (reshape_ok [n; psize [1; 1; 1]] x) as (z & E & Dz & _); [rewrite D; reflexivity|]. exists z. split; [exact E|exact Dz]. }
  split; [exists [1]; split; [exact S|reflexivity]|]. split; [split; [reflexivity|]; exists [1]; split; [exact S|exact I]|]. split; [discriminate|]. split; reflexivity.
Qed.
Print Assumptions C100_weightless_refuted.
(** With two kernels for each channel, a DepthwiseConv2D layer rejects copies of its own weights. *)
Theorem C102_multiplier_refuted : exists cs d d' (input : ten Z) M, made 0%Z 1%Z Z.add Z.mul Z.sub (fun x => x) (fun x => x) 0%Z ex_init input cs M /\
  cs <> [] /\ supported_net cs d d' /\ dims input = 1 :: d /\ zset M (own M) = Err ValueError.
Proof.
  pose (cs := [DepthC 1 1 2 (Conv 1 1 VALID true false) false None] : list (config (A:=Z))). pose (input := zten [1; 2; 1; 1] [0; 0]%Z).
  destruct (CloneModel.from_config 0%Z 1%Z Z.add Z.mul Z.sub (fun x => x) (fun x => x) 0%Z ex_init (Some input) 0 (Model [] None) cs) as [M|] eqn:E; [|discriminate E].
  exists cs, [2; 1; 1], [4; 1; 1], input, M. split; [apply made_new; exact E|]. split; [discriminate|].
  split. { exists [4; 1; 1]. split; [|reflexivity]. exists 2, 1, 1, 1, 1. cbn. repeat split; try lia; intros; lia. }
  split; [reflexivity|]. injection E; intros <-. reflexivity.
Qed.
Print Assumptions C102_multiplier_refuted.
