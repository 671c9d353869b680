(** Theorems about converted ONNX models. *)
From Coq Require Import List Arith Bool Lia ZArith Permutation Ring Ring_theory.
From Verif Require Import ConvModel ConvSpec OnnxModel OnnxSpec OnnxProofs OnnxLayers OnnxMain OnnxLift.
Import ListNotations.

Lemma same_sym {A} (t u : ten A) : same t u -> same u t.
Proof. intros [H1 H2]. split; [congruence|]. intros idx Hi. symmetry. apply H2. rewrite H1. exact Hi. Qed.
Lemma same_trans {A} (t u v : ten A) : same t u -> same u v -> same t v.
Proof. intros [H1 H2] [H3 H4]. split; [congruence|]. intros idx Hi. rewrite H2 by exact Hi. apply H4. rewrite <- H1. exact Hi. Qed.
Lemma sum_rev {A} (zero one : A) (add mul sub : A -> A -> A) (opp : A -> A) (RT : ring_theory zero one add mul sub opp eq) (l : list A) : fold_right add zero (rev l) = fold_right add zero l.
Proof.
  destruct RT as [Hz Hc Ha _ _ _ _ _ _]. assert (G : forall a b, fold_right add zero (a ++ b) = add (fold_right add zero a) (fold_right add zero b)). { induction a as [|x a IH]; intros b; cbn; [symmetry; apply Hz|]. rewrite IH, Ha. reflexivity. }
  induction l as [|x l IH]; cbn; [reflexivity|]. rewrite G, IH. cbn. rewrite (Hc x zero), Hz, Hc. reflexivity.
Qed.

(** C98. A converted model computes what ONNX says: if the tensors [V] satisfy the equations of all nodes, and the caller states the shapes of
    the inputs, whatever the batch size in them, then conversion succeeds, and the model, however often it has been called before, maps
    the inputs to the outputs. *)
Theorem C98_forward {A : Type} (zero one : A) (add mul sub : A -> A -> A) (opp : A -> A) (RT : ring_theory zero one add mul sub opp eq) (positive : A -> bool)
  (g : graph A) (V : nat -> ten A) (shapes : list (list Z)) (xs : list (ten A)) :
  sound zero add mul opp positive g V -> Forall (fun p => same (snd p) (V (fst p))) (ginit g) -> stated V (gin g) shapes -> Forall2 same xs (map V (gin g)) ->
  exists objs known, convert g shapes = Ok (objs, known) /\ forall objs1, same_layers objs1 objs ->
  exists objs2 ys, forward zero add mul opp positive g objs1 xs = Ok (objs2, ys) /\ same_layers objs2 objs /\ Forall2 same ys (map V (gout g)).
Proof.
  intros S HI St Sx. destruct (run_ok zero one add mul sub opp RT positive (fun a _ => a) g (fun i => lift zero (V i)) False (sound_lift zero one add mul sub opp RT positive g V S)) with (shapes := shapes) (xs := xs) as (objs & known & Ec & H).
  - revert HI. apply Forall_impl. intros p. rewrite values_lift. exact (fun x => x).
  - intros [].
  - exact St.
  - rewrite map_map. rewrite (map_ext _ V) by (intros i; apply values_lift). exact Sx.
  - exists objs, known. split; [exact Ec|]. intros objs1 SL. destruct (H objs1 SL) as (objs2 & ys & Ef & SL2 & Sy & _). exists objs2, ys. split; [exact Ef|]. split; [exact SL2|]. rewrite map_map, (map_ext _ V) in Sy by (intros i; apply values_lift). exact Sy.
Qed.
Print Assumptions C98_forward.

(** C99. The backward pass of a converted model computes derivatives: for given derivatives [dys] with respect to the outputs, there are
    gradients [dxs] of the inputs and [exact] of the weights, by the names of nodes, such that for any change [E] of inputs, weights and all
    other tensors that respects the equations of the nodes to first order, the change of the outputs is that of the inputs and the weights. The
    optimizer gets the exact gradients, except for biases that are added on their own, where they are divided by the batch size. *)
Theorem C99_backward {A : Type} (zero one : A) (add mul sub : A -> A -> A) (opp : A -> A) (RT : ring_theory zero one add mul sub opp eq) (positive : A -> bool) (over : A -> nat -> A)
  (g : graph A) (V : nat -> ten A) (shapes : list (list Z)) (xs dys : list (ten A)) :
  sound zero add mul opp positive g V -> Forall (fun p => same (snd p) (V (fst p))) (ginit g) -> stated V (gin g) shapes -> Forall2 same xs (map V (gin g)) ->
  Forall (fun n => trainable (nop n) (map (initial g) (nin n)) (map (fun i => dims (V i)) (nin n))) (gnodes g) -> used_once g ->
  Forall2 (fun i d => dims d = dims (V i)) (gout g) dys ->
  exists objs known, convert g shapes = Ok (objs, known) /\ forall objs1, same_layers objs1 objs ->
  exists objs2 ys grads dxs exact, forward zero add mul opp positive g objs1 xs = Ok (objs2, ys) /\ backward zero add mul opp positive over g known objs2 dys = Ok (grads, dxs) /\
    Forall2 (fun i d => dims d = dims (V i)) (gin g) dxs /\ map fst grads = map nname (rev (gnodes g)) /\
    (forall n, In n (gnodes g) -> exists gs, In (nname n, gs) grads /\ Forall2 (reported over (nop n) (batch V n)) gs (exact (nname n))) /\
    forall E, sound (dzero zero) (dadd add) (dmul add mul) (dopp opp) (dpositive positive) g E -> (forall i, same (values (E i)) (V i)) ->
      (forall n, In n (gnodes g) -> Forall2 (fun e w => dims e = dims w) (exact (nname n)) (changes g E n)) /\
      pairings zero add mul dys (map (fun i => slopes (E i)) (gout g)) =
        add (pairings zero add mul dxs (map (fun i => slopes (E i)) (gin g)))
            (fold_right add zero (map (fun n => pairings zero add mul (exact (nname n)) (changes g E n)) (gnodes g))).
Proof.
  intros S HI St Sx Tr UO HD.
  assert (Run : forall E, sound (dzero zero) (dadd add) (dmul add mul) (dopp opp) (dpositive positive) g E -> (forall i, same (values (E i)) (V i)) ->
    exists objs known, convert g shapes = Ok (objs, known) /\ forall objs1, same_layers objs1 objs ->
    exists objs2 ys grads dxs, forward zero add mul opp positive g objs1 xs = Ok (objs2, ys) /\ backward zero add mul opp positive over g known objs2 dys = Ok (grads, dxs) /\
      let exact := exact_grads zero add mul opp positive over g known objs2 dys in
      Forall2 (fun i d => dims d = dims (V i)) (gin g) dxs /\ map fst grads = map nname (rev (gnodes g)) /\
      (forall n, In n (gnodes g) -> exists gs, In (nname n, gs) grads /\ Forall2 (reported over (nop n) (batch V n)) gs (exact (nname n)) /\ Forall2 (fun e w => dims e = dims w) (exact (nname n)) (changes g E n)) /\
      pairings zero add mul dys (map (fun i => slopes (E i)) (gout g)) =
        add (pairings zero add mul dxs (map (fun i => slopes (E i)) (gin g)))
            (fold_right add zero (map (fun n => pairings zero add mul (exact (nname n)) (changes g E n)) (gnodes g)))).
  { intros E SE HV. assert (Dm : forall i, dims (E i) = dims (V i)) by (intros i; apply (HV i)).
    destruct (run_ok zero one add mul sub opp RT positive over g E True SE) with (shapes := shapes) (xs := xs) as (objs & known & Ec & H).
    - revert HI. apply Forall_impl. intros p Hp. apply (same_trans _ _ _ Hp), same_sym, HV.
    - intros _. revert Tr. apply Forall_impl. intros n. rewrite (map_ext (fun i => dims (E i)) (fun i => dims (V i))) by exact Dm. exact (fun x => x).
    - clear - St Dm. unfold stated in *. induction St as [|i s ? ? (Q1 & Q2) _ IH]; [constructor|]. constructor; [|exact IH]. split; [exact Q1|]. rewrite Dm. exact Q2.
    - clear - Sx HV. revert xs Sx. induction (gin g) as [|i a IH]; intros xs H; cbn in H; inversion H; subst; cbn; [constructor|]. constructor; [|apply IH; assumption]. eapply same_trans; [eassumption|apply same_sym, HV].
    - exists objs, known. split; [exact Ec|]. intros objs1 SL. destruct (H objs1 SL) as (objs2 & ys & Ef & _ & _ & B). destruct (B I UO dys) as (gl & dxs & Eb & Fx & Nm & W & Eq).
      { clear - HD Dm. induction HD as [|i d ? ? Q _ IH]; [constructor|]; constructor; [rewrite Dm; exact Q|exact IH]. }
      exists objs2, ys, gl, dxs. split; [exact Ef|]. split; [exact Eb|]. cbv zeta. split; [|split; [exact Nm|split]].
      + clear - Fx Dm. induction Fx as [|i d ? ? Q _ IH]; [constructor|]; constructor; [rewrite <- Dm; exact Q|exact IH].
      + intros n Hn. destruct (W n Hn) as (gs & W1 & W2 & W3). exists gs. split; [exact W1|]. split; [|exact W3]. unfold batch in *. rewrite <- Dm. exact W2.
      + rewrite !map_map in Eq. rewrite Eq, map_rev, (sum_rev zero one add mul sub opp RT). reflexivity. }
  destruct (Run (fun i => lift zero (V i)) (sound_lift zero one add mul sub opp RT positive g V S)) as (objs & known & Ec & H). { intros i. rewrite values_lift. split; reflexivity. }
  exists objs, known. split; [exact Ec|]. intros objs1 SL. destruct (H objs1 SL) as (objs2 & ys & gl & dxs & Ef & Eb & Fx & Nm & W & _).
  exists objs2, ys, gl, dxs, (exact_grads zero add mul opp positive over g known objs2 dys). split; [exact Ef|]. split; [exact Eb|]. split; [exact Fx|]. split; [exact Nm|]. split.
  { intros n Hn. destruct (W n Hn) as (gs & W1 & W2 & _). exists gs. split; assumption. }
  intros E SE HV. destruct (Run E SE HV) as (objs' & known' & Ec' & H'). rewrite Ec in Ec'. injection Ec' as <- <-. destruct (H' objs1 SL) as (objs2' & ys' & gl' & dxs' & Ef' & Eb' & _ & _ & W' & Eq). rewrite Ef in Ef'. injection Ef' as <- <-. rewrite Eb in Eb'. injection Eb' as <- <-.
  split; [|exact Eq]. intros n Hn. destruct (W' n Hn) as (gs & _ & _ & W3). exact W3.
Qed.
Print Assumptions C99_backward.

(** ** A network over the integers: a convolution with a border of zeros and stride 2, ReLU, flattening, and a fully connected layer with a
    transposed kernel. Initializers are 1 to 4, the input is 5. Its values and slopes were computed by other means. *)
Definition network {A} (w b k c : ten A) : graph A :=
  Graph [(1, w); (2, b); (3, k); (4, c)] [5]
    [Node 10 (ConvOp 2 2 (Some (1, 1, 1, 1))) [5; 1; 2] [6]; Node 11 ReluOp [6] [7]; Node 12 FlattenOp [7] [8]; Node 13 (GemmOp [(TransA, 0); (TransB, 1)]) [8; 3; 4] [9]] [9].
Definition moving (i : nat) : ten (@dual Z) :=
  let t d l := of_list (0%Z, 0%Z) d l in
  match i with
  | 1 => t [1; 1; 2; 2] [(2, 0); (-1, 1); (1, -1); (3, 2)]%Z
  | 2 => t [1] [(1, 1)]%Z
  | 3 => t [2; 4] [(1, 0); (-2, 1); (3, 0); (1, 1); (2, -1); (0, 0); (-1, 2); (4, 0)]%Z
  | 4 => t [2] [(5, 1); (-3, 0)]%Z
  | 5 => t [2; 1; 2; 2] [(3, 1); (-2, 0); (2, 2); (4, -1); (-5, 1); (2, 0); (7, 3); (-1, 1)]%Z
  | 6 => t [2; 1; 2; 2] [(10, 10); (-1, 3); (-1, 1); (9, -1); (-14, -6); (3, -1); (-6, 5); (-1, 3)]%Z
  | 7 => t [2; 1; 2; 2] [(10, 10); (0, 0); (0, 0); (9, -1); (0, 0); (3, -1); (0, 0); (0, 0)]%Z
  | 8 => t [2; 4] [(10, 10); (0, 0); (0, 0); (9, -1); (0, 0); (3, -1); (0, 0); (0, 0)]%Z
  | _ => t [2; 2] [(24, 19); (53, 6); (-1, 6); (-3, 0)]%Z
  end.
Definition still (i : nat) : ten Z := values (moving i).
Definition net : graph Z := network (still 1) (still 2) (still 3) (still 4).

Ltac small := repeat match goal with H : _ < 0 |- _ => apply Nat.nlt_0_r in H; destruct H | H : ?i < _ |- _ => is_var i; destruct i as [|i]; [clear H|apply Nat.succ_lt_mono in H] end; try (vm_compute; reflexivity).
Ltac entries := match goal with
  | H : inside ?idx _ |- _ => is_var idx; cbn in H; first [apply inside4 in H as (? & ? & ? & ? & -> & ? & ? & ? & ?)|apply inside2 in H as (? & ? & -> & ? & ?)]; small
  | H : inside (_ :: _) [_; _; _; _] |- _ => apply inside4 in H as (? & ? & ? & ? & Q & ? & ? & ? & ?); injection Q; intros; subst; small
  end.
Ltac distinct := cbn; repeat (apply NoDup_cons; [intros Q; cbn in Q; repeat (destruct Q as [Q|Q]; [discriminate Q|]); destruct Q|]); apply NoDup_nil.
Ltac check_sound :=
  constructor; [distinct|distinct|repeat split; intros i Hi; cbn in *; intuition|intros i Hi; cbn in *; intuition
    |intros i Hi; cbn in Hi; repeat (destruct Hi as [<-|Hi]; [cbn; repeat constructor|]); destruct Hi|intros i Hi; cbn in Hi; repeat (destruct Hi as [<-|Hi]; [cbn; discriminate|]); destruct Hi
    |repeat constructor; cbn; try lia; try (exists 1, []; reflexivity)|].
Example C98_network : sound 0%Z Z.add Z.mul Z.opp (Z.ltb 0) net still.
Proof.
  check_sound. repeat constructor.
  - exists 2, 1, 2, 2, 2, 2, 1, 2, 2. repeat (split; [reflexivity|]). split; [intros i; lia|]. split; [intros i; lia|]. intros b g i j Hb Hg Hi Hj. small.
  - intros idx Hi. entries.
  - exists 2, [1; 2; 2]. split; [reflexivity|]. split; [reflexivity|]. intros b idx Hi. cbn in Hi. entries.
  - exists 2, 4, 2. repeat (split; [reflexivity|]). intros i j Hi Hj. small.
Qed.
Example C99_network : sound (dzero 0%Z) (dadd Z.add) (dmul Z.add Z.mul) (dopp Z.opp) (dpositive (Z.ltb 0)) net moving.
Proof.
  check_sound. repeat constructor.
  - exists 2, 1, 2, 2, 2, 2, 1, 2, 2. repeat (split; [reflexivity|]). split; [intros i; lia|]. split; [intros i; lia|]. intros b g i j Hb Hg Hi Hj. small.
  - intros idx Hi. entries.
  - exists 2, [1; 2; 2]. split; [reflexivity|]. split; [reflexivity|]. intros b idx Hi. cbn in Hi. entries.
  - exists 2, 4, 2. repeat (split; [reflexivity|]). intros i j Hi Hj. small.
Qed.
Example C99_hypotheses : Forall (fun p => same (snd p) (still (fst p))) (ginit net) /\ stated still (gin net) [[77; 1; 2; 2]%Z] /\ Forall2 same [still 5] (map still (gin net)) /\
  Forall (fun n => trainable (nop n) (map (initial net) (nin n)) (map (fun i => dims (still i)) (nin n))) (gnodes net) /\ used_once net /\
  Forall2 (fun i d => dims d = dims (still i)) (gout net) [of_list 0%Z [2; 2] [1; 2; -1; 3]%Z] /\ forall i, same (values (moving i)) (still i).
Proof.
  split; [repeat constructor|]. split; [repeat constructor; discriminate|]. split; [repeat constructor|]. split; [repeat constructor; cbn; lia|]. split.
  - apply Permutation_refl.
  - split; [repeat constructor|]. intros i. split; reflexivity.
Qed.
(** The outputs, the gradients of the weights and those of the inputs. *)
Definition trained {A} (zero : A) (add mul : A -> A -> A) (opp : A -> A) (positive : A -> bool) (over : A -> nat -> A) (g : graph A) (shapes : list (list Z)) (xs dys : list (ten A)) :=
  match convert g shapes with
  | Ok (objs, known) =>
    match forward zero add mul opp positive g objs xs with
    | Ok (objs2, ys) =>
      match backward zero add mul opp positive over g known objs2 dys with
      | Ok (grads, dxs) => Some (map to_list ys, map (fun p => (fst p, map to_list (snd p))) grads, map to_list dxs)
      | Err _ => None
      end
    | Err _ => None
    end
  | Err _ => None
  end.
Notation trainedZ := (trained 0%Z Z.add Z.mul Z.opp (Z.ltb 0) (fun a n => Z.div a (Z.of_nat n))).
Example C99_run : trainedZ net [[77; 1; 2; 2]%Z] [still 5] [of_list 0%Z [2; 2] [1; 2; -1; 3]%Z] =
  Some ([([2; 2], [24; 53; -1; -3]%Z)],
        [(13, [([4; 2], [10; 20; -3; 9; 0; 0; 9; 18]%Z); ([2], [0; 5]%Z)]); (12, []); (11, []); (10, [([2; 2; 1; 1], [36; 0; 4; 15]%Z); ([1; 1; 1], [16]%Z)])],
        [([2; 1; 2; 2], [15; 0; 0; 18; 0; 2; 0; 0]%Z)]).
Proof. vm_compute. reflexivity. Qed.

(** ** Graphs that the converter gets wrong *)
(** What the converted model computes. *)
Definition computed (g : graph Z) (shapes : list (list Z)) (xs : list (ten Z)) : option (list (list nat * list Z)) :=
  match convert g shapes with
  | Ok (objs, _) => match forward 0%Z Z.add Z.mul Z.opp (Z.ltb 0) g objs xs with Ok (_, ys) => Some (map to_list ys) | Err _ => None end
  | Err _ => None
  end.
(** The tensors satisfy the equations of all nodes. *)
Definition obeys (g : graph Z) (V : nat -> ten Z) : Prop := Forall (fun n => Forall (fun o => means 0%Z Z.add Z.mul Z.opp (Z.ltb 0) (nop n) (map V (nin n)) (V o)) (nout n)) (gnodes g).

(** A row of zeros at the top only: the model adds it at the bottom. *)
Definition top_row : graph Z := Graph [(1, of_list 0%Z [1; 1; 1; 1] [1%Z])] [2] [Node 0 (ConvOp 1 1 (Some (1, 0, 0, 0))) [2; 1] [3]] [3].
Definition top_row_values (i : nat) : ten Z :=
  match i with 1 => of_list 0%Z [1; 1; 1; 1] [1%Z] | 2 => of_list 0%Z [1; 1; 1; 1] [5%Z] | _ => of_list 0%Z [1; 1; 2; 1] [0; 5]%Z end.
Theorem C98_padding_refuted : exists g V shapes, obeys g V /\ Forall (fun p => same (snd p) (V (fst p))) (ginit g) /\ stated V (gin g) shapes /\
  exists ys, computed g shapes (map V (gin g)) = Some ys /\ ys <> map (fun i => to_list (V i)) (gout g).
Proof.
  exists top_row, top_row_values, [[1; 1; 1; 1]%Z]. split; [|split; [repeat constructor|split; [repeat constructor; discriminate|]]].
  - repeat constructor. exists 1, 1, 1, 1, 1, 1, 1, 2, 1. repeat (split; [reflexivity|]). split; [intros i; lia|]. split; [intros i; lia|]. intros b g i j Hb Hg Hi Hj. small.
  - exists [([1; 1; 2; 1], [5; 0]%Z)]. split; [vm_compute; reflexivity|]. vm_compute. discriminate.
Qed.
Print Assumptions C98_padding_refuted.

(** Two nodes with the same name, which ONNX allows: the model has the second one only, and applies it twice. *)
Definition namesakes : graph Z := Graph [] [1] [Node 0 NegOp [1] [2]; Node 0 ReluOp [2] [3]] [3].
Definition namesakes_values (i : nat) : ten Z := match i with 1 => of_list 0%Z [1; 1] [-4]%Z | _ => of_list 0%Z [1; 1] [4%Z] end.
Theorem C98_namesakes_refuted : exists g V shapes, obeys g V /\ Forall (fun p => same (snd p) (V (fst p))) (ginit g) /\ stated V (gin g) shapes /\
  Forall (fun n => supported (nop n) (map (initial g) (nin n)) (map (fun i => dims (V i)) (nin n))) (gnodes g) /\
  exists ys, computed g shapes (map V (gin g)) = Some ys /\ ys <> map (fun i => to_list (V i)) (gout g).
Proof.
  exists namesakes, namesakes_values, [[1; 1]%Z]. split; [|split; [constructor|split; [repeat constructor; discriminate|split; [repeat constructor|]]]].
  - repeat constructor; intros idx Hi; entries.
  - exists [([1; 1], [0%Z])]. split; [vm_compute; reflexivity|]. vm_compute. discriminate.
Qed.
Print Assumptions C98_namesakes_refuted.

(** A Gemm node with the attributes alpha, beta and transB, in this order: the kernel is not transposed. *)
Definition ordered_gemm : graph Z :=
  Graph [(1, of_list 0%Z [2; 2] [1; 2; 3; 4]%Z); (2, of_list 0%Z [2] [0; 0]%Z)] [3] [Node 0 (GemmOp [(Alpha, 0); (Beta, 0); (TransB, 1)]) [3; 1; 2] [4]] [4].
Definition ordered_gemm_values (i : nat) : ten Z :=
  match i with 1 => of_list 0%Z [2; 2] [1; 2; 3; 4]%Z | 2 => of_list 0%Z [2] [0; 0]%Z | 3 => of_list 0%Z [1; 2] [1; 1]%Z | _ => of_list 0%Z [1; 2] [3; 7]%Z end.
Theorem C98_gemm_refuted : exists g V shapes, obeys g V /\ Forall (fun p => same (snd p) (V (fst p))) (ginit g) /\ stated V (gin g) shapes /\
  exists ys, computed g shapes (map V (gin g)) = Some ys /\ ys <> map (fun i => to_list (V i)) (gout g).
Proof.
  exists ordered_gemm, ordered_gemm_values, [[1; 2]%Z]. split; [|split; [repeat constructor|split; [repeat constructor; discriminate|]]].
  - repeat constructor. exists 1, 2, 2. repeat (split; [reflexivity|]). intros i j Hi Hj. small.
  - exists [([1; 2], [4; 6]%Z)]. split; [vm_compute; reflexivity|]. vm_compute. discriminate.
Qed.
Print Assumptions C98_gemm_refuted.

(** A tensor that two operators use, here the two sides of a product: the gradient of the last use replaces that of the first one. *)
Definition square : graph Z := Graph [] [1] [Node 0 MulOp [1; 1] [2]] [2].
Definition square_values (i : nat) : ten (@dual Z) := match i with 1 => of_list (0, 0)%Z [1; 1] [(3, 1)]%Z | _ => of_list (0, 0)%Z [1; 1] [(9, 6)]%Z end.
Theorem C99_shared_refuted : exists g E shapes dys ys dxs, sound (dzero 0%Z) (dadd Z.add) (dmul Z.add Z.mul) (dopp Z.opp) (dpositive (Z.ltb 0)) g E /\ stated E (gin g) shapes /\ ginit g = [] /\
  trainedZ g shapes (map (fun i => values (E i)) (gin g)) dys = Some (ys, [(0, [])], map to_list dxs) /\
  pairings 0%Z Z.add Z.mul dys (map (fun i => slopes (E i)) (gout g)) <> pairings 0%Z Z.add Z.mul dxs (map (fun i => slopes (E i)) (gin g)).
Proof.
  exists square, square_values, [[1; 1]%Z], [of_list 0%Z [1; 1] [1%Z]], [([1; 1], [9%Z])], [of_list 0%Z [1; 1] [3%Z]]. split; [|split; [repeat constructor; discriminate|split; [reflexivity|split; [vm_compute; reflexivity|vm_compute; discriminate]]]].
  check_sound. repeat constructor; intros idx Hi; entries.
Qed.
Print Assumptions C99_shared_refuted.

(** A bias that is added to two rows: the optimizer gets half of the gradient. *)
Definition biased : graph Z := Graph [(1, of_list 0%Z [1] [7%Z])] [2] [Node 0 AddOp [2; 1] [3]] [3].
Definition biased_values (i : nat) : ten (@dual Z) :=
  match i with 1 => of_list (0, 0)%Z [1] [(7, 1)]%Z | 2 => of_list (0, 0)%Z [2; 1] [(3, 0); (4, 0)]%Z | _ => of_list (0, 0)%Z [2; 1] [(10, 1); (11, 1)]%Z end.
Theorem C99_bias_refuted : exists g E shapes dys ys gs dxs, sound (dzero 0%Z) (dadd Z.add) (dmul Z.add Z.mul) (dopp Z.opp) (dpositive (Z.ltb 0)) g E /\ stated E (gin g) shapes /\
  Forall (fun p => same (snd p) (values (E (fst p)))) (ginit g) /\ used_once g /\
  trainedZ g shapes (map (fun i => values (E i)) (gin g)) dys = Some (ys, [(0, map to_list gs)], map to_list dxs) /\
  pairings 0%Z Z.add Z.mul dys (map (fun i => slopes (E i)) (gout g)) <>
  (pairings 0 Z.add Z.mul dxs (map (fun i => slopes (E i)) (gin g)) + pairings 0 Z.add Z.mul gs (map (fun p => slopes (E (fst p))) (ginit g)))%Z.
Proof.
  exists biased, biased_values, [[9; 1]%Z], [of_list 0%Z [2; 1] [1; 1]%Z], [([2; 1], [10; 11]%Z)], [of_list 0%Z [1] [1%Z]], [of_list 0%Z [2; 1] [1; 1]%Z].
  split; [|split; [repeat constructor; discriminate|split; [constructor; [split; [reflexivity|]; intros idx Hi; inversion Hi as [|i n r l Hn Hr]; inversion Hr; subst; small|constructor]|split; [apply Permutation_refl|split; [vm_compute; reflexivity|vm_compute; discriminate]]]]].
  check_sound. constructor; [|constructor]. constructor; [|constructor]. split; [reflexivity|]. right. split; [reflexivity|]. split; [cbn; discriminate|]. intros b idx Hi. cbn in Hi. apply inside2 in Hi as (i & j & Q & Hi & Hj). injection Q as -> ->. small.
Qed.
Print Assumptions C99_bias_refuted.
