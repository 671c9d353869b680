(** Proofs about the nodes of converted ONNX models that have layers: MatMul, Gemm and Conv. *)
From Coq Require Import List Arith Bool Lia ZArith Permutation Ring Ring_theory.
From Verif Require Import ConvModel ConvSpec ConvProofs ConvGrad ConvBack OnnxModel OnnxSpec OnnxProofs.
Import ListNotations.

Section OnnxL.
Context {A : Type} (zero one : A) (add mul sub : A -> A -> A) (opp : A -> A) (RT : ring_theory zero one add mul sub opp eq) (positive : A -> bool) (over : A -> nat -> A).
Add Ring Aring6 : RT.
Notation sum := (ConvModel.sum zero add).
Notation sigma := (ConvSpec.sigma zero add).
Let sum_ext := sum_ext zero add.
Let sum_zero := sum_zero zero one add mul sub opp RT.
Let sum_swap := sum_swap zero one add mul sub opp RT.
Let sum_mul := sum_mul zero one add mul sub opp RT.
Let sum_mulr := sum_mulr zero one add mul sub opp RT.
Let sum_add := sum_add zero one add mul sub opp RT.
Let sum_sigma := sum_sigma zero one add mul sub opp RT.
Let sum_shift := sum_shift zero one add mul sub opp RT.
Let fst_sigma := fst_sigma zero one add mul sub opp RT.
Let snd_sigma := snd_sigma zero one add mul sub opp RT.
Let isum2 := isum2 zero one add mul sub opp RT.
Let isum1 := isum1 zero one add mul sub opp RT.
Let isum4 := isum4 zero one add mul sub opp RT.
Notation pairing := (OnnxSpec.pairing zero add mul).
Notation pairings := (OnnxSpec.pairings zero add mul).
Notation D := (@dual A).
Notation dzero := (OnnxSpec.dzero zero).
Notation dadd := (OnnxSpec.dadd add).
Notation dmul := (OnnxSpec.dmul add mul).
Notation dopp := (OnnxSpec.dopp opp).
Notation dpositive := (OnnxSpec.dpositive positive).
Notation meansD := (means dzero dadd dmul dopp dpositive).
Notation works := (OnnxProofs.works zero add mul opp positive over).
Notation build_node := (@OnnxModel.build_node A).

Definition slopes_of (c : option (ten D)) : list (ten A) := match c with Some c => [slopes c] | None => [] end.
Definition bias_ok (u : nat) (bt : option (ten A)) (c : option (ten D)) : Prop :=
  match bt, c with Some b, Some c => same b (values c) /\ dims c = [u] | None, None => True | _, _ => False end.
Lemma inside2 idx n u : inside idx [n; u] -> exists i j, idx = [i; j] /\ i < n /\ j < u.
Proof. intros H. inversion H as [|i e r l Hi Hr E1 E2]; subst. inversion Hr as [|j e' r' l' Hj Hr' E3 E4]; subst. inversion Hr'; subst. exists i, j. repeat split; assumption. Qed.
Lemma inside4 idx a b c d : inside idx [a; b; c; d] -> exists i j k l, idx = [i; j; k; l] /\ i < a /\ j < b /\ k < c /\ l < d.
Proof.
  intros H. inversion H as [|i e r l Hi Hr E1 E2]; subst. inversion Hr as [|j e' r' l' Hj Hr' E3 E4]; subst. apply inside2 in Hr' as (k & l & -> & Hk & Hl). exists i, j, k, l. repeat split; assumption.
Qed.

Lemma dense_ok (x W y : ten D) (c : option (ten D)) n m u (k : ten A) (bt : option (ten A)) :
  dims x = [n; m] -> dims W = [m; u] -> dims y = [n; u] ->
  (forall i j, i < n -> j < u -> val y [i; j] = dadd (ConvSpec.sigma dzero dadd m (fun q => dmul (val x [i; q]) (val W [q; j]))) (match c with Some c => val c [j] | None => dzero end)) ->
  same k (values W) -> bias_ok u bt c ->
  exists ws, dense_build (shape_of x) k bt = Ok (ws, shape_of y) /\ length ws <> 0 /\
  forall x', dims x' = dims x -> (forall idx, inside idx (dims x) -> val x' idx = fst (val x idx)) ->
  exists z, dense_call zero add mul ws x' = Ok z /\ same z (values y) /\
  forall dy, dims dy = dims y -> exists gs dx, dense_backward zero add mul ws x' dy = Ok (gs, dx) /\ dims dx = dims x /\
    Forall2 (fun g w => dims g = dims w) gs (slopes W :: slopes_of c) /\
    pairing dy (slopes y) = add (pairing dx (slopes x)) (pairings gs (slopes W :: slopes_of c)).
Proof.
  intros Dx DW Dy M [Dk Vk] Hb. cbn in Dk. rewrite DW in Dk. rewrite Dk in Vk.
  destruct (reshape_same [m; u] k Dk) as (k' & Ek & Dk' & Vk'). rewrite Dk in Dk'. rewrite Dk' in Vk'.
  assert (VW : forall q j, q < m -> j < u -> val k' [q; j] = fst (val W [q; j])). { intros q j Hq Hj. rewrite Vk' by (apply w2; assumption). apply Vk, w2; assumption. }
  assert (B : exists ws, dense_build (shape_of x) k bt = Ok (ws, shape_of y) /\ match c with
    | None => ws = [k']
    | Some c => exists b', ws = [k'; b'] /\ dims b' = [u] /\ forall j, j < u -> val b' [j] = fst (val c [j]) end).
  { unfold dense_build, shape_of. rewrite Dk, Dx, Dy. cbn [tl map]. rewrite Nat2Z.id, Ek. unfold bias_ok in Hb. destruct bt as [b|], c as [c|]; try contradiction.
    - destruct Hb as ((Db & Vb) & Dc). cbn in Db. rewrite Dc in Db. destruct (reshape_same [u] b Db) as (b' & Eb & Db' & Vb'). rewrite Eb. exists [k'; b']. split; [reflexivity|]. exists b'. rewrite Db in Db'. rewrite Db' in Vb'. rewrite Db in Vb.
      split; [reflexivity|]. split; [exact Db'|]. intros j Hj. assert (I : inside [j] [u]) by (repeat constructor; exact Hj). rewrite (Vb' [j] I). apply (Vb [j] I).
    - exists [k']. split; reflexivity. }
  destruct B as (ws & Eb & HW). exists ws. split; [exact Eb|]. split; [destruct c; [destruct HW as (b' & -> & _)|subst ws]; discriminate|]. intros x' Dx' Vx'. rewrite Dx in Dx', Vx'.
  assert (Vx : forall i q, i < n -> q < m -> val x' [i; q] = fst (val x [i; q])) by (intros; apply Vx', w2; assumption). clear Vx'.
  assert (S1 : forall F, (forall i j, i < n -> j < u -> F [i; j] = add (sum m (fun q => mul (val x' [i; q]) (val k' [q; j]))) (match c with Some c => fst (val c [j]) | None => zero end)) -> same (Ten [n; u] F) (values y)).
  { intros F HF. split; cbn [dims val values]; [congruence|]. intros idx Hi. apply inside2 in Hi as (i & j & -> & Hi & Hj). rewrite (HF i j Hi Hj), (M i j Hi Hj). cbn [fst OnnxSpec.dadd]. rewrite fst_sigma. f_equal; [|destruct c; reflexivity].
    apply sum_ext. intros q Hq. rewrite Vx, VW by assumption. reflexivity. }
  assert (Call : exists z, dense_call zero add mul ws x' = Ok z /\ same z (values y)).
  { unfold dense_call. destruct c as [c|].
    - destruct HW as (b' & -> & Db' & Vb'). unfold matmul. rewrite Dx', Dk', Nat.eqb_refl. unfold add_row. cbn [dims tl]. rewrite Db', same_shape_ok. eexists. split; [reflexivity|]. apply S1.
      intros i j Hi Hj. cbn [val tl]. rewrite (Vb' j Hj). reflexivity.
    - subst ws. unfold matmul. rewrite Dx', Dk', Nat.eqb_refl. eexists. split; [reflexivity|]. apply S1. intros i j Hi Hj. cbn. ring. }
  destruct Call as (z & Ez & Sz). exists z. split; [exact Ez|]. split; [exact Sz|]. intros dy Ddy. rewrite Dy in Ddy.
  assert (Fk : dims (flip k') = [u; m]) by (unfold flip; rewrite Dk'; cbn; rewrite Dk'; reflexivity). assert (Vf : forall q j, val (flip k') [j; q] = val k' [q; j]) by (intros; unfold flip; rewrite Dk'; reflexivity).
  assert (Fx : dims (flip x') = [m; n]) by (unfold flip; rewrite Dx'; cbn; rewrite Dx'; reflexivity). assert (Vfx : forall q i, val (flip x') [q; i] = val x' [i; q]) by (intros; unfold flip; rewrite Dx'; reflexivity).
  destruct (product_at zero add mul dy (flip k') n u m Ddy Fk) as (dx & Edx & Ddx & Vdx). destruct (product_at zero add mul (flip x') dy m n u Fx Ddy) as (dk & Edk & Ddk & Vdk).
  assert (Back : dense_backward zero add mul ws x' dy = Ok (dk :: match c with Some _ => [sum_rows zero add dy] | None => [] end, dx)).
  { unfold dense_backward. destruct c as [c|]; [destruct HW as (b' & -> & _)|subst ws]; rewrite Edx, Edk; reflexivity. }
  eexists _, _. split; [exact Back|]. split; [congruence|]. split.
  { constructor; [cbn; congruence|]. destruct c as [c|]; cbn; [|constructor]. constructor; [|constructor]. unfold bias_ok in Hb. destruct bt; [|contradiction]. destruct Hb as (_ & Dc). cbn. rewrite Ddy, Dc. reflexivity. }
  assert (Iy : pairing dy (slopes y) = sum n (fun i => sum u (fun j => mul (val dy [i; j]) (snd (val y [i; j]))))) by (rewrite pairing_isum, Ddy; apply isum2).
  assert (Ix : pairing dx (slopes x) = sum n (fun i => sum u (fun j => sum m (fun q => mul (val dy [i; j]) (mul (snd (val x [i; q])) (fst (val W [q; j]))))))).
  { rewrite pairing_isum, Ddx, isum2. apply sum_ext. intros i Hi. rewrite (sum_swap u m). apply sum_ext. intros q Hq. rewrite Vdx. cbn [slopes val]. rewrite <- sum_mulr. apply sum_ext. intros j Hj. rewrite Vf, VW by assumption. ring. }
  assert (Ik : pairing dk (slopes W) = sum n (fun i => sum u (fun j => sum m (fun q => mul (val dy [i; j]) (mul (fst (val x [i; q])) (snd (val W [q; j]))))))).
  { rewrite pairing_isum, Ddk, isum2. rewrite (ConvGrad.swap12 zero one add mul sub opp RT n u m (fun i j q => mul (val dy [i; j]) (mul (fst (val x [i; q])) (snd (val W [q; j]))))).
    rewrite (sum_swap u m). apply sum_ext. intros q Hq. apply sum_ext. intros j Hj. rewrite Vdk. cbn [slopes val]. rewrite <- sum_mulr. apply sum_ext. intros i Hi. rewrite Vfx, Vx by assumption. ring. }
  transitivity (add (pairing dx (slopes x)) (add (pairing dk (slopes W)) (sum n (fun i => sum u (fun j => mul (val dy [i; j]) (match c with Some c => snd (val c [j]) | None => zero end)))))).
  - rewrite Iy, Ix, Ik, <- !sum_add. apply sum_ext. intros i Hi. rewrite <- !sum_add. apply sum_ext. intros j Hj. rewrite !sum_mul. rewrite (M i j Hi Hj). cbn [snd OnnxSpec.dadd]. rewrite snd_sigma. cbn [snd OnnxSpec.dmul].
    rewrite sum_add. destruct c; cbn; ring.
  - f_equal. destruct c as [c|]; cbn [slopes_of].
    + rewrite (pairings2 zero one add mul sub opp RT). f_equal. rewrite pairing_isum. unfold sum_rows. cbn [dims val]. rewrite Ddy. cbn [tl hd]. rewrite isum1, sum_swap. apply sum_ext. intros j Hj. cbn [slopes val]. apply (sum_mulr n (fun i => val dy [i; j])).
    + rewrite (pairings1 zero one add mul sub opp RT). rewrite (sum_ext n _ (fun _ => zero)); [rewrite sum_zero; ring|]. intros i Hi. rewrite (sum_ext u _ (fun _ => zero)); [apply sum_zero|]. intros j Hj. ring.
Qed.

Lemma reported_refl o n gs : (forall a b, o = AddOp -> a <> b :> nat) -> Forall2 (reported over o n) gs gs.
Proof. intros H. induction gs as [|g gs IH]; constructor; [|exact IH]. split; [reflexivity|]. intros idx. destruct o; try reflexivity. exfalso. apply (H 0 0); reflexivity. Qed.
Ltac notadd := apply reported_refl; discriminate.

Lemma matmul_ok x w y k (train : Prop) : meansD MatMulOp [x; w] y -> same k (values w) ->
  exists ob, build_node MatMulOp [Shape (shape_of x); Init k] = Ok (ob, shape_of y) /\ works MatMulOp train [x] [w] y ob.
Proof.
  intros (n & m & u & Dx & Dw & Dy & M) S. destruct (dense_ok x w y None n m u k None Dx Dw Dy M S I) as (ws & Ew & _ & F).
  eexists. split; [cbn [OnnxModel.build_node]; rewrite Ew; reflexivity|]. split; [reflexivity|]. intros xs H. apply same1 in H as (x' & -> & Dx' & Vx'). destruct (F x' Dx' Vx') as (z & Ez & Sz & B).
  cbn [OnnxModel.forward_node okind weights fst]. rewrite Ez. eexists _, _. split; [reflexivity|]. split; [exact Sz|]. intros _ dy Ddy. destruct (B dy Ddy) as (gs & dx & Eb & Ddx & Dg & P).
  cbn [OnnxModel.backward_node okind saved weights]. rewrite Eb. exists gs, [dx], gs. split; [reflexivity|]. split; [reflexivity|]. split; [repeat constructor; exact Ddx|]. split; [notadd|]. split; [exact Dg|]. cbn [map]. rewrite (pairings1 zero one add mul sub opp RT). exact P.
Qed.
Lemma gemm_ok x w c y k b t r (train : Prop) : let attrs := (TransA, 0) :: (TransB, t) :: r in meansD (GemmOp attrs) [x; w; c] y -> same k (values w) -> same b (values c) ->
  exists ob, build_node (GemmOp attrs) [Shape (shape_of x); Init k; Init b] = Ok (ob, shape_of y) /\ works (GemmOp attrs) train [x] [w; c] y ob.
Proof.
  intros attrs ((n & m & u & Dx & Dw & Dy & M) & Dc) S Sb. rewrite Dy in Dc. cbn [nth] in Dc.
  change (attribute TransA attrs) with 0 in *. change (attribute TransB attrs) with t in *. cbn [Nat.eqb negb] in Dx, M.
  set (W := if t =? 0 then w else Ten (rev (dims w)) (fun idx => val w (rev idx))).
  assert (DW : dims W = [m; u]). { unfold W. destruct (t =? 0); cbn [negb] in Dw; [exact Dw|]. cbn. rewrite Dw. reflexivity. }
  assert (SW : same (if t =? 0 then k else flip k) (values W)).
  { unfold W. destruct (t =? 0); cbn [negb] in Dw; [exact S|]. destruct S as [Dk Vk]. cbn in Dk. unfold flip. rewrite Dk, Dw in *. split; cbn [dims values transpose length seq rev app map nth]; [rewrite Dk; reflexivity|].
    rewrite Dk. intros idx Hi. apply inside2 in Hi as (i & j & -> & Hi & Hj). cbn in Hi, Hj. cbn. apply (Vk [j; i]). apply w2; assumption. }
  assert (MW : forall i j, i < n -> j < u -> val y [i; j] = dadd (ConvSpec.sigma dzero dadd m (fun q => dmul (val x [i; q]) (val W [q; j]))) (val c [j])).
  { intros i j Hi Hj. rewrite (M i j Hi Hj). unfold W. destruct (t =? 0); reflexivity. }
  destruct (dense_ok x W y (Some c) n m u _ (Some b) Dx DW Dy MW SW (conj Sb Dc)) as (ws & Ew & _ & F).
  eexists. split; [cbn [OnnxModel.build_node attrs]; rewrite Ew; reflexivity|]. split; [reflexivity|]. intros xs H. apply same1 in H as (x' & -> & Dx' & Vx'). destruct (F x' Dx' Vx') as (z & Ez & Sz & B).
  cbn [OnnxModel.forward_node okind weights fst attrs Nat.eqb]. rewrite Ez. eexists _, _. split; [reflexivity|]. split; [exact Sz|]. intros _ dy Ddy. destruct (B dy Ddy) as (gs & dx & Eb & Ddx & Dg & P).
  cbn [OnnxModel.backward_node okind saved weights attrs Nat.eqb]. rewrite Eb. exists gs, [dx], gs. split; [reflexivity|]. split; [reflexivity|]. split; [repeat constructor; exact Ddx|]. split; [notadd|].
  assert (Lo : laid_out (GemmOp attrs) (map slopes [w; c]) = slopes W :: slopes_of (Some c)). { cbn [laid_out map slopes_of]. change (attribute TransB attrs) with t. unfold W. destruct (t =? 0); reflexivity. }
  fold attrs. rewrite Lo. split; [exact Dg|]. cbn [map]. rewrite (pairings1 zero one add mul sub opp RT). exact P.
Qed.
End OnnxL.
