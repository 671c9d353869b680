(** Proofs about the nodes of converted ONNX models. *)
From Coq Require Import List Arith Bool Lia ZArith Permutation Ring Ring_theory.
From Verif Require Import ConvModel ConvSpec ConvProofs ConvGrad ConvBack OnnxModel OnnxSpec.
Import ListNotations.

(** ** Indices *)
Lemma in_indices d : forall idx, In idx (indices d) <-> inside idx d.
Proof.
  induction d as [|n d IH]; intros idx; cbn [indices].
  - split; [intros [<-|[]]; constructor|intros H; inversion H; left; reflexivity].
  - rewrite in_flat_map. split.
    + intros (i & Hi & H). apply in_map_iff in H as (r & <- & Hr). apply in_seq in Hi. constructor; [lia|apply IH, Hr].
    + intros H. inversion H as [|i e r d' Hi Hr]; subst. exists i. split; [apply in_seq; lia|]. apply in_map, IH, Hr.
Qed.
Lemma nodup_flat {X Y} (f : X -> list Y) l : NoDup l -> (forall x, In x l -> NoDup (f x)) -> (forall x y z, In z (f x) -> In z (f y) -> x = y) -> NoDup (flat_map f l).
Proof.
  intros N F J. induction N as [|x l Hx N IH]; [constructor|]. cbn.
  assert (G : forall l1 l2 : list Y, NoDup l1 -> NoDup l2 -> (forall z, In z l1 -> ~ In z l2) -> NoDup (l1 ++ l2)).
  { clear. induction l1 as [|a l1 IH]; intros l2 H1 H2 D; [exact H2|]. inversion H1; subst. cbn. constructor.
    - rewrite in_app_iff. intros [H|H]; [contradiction|]. apply (D a); [left; reflexivity|exact H].
    - apply IH; [assumption|assumption|]. intros z Hz. apply D. right. exact Hz. }
  apply G; [apply F; left; reflexivity|apply IH; intros; apply F; right; assumption|].
  intros z Hz H. apply in_flat_map in H as (y & Hy & H). rewrite (J x y z Hz H) in Hx. contradiction.
Qed.
Lemma nodup_indices d : NoDup (indices d).
Proof.
  induction d as [|n d IH]; cbn [indices]; [constructor; [easy|constructor]|]. apply nodup_flat; [apply seq_NoDup| |].
  - intros i _. apply FinFun.Injective_map_NoDup; [|exact IH]. intros a b E. injection E as E. exact E.
  - intros x y z H1 H2. apply in_map_iff in H1 as (a & <- & _). apply in_map_iff in H2 as (b & E & _). injection E as E _. congruence.
Qed.
Lemma inside_length idx d : inside idx d -> length idx = length d.
Proof. induction 1 as [|i n idx d _ _ IH]; cbn; congruence. Qed.
Lemma inside_nth idx d : inside idx d -> forall p, p < length d -> nth p idx 0 < nth p d 0.
Proof. induction 1 as [|i n idx d Hi H IH]; intros p Hp; [cbn in Hp; lia|]. destruct p as [|p]; [exact Hi|]. cbn in *. apply IH. lia. Qed.
Lemma inside_map {X} (l : list X) f g : (forall x, In x l -> f x < g x) -> inside (map f l) (map g l).
Proof. induction l as [|x l IH]; intros H; cbn; constructor; [apply H; left; reflexivity|]. apply IH. intros y Hy. apply H. right. exact Hy. Qed.
Lemma place_ravel d idx : inside idx d -> place d idx = ravel d idx.
Proof.
  unfold place. intros H. assert (G : forall a, fold_left (fun a p => a * fst p + snd p) (combine d idx) a = a * psize d + ravel d idx).
  { induction H as [|i n idx d Hi H IH]; intros a; cbn [combine fold_left ravel fst snd]; [cbn; lia|]. rewrite IH. change (psize (n :: d)) with (n * psize d). ring. }
  rewrite G. reflexivity.
Qed.
Lemma same_refl {A} (t : ten A) : same t t. Proof. split; [reflexivity|intros; reflexivity]. Qed.
Lemma reshape_same {A} d (t : ten A) : dims t = d -> exists z, reshape d t = Ok z /\ same z t.
Proof.
  intros <-. destruct (reshape_ok (dims t) t eq_refl) as (z & E & D & V). exists z. split; [exact E|]. split; [exact D|]. rewrite D. intros idx H. apply V; [exact H|exact H|reflexivity].
Qed.
Lemma same_shape_iff d e : same_shape d e = true <-> d = e.
Proof. unfold same_shape. destruct (list_eq_dec Nat.eq_dec d e); split; congruence. Qed.
Lemma same_shape_no d e : d <> e -> same_shape d e = false.
Proof. intros H. destruct (same_shape d e) eqn:E; [|reflexivity]. apply same_shape_iff in E. contradiction. Qed.

(** ** Shapes with an unknown batch size *)
Lemma known_filter d : filter (fun z => negb (z =? -1)%Z) (map Z.of_nat d) = map Z.of_nat d.
Proof. induction d as [|n d IH]; [reflexivity|]. cbn [map filter]. destruct (Z.eqb_spec (Z.of_nat n) (-1)); [lia|]. cbn. rewrite IH. reflexivity. Qed.
Lemma zprod_nat d : zprod (map Z.of_nat d) = Z.of_nat (psize d).
Proof. induction d as [|n d IH]; [reflexivity|]. cbn [map]. change (zprod (Z.of_nat n :: map Z.of_nat d)) with (Z.of_nat n * zprod (map Z.of_nat d))%Z. rewrite IH. change (psize (n :: d)) with (n * psize d). lia. Qed.
Lemma psize_pos d : Forall (lt 0) d -> 0 < psize d.
Proof. induction 1 as [|n d Hn H IH]; [cbn; lia|]. change (psize (n :: d)) with (n * psize d). nia. Qed.
Lemma zreshape_ok {A} n d (t : ten A) : Forall (lt 0) d -> psize (dims t) = n * psize d -> zreshape ((-1)%Z :: map Z.of_nat d) t = reshape (n :: d) t.
Proof.
  intros P E. unfold zreshape. cbn [filter]. change (-1 =? -1)%Z with true. cbn [negb]. rewrite known_filter.
  assert (F : forallb (Z.leb 0) (map Z.of_nat d) = true). { apply forallb_forall. intros z Hz. apply in_map_iff in Hz as (q & <- & _). apply Z.leb_le. lia. }
  rewrite F. cbn [length]. rewrite Nat.sub_succ_l, Nat.sub_diag by lia. rewrite zprod_nat, Nat2Z.id. pose proof (psize_pos d P) as Q. destruct (Nat.ltb_spec 0 (psize d)); [|lia].
  f_equal. cbn [map]. change (-1 =? -1)%Z with true. cbv iota. f_equal; [rewrite E; apply Nat.div_mul; lia|].
  rewrite map_map. rewrite <- (map_id d) at 2. apply map_ext. intros q. destruct (Z.eqb_spec (Z.of_nat q) (-1)); [lia|]. apply Nat2Z.id.
Qed.

Section OnnxP.
Context {A : Type} (zero one : A) (add mul sub : A -> A -> A) (opp : A -> A) (RT : ring_theory zero one add mul sub opp eq) (positive : A -> bool) (over : A -> nat -> A).
Add Ring Aring5 : RT.
Notation sum := (ConvModel.sum zero add).
Notation sigma := (ConvSpec.sigma zero add).
Let sum_ext := sum_ext zero add.
Let sum_zero := sum_zero zero one add mul sub opp RT.
Let sum_swap := sum_swap zero one add mul sub opp RT.
Let sum_mul := sum_mul zero one add mul sub opp RT.
Let sum_mulr := sum_mulr zero one add mul sub opp RT.
Let sum_add := sum_add zero one add mul sub opp RT.
Let sum_sigma := sum_sigma zero one add mul sub opp RT.
Notation pairing := (OnnxSpec.pairing zero add mul).
Notation pairings := (OnnxSpec.pairings zero add mul).

(** ** Sums over indices *)
Definition lsum {X} (l : list X) (F : X -> A) : A := fold_right add zero (map F l).
Definition isum (d : list nat) (F : list nat -> A) : A := lsum (indices d) F.
Lemma lsum_app {X} (l l' : list X) F : lsum (l ++ l') F = add (lsum l F) (lsum l' F).
Proof. unfold lsum. induction l as [|x l IH]; cbn; [ring|]. rewrite IH. ring. Qed.
Lemma lsum_perm {X} (l l' : list X) F : Permutation l l' -> lsum l F = lsum l' F.
Proof. unfold lsum. induction 1; cbn; [reflexivity|congruence|ring|congruence]. Qed.
Lemma lsum_ext {X} (l : list X) F G : (forall x, In x l -> F x = G x) -> lsum l F = lsum l G.
Proof. intros H. unfold lsum. f_equal. apply map_ext_in, H. Qed.
Lemma lsum_add {X} (l : list X) F G : lsum l (fun x => add (F x) (G x)) = add (lsum l F) (lsum l G).
Proof. unfold lsum. induction l as [|x l IH]; cbn; [ring|]. rewrite IH. ring. Qed.
Lemma lsum_mulr {X} (l : list X) F c : lsum l (fun x => mul (F x) c) = mul (lsum l F) c.
Proof. unfold lsum. induction l as [|x l IH]; cbn; [ring|]. rewrite IH. ring. Qed.
Lemma lsum_seq n F : lsum (seq 0 n) F = sum n F.
Proof. symmetry. apply sum_sigma. Qed.
Lemma lsum_flat {X Y} (l : list X) (f : X -> list Y) F : lsum (flat_map f l) F = lsum l (fun x => lsum (f x) F).
Proof. induction l as [|x l IH]; [reflexivity|]. cbn [flat_map]. rewrite lsum_app, IH. reflexivity. Qed.
Lemma lsum_map {X Y} (l : list X) (f : X -> Y) F : lsum (map f l) F = lsum l (fun x => F (f x)).
Proof. unfold lsum. rewrite map_map. reflexivity. Qed.
Lemma isum_ext d F G : (forall idx, inside idx d -> F idx = G idx) -> isum d F = isum d G.
Proof. intros H. apply lsum_ext. intros idx Hi. apply H, in_indices, Hi. Qed.
Lemma isum_add d F G : isum d (fun idx => add (F idx) (G idx)) = add (isum d F) (isum d G).
Proof. apply lsum_add. Qed.
Lemma isum_cons n d F : isum (n :: d) F = sum n (fun i => isum d (fun idx => F (i :: idx))).
Proof. unfold isum. cbn [indices]. rewrite lsum_flat, lsum_seq. apply sum_ext. intros i _. apply lsum_map. Qed.
Lemma isum_nil F : isum [] F = F [].
Proof. unfold isum, lsum. cbn. ring. Qed.
Lemma isum_swap n d F : sum n (fun i => isum d (F i)) = isum d (fun idx => sum n (fun i => F i idx)).
Proof.
  unfold isum. induction (indices d) as [|x l IH]; [apply sum_zero|]. unfold lsum in *. cbn. rewrite <- IH. apply (sum_add n (fun i => F i x)).
Qed.
(** Sums over two shapes whose indices correspond. *)
Lemma isum_bij d e f g F : (forall idx, inside idx d -> inside (f idx) e /\ g (f idx) = idx) -> (forall idx, inside idx e -> inside (g idx) d /\ f (g idx) = idx) ->
  isum d (fun idx => F (f idx)) = isum e F.
Proof.
  intros H1 H2. unfold isum. rewrite <- (lsum_map (indices d) f F). apply lsum_perm. apply NoDup_Permutation; [|apply nodup_indices|].
  - assert (G : forall l, NoDup l -> (forall x, In x l -> inside x d) -> NoDup (map f l)).
    { induction l as [|x l IH]; intros N I; cbn; [constructor|]. inversion N; subst. constructor.
      - intros H. apply in_map_iff in H as (y & E & Hy). assert (x = y); [|subst; contradiction].
        rewrite <- (proj2 (H1 x (I x (or_introl eq_refl)))), <- (proj2 (H1 y (I y (or_intror Hy)))). congruence.
      - apply IH; [assumption|]. intros y Hy. apply I. right. exact Hy. }
    apply G; [apply nodup_indices|]. intros x. apply in_indices.
  - intros idx. rewrite in_indices, in_map_iff. split.
    + intros (x & <- & Hx). apply in_indices in Hx. apply H1, Hx.
    + intros H. exists (g idx). rewrite in_indices. split; apply H2, H.
Qed.
Lemma pairing_isum x y : pairing x y = isum (dims x) (fun idx => mul (val x idx) (val y idx)).
Proof. reflexivity. Qed.
Lemma isum2 n u F : isum [n; u] F = sum n (fun i => sum u (fun j => F [i; j])).
Proof. rewrite isum_cons. apply sum_ext. intros i _. rewrite isum_cons. apply sum_ext. intros j _. apply isum_nil. Qed.
Lemma isum1 u F : isum [u] F = sum u (fun j => F [j]).
Proof. rewrite isum_cons. apply sum_ext. intros j _. apply isum_nil. Qed.
Lemma isum4 a b c d F : isum [a; b; c; d] F = sum a (fun i => sum b (fun j => sum c (fun k => sum d (fun l => F [i; j; k; l])))).
Proof. rewrite isum_cons. apply sum_ext. intros i _. rewrite isum_cons. apply sum_ext. intros j _. apply isum2. Qed.

(** ** Dual numbers *)
Notation D := (@dual A).
Notation dzero := (OnnxSpec.dzero zero).
Notation dadd := (OnnxSpec.dadd add).
Notation dmul := (OnnxSpec.dmul add mul).
Notation dopp := (OnnxSpec.dopp opp).
Notation dpositive := (OnnxSpec.dpositive positive).
Notation meansD := (means dzero dadd dmul dopp dpositive).
Lemma fst_sigma n (F : nat -> D) : fst (ConvSpec.sigma dzero dadd n F) = sum n (fun i => fst (F i)).
Proof. rewrite sum_sigma. unfold ConvSpec.sigma. induction (seq 0 n) as [|i l IH]; [reflexivity|]. cbn. rewrite IH. reflexivity. Qed.
Lemma snd_sigma n (F : nat -> D) : snd (ConvSpec.sigma dzero dadd n F) = sum n (fun i => snd (F i)).
Proof. rewrite sum_sigma. unfold ConvSpec.sigma. induction (seq 0 n) as [|i l IH]; [reflexivity|]. cbn. rewrite IH. reflexivity. Qed.

(** ** What a node must do *)
Definition shape_of (t : ten D) : list Z := (-1)%Z :: map Z.of_nat (tl (dims t)).
Definition arg_ok (a : arg A) (t : ten D) : Prop := match a with Init u => same u (values t) | Shape s => s = shape_of t /\ dims t <> [] end.
Definition full (t : ten D) : Prop := Forall (lt 0) (dims t).
(** The exact gradients of the weights, from what a node reports. *)
Definition exact_of (o : op) (dy : ten A) (gs : list (ten A)) : list (ten A) := match o, gs with AddOp, _ :: _ => [sum_rows zero add dy] | _, _ => gs end.
Definition returns (o : op) (dyn ini : list (ten D)) (y : ten D) (ob : obj A) : Prop :=
  forall dy, dims dy = dims y -> exists gs dxs exact, backward_node zero add mul opp positive over ob [dy] = Ok (gs, dxs) /\ exact = exact_of o dy gs /\
    Forall2 (fun d (t : ten D) => dims d = dims t) dxs dyn /\ Forall2 (reported over o (hd 0 (dims y))) gs exact /\
    Forall2 (fun e w => dims e = dims w) exact (laid_out o (map slopes ini)) /\
    pairing dy (slopes y) = add (pairings dxs (map slopes dyn)) (pairings exact (laid_out o (map slopes ini))).
Definition works (o : op) (train : Prop) (dyn ini : list (ten D)) (y : ten D) (ob : obj A) : Prop :=
  okind ob = o /\ forall xs, Forall2 same xs (map values dyn) -> exists z sv, forward_node zero add mul opp positive ob xs = Ok (z, sv) /\ same z (values y) /\
    (train -> returns o dyn ini y (Obj o (weights ob) (shape_in ob) sv)).
Notation build_node := (@OnnxModel.build_node A).
Notation forward_node := (OnnxModel.forward_node zero add mul opp positive).
Notation backward_node := (OnnxModel.backward_node zero add mul opp positive over).

Ltac inv_same H := repeat match type of H with Forall2 same _ (map values (_ :: _)) => cbn [map] in H | Forall2 same _ (_ :: _) => inversion H; subst; clear H | Forall2 same _ [] => inversion H; subst; clear H end.
Lemma same1 xs (x : ten D) : Forall2 same xs (map values [x]) -> exists x', xs = [x'] /\ dims x' = dims x /\ forall idx, inside idx (dims x) -> val x' idx = fst (val x idx).
Proof. cbn [map]. intros H. inversion H as [|x' ? l ? [S1 S2] T]; subst. inversion T; subst. exists x'. cbn in S1. rewrite S1 in S2. split; [reflexivity|]. split; [exact S1|exact S2]. Qed.
Lemma same2 xs (x z : ten D) : Forall2 same xs (map values [x; z]) -> exists x' z', xs = [x'; z'] /\ dims x' = dims x /\ dims z' = dims z /\
  (forall idx, inside idx (dims x) -> val x' idx = fst (val x idx)) /\ (forall idx, inside idx (dims z) -> val z' idx = fst (val z idx)).
Proof.
  cbn [map]. intros H. inversion H as [|x' ? l ? [S1 S2] T]; subst. inversion T as [|z' ? l' ? [S3 S4] U]; subst. inversion U; subst. exists x', z'. cbn in S1, S3. rewrite S1 in S2. rewrite S3 in S4.
  repeat (split; [first [reflexivity|assumption]|]). exact S4.
Qed.
Lemma shape_head (t y : ten D) : dims y = dims t -> shape_of t = shape_of y.
Proof. unfold shape_of. intros ->. reflexivity. Qed.
Lemma pairings1 a b : pairings [a] [b] = pairing a b. Proof. unfold OnnxSpec.pairings. cbn. ring. Qed.
Lemma pairings2 a b c d : pairings [a; b] [c; d] = add (pairing a c) (pairing b d). Proof. unfold OnnxSpec.pairings. cbn. ring. Qed.
Lemma pairings0 l : pairings [] l = zero. Proof. reflexivity. Qed.

Lemma add0 a : add a zero = a. Proof. ring. Qed.
(** ** Operators on entries *)
Lemma add_data x z y (train : Prop) : meansD AddOp [x; z] y -> dims x <> [] -> (train -> dims z = dims x) ->
  exists ob, build_node AddOp [Shape (shape_of x); Shape (shape_of z)] = Ok (ob, shape_of y) /\ works AddOp train [x; z] [] y ob.
Proof.
  intros (Dy & M) N T. eexists. split; [cbn; rewrite <- (shape_head x y Dy); reflexivity|]. split; [reflexivity|]. intros xs H. apply same2 in H as (x' & z' & -> & Dx & Dz & Vx & Vz).
  cbn [forward_node OnnxModel.forward_node okind weights]. unfold add_to. destruct M as [(Ez & M)|(Ez & _ & M)].
  - rewrite (proj2 (same_shape_iff _ _)) by congruence. unfold entrywise. rewrite (proj2 (same_shape_iff _ _)) by congruence. eexists _, _. split; [reflexivity|]. split.
    + split; cbn; [congruence|]. rewrite Dx. intros idx Hi. rewrite (M idx Hi), Vx, Vz by congruence. reflexivity.
    + intros _ dy Ddy. eexists _, _, []. split; [reflexivity|]. split; [reflexivity|]. split; [repeat constructor; congruence|]. split; [constructor|]. split; [constructor|]. cbn [map laid_out].
      rewrite pairings2, pairings0, !pairing_isum, <- isum_add. rewrite Ddy, Dy. transitivity (isum (dims x) (fun idx => add (mul (val dy idx) (snd (val x idx))) (mul (val dy idx) (snd (val z idx))))); [|symmetry; apply add0].
      apply isum_ext. intros idx Hi. cbn [slopes val]. rewrite (M idx Hi). cbn. ring.
  - assert (Q : dims x' <> dims z'). { rewrite Dx, Dz, Ez. destruct (dims x) as [|n d]; [congruence|]. cbn. intros E. apply (f_equal (@length nat)) in E. cbn in E. lia. }
    rewrite same_shape_no by exact Q. unfold add_row. rewrite Dx, Dz, Ez, same_shape_ok. eexists _, _. split; [reflexivity|]. split.
    + split; cbn [dims val values]; [congruence|]. intros idx Hi. destruct idx as [|b idx]; [inversion Hi; congruence|]. rewrite (M b idx Hi). cbn [tl]. rewrite Vx by exact Hi. rewrite Vz; [reflexivity|].
      rewrite Ez. inversion Hi; subst. assumption.
    + intros Tr. specialize (T Tr). exfalso. apply Q. congruence.
Qed.

Lemma add_init x z y b (train : Prop) : meansD AddOp [x; z] y -> dims x <> [] -> same b (values z) -> (train -> dims z <> dims x) ->
  exists ob, build_node AddOp [Shape (shape_of x); Init b] = Ok (ob, shape_of y) /\ works AddOp train [x] [z] y ob.
Proof.
  intros (Dy & M) N [Db Vb] T. cbn in Db. eexists. split; [cbn; rewrite <- (shape_head x y Dy); reflexivity|]. split; [reflexivity|]. intros xs H. apply same1 in H as (x' & -> & Dx & Vx).
  cbn [OnnxModel.forward_node okind weights]. unfold add_to. rewrite Db in Vb. destruct M as [(Ez & M)|(Ez & _ & M)].
  - rewrite (proj2 (same_shape_iff _ _)) by congruence. unfold entrywise. rewrite (proj2 (same_shape_iff _ _)) by congruence. eexists _, _. split; [reflexivity|]. split.
    + split; cbn; [congruence|]. rewrite Dx. intros idx Hi. rewrite (M idx Hi), Vx by exact Hi. rewrite (Vb idx) by congruence. reflexivity.
    + intros Tr. exfalso. apply (T Tr), Ez.
  - assert (Q : dims x' <> dims b). { rewrite Dx, Db, Ez. destruct (dims x) as [|n d]; [congruence|]. cbn. intros E. apply (f_equal (@length nat)) in E. cbn in E. lia. }
    rewrite same_shape_no by exact Q. unfold add_row. rewrite Dx, Db, Ez, same_shape_ok. eexists _, _. split; [reflexivity|]. split.
    + split; cbn [dims val values]; [congruence|]. intros idx Hi. destruct idx as [|i idx]; [inversion Hi; congruence|]. rewrite (M i idx Hi). cbn [tl]. rewrite Vx by exact Hi. rewrite (Vb idx); [reflexivity|].
      rewrite Ez. inversion Hi; subst. assumption.
    + intros _ dy Ddy. cbn [OnnxModel.backward_node okind weights]. eexists _, _, [sum_rows zero add dy]. split; [reflexivity|]. split; [reflexivity|]. split; [repeat constructor; congruence|]. split.
      { constructor; [|constructor]. split; [reflexivity|]. intros idx. cbn [val]. rewrite Ddy. reflexivity. }
      split; [constructor; [|constructor]; cbn; congruence|]. cbn [map laid_out]. rewrite !pairings1, !pairing_isum. unfold sum_rows. cbn [dims val slopes]. rewrite Ddy, Dy. destruct (dims x) as [|n d] eqn:Ex; [congruence|]. cbn [tl hd].
      rewrite !isum_cons.
      transitivity (add (sum n (fun i => isum d (fun idx => mul (val dy (i :: idx)) (snd (val x (i :: idx)))))) (sum n (fun i => isum d (fun idx => mul (val dy (i :: idx)) (snd (val z idx)))))).
      * rewrite <- sum_add. apply sum_ext. intros i Hi. rewrite <- isum_add. apply isum_ext. intros idx Hx. rewrite (M i idx) by (constructor; assumption). cbn. ring.
      * f_equal. rewrite isum_swap. apply isum_ext. intros idx _. apply (sum_mulr n (fun i => val dy (i :: idx))).
Qed.

Lemma sub_ok x z y (train : Prop) : meansD SubOp [x; z] y -> exists ob, build_node SubOp [Shape (shape_of x); Shape (shape_of z)] = Ok (ob, shape_of y) /\ works SubOp train [x; z] [] y ob.
Proof.
  intros (Dy & Ez & M). eexists. split; [cbn; rewrite <- (shape_head x y Dy); reflexivity|]. split; [reflexivity|]. intros xs H. apply same2 in H as (x' & z' & -> & Dx & Dz & Vx & Vz).
  cbn [OnnxModel.forward_node okind weights]. unfold entrywise. rewrite (proj2 (same_shape_iff _ _)) by congruence. eexists _, _. split; [reflexivity|]. split.
  - split; cbn; [congruence|]. rewrite Dx. intros idx Hi. rewrite (M idx Hi), Vx, Vz by congruence. reflexivity.
  - intros _ dy Ddy. eexists _, _, []. split; [reflexivity|]. split; [reflexivity|]. split; [repeat constructor; cbn; congruence|]. split; [constructor|]. split; [constructor|]. cbn [map laid_out].
    rewrite pairings2, pairings0, !pairing_isum. cbn [dims]. rewrite <- isum_add. rewrite Ddy, Dy. transitivity (isum (dims x) (fun idx => add (mul (val dy idx) (snd (val x idx))) (mul (opp (val dy idx)) (snd (val z idx))))); [|symmetry; apply add0].
    apply isum_ext. intros idx Hi. cbn [slopes val]. rewrite (M idx Hi). cbn. ring.
Qed.
Lemma mul_ok x z y (train : Prop) : meansD MulOp [x; z] y -> exists ob, build_node MulOp [Shape (shape_of x); Shape (shape_of z)] = Ok (ob, shape_of y) /\ works MulOp train [x; z] [] y ob.
Proof.
  intros (Dy & Ez & M). eexists. split; [cbn; rewrite <- (shape_head x y Dy); reflexivity|]. split; [reflexivity|]. intros xs H. apply same2 in H as (x' & z' & -> & Dx & Dz & Vx & Vz).
  cbn [OnnxModel.forward_node okind weights]. unfold entrywise at 1. rewrite (proj2 (same_shape_iff _ _)) by congruence. eexists _, _. split; [reflexivity|]. split.
  - split; cbn; [congruence|]. rewrite Dx. intros idx Hi. rewrite (M idx Hi), Vx, Vz by congruence. reflexivity.
  - intros _ dy Ddy. cbn [OnnxModel.backward_node okind saved]. unfold entrywise. rewrite !(proj2 (same_shape_iff _ _)) by congruence.
    eexists _, _, []. split; [reflexivity|]. split; [reflexivity|]. split; [repeat constructor; cbn; congruence|]. split; [constructor|]. split; [constructor|]. cbn [map laid_out].
    rewrite pairings2, pairings0, !pairing_isum. cbn [dims]. rewrite Dz, Dx, Ez, <- isum_add. rewrite Ddy, Dy.
    transitivity (isum (dims x) (fun idx => add (mul (mul (val z' idx) (val dy idx)) (snd (val x idx))) (mul (mul (val x' idx) (val dy idx)) (snd (val z idx))))); [|symmetry; apply add0].
    apply isum_ext. intros idx Hi. cbn [slopes val]. rewrite (M idx Hi), Vx, Vz by congruence. cbn. ring.
Qed.
Lemma neg_ok x y (train : Prop) : meansD NegOp [x] y -> exists ob, build_node NegOp [Shape (shape_of x)] = Ok (ob, shape_of y) /\ works NegOp train [x] [] y ob.
Proof.
  intros (Dy & M). eexists. split; [cbn; rewrite <- (shape_head x y Dy); reflexivity|]. split; [reflexivity|]. intros xs H. apply same1 in H as (x' & -> & Dx & Vx).
  cbn [OnnxModel.forward_node okind]. eexists _, _. split; [reflexivity|]. split.
  - split; cbn; [congruence|]. rewrite Dx. intros idx Hi. rewrite (M idx Hi), Vx by exact Hi. reflexivity.
  - intros _ dy Ddy. eexists _, _, []. split; [reflexivity|]. split; [reflexivity|]. split; [repeat constructor; cbn; congruence|]. split; [constructor|]. split; [constructor|]. cbn [map laid_out].
    rewrite pairings1, pairings0, !pairing_isum. cbn [dims]. rewrite Ddy, Dy. transitivity (isum (dims x) (fun idx => mul (opp (val dy idx)) (snd (val x idx)))); [|symmetry; apply add0].
    apply isum_ext. intros idx Hi. cbn [slopes val]. rewrite (M idx Hi). cbn. ring.
Qed.
Lemma relu_ok x y (train : Prop) : meansD ReluOp [x] y -> exists ob, build_node ReluOp [Shape (shape_of x)] = Ok (ob, shape_of y) /\ works ReluOp train [x] [] y ob.
Proof.
  intros (Dy & M). eexists. split; [cbn; rewrite <- (shape_head x y Dy); reflexivity|]. split; [reflexivity|]. intros xs H. apply same1 in H as (x' & -> & Dx & Vx).
  cbn [OnnxModel.forward_node okind]. eexists _, _. split; [reflexivity|]. split.
  - split; cbn; [congruence|]. rewrite Dx. intros idx Hi. rewrite (M idx Hi), Vx by exact Hi. unfold OnnxSpec.dpositive. destruct (positive (fst (val x idx))); reflexivity.
  - intros _ dy Ddy. cbn [OnnxModel.backward_node okind saved]. unfold entrywise. rewrite !(proj2 (same_shape_iff _ _)) by congruence.
    eexists _, _, []. split; [reflexivity|]. split; [reflexivity|]. split; [repeat constructor; cbn; congruence|]. split; [constructor|]. split; [constructor|]. cbn [map laid_out].
    rewrite pairings1, pairings0, !pairing_isum. cbn [dims]. rewrite Dx, Ddy, Dy. transitivity (isum (dims x) (fun idx => mul (if positive (val x' idx) then val dy idx else zero) (snd (val x idx)))); [|symmetry; apply add0].
    apply isum_ext. intros idx Hi. cbn [slopes val]. rewrite (M idx Hi), Vx by exact Hi. unfold OnnxSpec.dpositive. destruct (positive (fst (val x idx))); cbn; ring.
Qed.

(** ** Flatten and Transpose *)
Lemma flatten_ok x y (train : Prop) : full x -> 2 <= length (dims x) -> meansD FlattenOp [x] y -> exists ob, build_node FlattenOp [Shape (shape_of x)] = Ok (ob, shape_of y) /\ works FlattenOp train [x] [] y ob.
Proof.
  intros F L (n & d & Ex & Dy & M). change (fold_right Nat.mul 1 d) with (psize d) in Dy. assert (Fd : Forall (lt 0) d). { unfold full in F. rewrite Ex in F. inversion F; assumption. }
  assert (Hn : 0 < n). { unfold full in F. rewrite Ex in F. inversion F; assumption. }
  exists (Obj FlattenOp [] (shape_of x) []). split.
  { cbn. unfold shape_of. rewrite Ex, Dy. cbn [tl map]. destruct d as [|e d]; [rewrite Ex in L; cbn in L; lia|]. cbn [map]. rewrite <- zprod_nat. reflexivity. }
  split; [reflexivity|]. intros xs H. apply same1 in H as (x' & -> & Dx & Vx). cbn [OnnxModel.forward_node okind shape_in]. unfold shape_of at 1. cbn [tl]. rewrite Ex. cbn [tl]. rewrite zprod_nat.
  pose proof (psize_pos d Fd) as Pd.
  change [(-1)%Z; Z.of_nat (psize d)] with ((-1)%Z :: map Z.of_nat [psize d]). rewrite (zreshape_ok n [psize d] x') by (first [constructor; [exact Pd|constructor] | rewrite Dx, Ex; cbn; fold (psize d); rewrite Nat.mul_1_r; reflexivity]).
  destruct (reshape_ok [n; psize d] x') as (z & Ez & Dz & Vz). { rewrite Dx, Ex. cbn. fold (psize d). lia. }
  rewrite Ez. rewrite Dx, Ex in Vz. rewrite Ex in Vx.
  assert (Pl : forall b idx, inside (b :: idx) (n :: d) -> ravel [n; psize d] [b; place d idx] = ravel (n :: d) (b :: idx) /\ inside [b; place d idx] [n; psize d]).
  { intros b idx Hi. inversion Hi; subst. rewrite place_ravel by assumption. split; [cbn; lia|]. apply w2; [assumption|]. apply ravel_lt. assumption. }
  assert (Pi : forall i j, i < n -> j < psize d -> inside (i :: unravel d j) (n :: d) /\ place d (unravel d j) = j).
  { intros i j Hi Hj. assert (W : inside (unravel d j) d).
    { clear - Hj. revert j Hj. induction d as [|e d IH]; intros j Hj; [constructor|]. cbn [unravel]. change (psize (e :: d)) with (e * psize d) in Hj. assert (psize d <> 0) by nia. constructor.
      - apply Nat.div_lt_upper_bound; [assumption|lia].
      - apply IH, Nat.mod_upper_bound. assumption. }
    split; [constructor; assumption|]. rewrite place_ravel by exact W. apply ravel_unravel, Hj. }
  eexists _, _. split; [reflexivity|]. split.
  - split; cbn [dims val values]; [congruence|]. rewrite Dz. intros idx Hi. inversion Hi as [|i e r l Hi1 Hr E1 E2]; subst. inversion Hr as [|j e' r' l' Hj Hr' E3 E4]; subst. inversion Hr'; subst.
    destruct (Pi i j Hi1 Hj) as (W & P). rewrite <- P at 2. rewrite (M i (unravel d j) W), <- (Vx (i :: unravel d j) W). apply Vz; [exact Hi|exact W|]. rewrite <- P at 1. apply Pl, W.
  - intros _ dy Ddy. cbn [OnnxModel.backward_node okind shape_in]. unfold shape_of. rewrite Ex. cbn [tl]. rewrite (zreshape_ok n d dy) by (first [exact Fd | rewrite Ddy, Dy; cbn; rewrite Nat.mul_1_r; reflexivity]).
    destruct (reshape_ok (n :: d) dy) as (t & Et & Dt & Vt). { rewrite Ddy, Dy. cbn. fold (psize d). lia. }
    rewrite Et. eexists _, _, []. split; [reflexivity|]. split; [reflexivity|]. split; [repeat constructor; congruence|]. split; [constructor|]. split; [constructor|]. cbn [map laid_out]. rewrite pairings1, pairings0, !pairing_isum, Dt, Ddy, Dy.
    transitivity (isum (n :: d) (fun idx => mul (val t idx) (val (slopes x) idx))); [|symmetry; apply add0].
    rewrite <- (isum_bij (n :: d) [n; psize d] (fun idx => [hd 0 idx; place d (tl idx)]) (fun idx => hd 0 idx :: unravel d (nth 1 idx 0)) (fun idx => mul (val dy idx) (val (slopes y) idx))).
    + apply isum_ext. intros idx Hi. destruct idx as [|b idx]; [inversion Hi|]. cbn [hd tl]. destruct (Pl b idx Hi) as (P & W). rewrite Ddy, Dy in Vt. rewrite (Vt (b :: idx) [b; place d idx] Hi W (eq_sym P)). cbn [slopes val]. rewrite (M b idx Hi). reflexivity.
    + intros idx Hi. destruct idx as [|b idx]; [inversion Hi|]. cbn [hd tl nth]. split; [apply Pl, Hi|]. f_equal. inversion Hi; subst. rewrite place_ravel by assumption. apply unravel_ravel. assumption.
    + intros idx Hi. inversion Hi as [|i e r l Hi1 Hr E1 E2]; subst. inversion Hr as [|j e' r' l' Hj Hr' E3 E4]; subst. inversion Hr'; subst. cbn [hd tl nth]. destruct (Pi i j Hi1 Hj) as (W & P). split; [exact W|]. rewrite P. reflexivity.
Qed.

Lemma pos_nth perm : NoDup perm -> forall i, i < length perm -> pos (nth i perm 0) perm = i.
Proof.
  induction 1 as [|a l Ha N IH]; intros i Hi; [cbn in Hi; lia|]. destruct i as [|i]; cbn [nth pos]; [rewrite Nat.eqb_refl; reflexivity|]. cbn in Hi.
  destruct (Nat.eqb_spec a (nth i l 0)) as [E|E]; [exfalso; apply Ha; rewrite E; apply nth_In; lia|]. rewrite IH by lia. reflexivity.
Qed.
Lemma nth_pos perm q : In q perm -> nth (pos q perm) perm 0 = q /\ pos q perm < length perm.
Proof.
  induction perm as [|a l IH]; intros H; [destruct H|]. cbn [pos]. destruct (Nat.eqb_spec a q) as [E|E]; [split; [exact E|cbn; lia]|]. destruct H as [H|H]; [congruence|]. destruct (IH H) as [H1 H2]. cbn [nth length]. split; [exact H1|lia].
Qed.
Lemma nth_map_seq {X} (f : nat -> X) n q d : q < n -> nth q (map f (seq 0 n)) d = f q.
Proof. intros H. rewrite (nth_indep _ d (f 0)) by (rewrite map_length, seq_length; exact H). rewrite map_nth, seq_nth by exact H. reflexivity. Qed.
Lemma map_nth_in {X} (f : nat -> X) l p d : p < length l -> nth p (map f l) d = f (nth p l 0).
Proof. intros H. rewrite (nth_indep _ d (f 0)) by (rewrite map_length; exact H). apply map_nth. Qed.
Lemma map_nth_id (l : list nat) : map (fun q => nth q l 0) (seq 0 (length l)) = l.
Proof.
  apply (nth_ext _ _ 0 0); [rewrite map_length, seq_length; reflexivity|]. intros i Hi. rewrite map_length, seq_length in Hi. rewrite nth_map_seq by exact Hi. reflexivity.
Qed.

Lemma transpose_ok x y perm (train : Prop) : dims x <> [] -> hd_error perm = Some 0 -> meansD (TransposeOp perm) [x] y ->
  exists ob, build_node (TransposeOp perm) [Shape (shape_of x)] = Ok (ob, shape_of y) /\ works (TransposeOp perm) train [x] [] y ob.
Proof.
  intros N H0 (P & Dy & M). set (r := length (dims x)) in *.
  assert (Lp : length perm = r) by (rewrite (Permutation_length P); apply seq_length).
  assert (Np : NoDup perm) by (apply (Permutation_NoDup (Permutation_sym P)), seq_NoDup).
  assert (Ip : forall q, In q perm <-> q < r). { intros q. split; intros H; [apply (Permutation_in _ P), in_seq in H; lia|]. apply (Permutation_in _ (Permutation_sym P)), in_seq. lia. }
  assert (LS : length (shape_of x) = r). { unfold shape_of, r. cbn. rewrite map_length. destruct (dims x); [congruence|reflexivity]. }
  assert (NS : forall q, q < r -> q <> 0 -> nth q (shape_of x) 0%Z = Z.of_nat (nth q (dims x) 0)).
  { intros q Hq Q. unfold shape_of. destruct q as [|q]; [congruence|]. cbn [nth]. unfold r in Hq. destruct (dims x) as [|n d]; [cbn in Hq; lia|]. cbn [tl nth]. change 0%Z with (Z.of_nat 0). apply map_nth. }
  eexists. split.
  { cbn [OnnxModel.build_node]. assert (F : forallb (fun p => p <? length (shape_of x)) perm = true). { apply forallb_forall. intros q Hq. apply Nat.ltb_lt. rewrite LS. apply Ip, Hq. }
    rewrite F. f_equal. f_equal. unfold shape_of at 2. rewrite Dy. destruct perm as [|q perm]; [discriminate|]. cbn in H0. injection H0 as ->. cbn [map tl]. f_equal. rewrite map_map. apply map_ext_in.
    intros q Hq. apply NS; [apply Ip; right; exact Hq|]. inversion Np; subst. intros ->. contradiction. }
  split; [reflexivity|]. intros xs H. apply same1 in H as (x' & -> & Dx & Vx). cbn [OnnxModel.forward_node okind]. eexists _, _. split; [reflexivity|].
  set (f := fun idx => map (fun p => nth p idx 0) perm). set (g := fun idx : list nat => map (fun q => nth (pos q perm) idx 0) (seq 0 (length perm))).
  assert (Gf : forall idx, length idx = r -> g (f idx) = idx).
  { intros idx Hl. unfold g, f. transitivity (map (fun q => nth q idx 0) (seq 0 (length idx))); [|apply map_nth_id]. rewrite Lp, <- Hl. apply map_ext_in. intros q Hq. apply in_seq in Hq.
    destruct (nth_pos perm q) as [E1 E2]; [apply Ip; lia|]. rewrite map_nth_in by exact E2. rewrite E1. reflexivity. }
  assert (Fg : forall idx, length idx = r -> f (g idx) = idx).
  { intros idx Hl. unfold f, g. transitivity (map (fun q => nth q idx 0) (seq 0 (length idx))); [|apply map_nth_id]. apply (nth_ext _ _ 0 0); [rewrite !map_length, seq_length; congruence|].
    intros i Hi. rewrite map_length in Hi. rewrite (map_nth_in (fun p => nth p (map (fun q => nth (pos q perm) idx 0) (seq 0 (length perm))) 0) perm i 0) by exact Hi.
    rewrite nth_map_seq by (rewrite Lp; apply Ip, nth_In; exact Hi). rewrite (pos_nth perm Np i Hi). rewrite nth_map_seq by congruence. reflexivity. }
  assert (If : forall idx, inside idx (dims x) -> inside (f idx) (dims y)). { intros idx Hi. rewrite Dy. apply inside_map. intros q Hq. apply inside_nth; [exact Hi|apply Ip, Hq]. }
  assert (Ig : forall idx, inside idx (dims y) -> inside (g idx) (dims x)).
  { intros idx Hi. unfold g. rewrite <- (map_nth_id (dims x)). rewrite Lp. fold r. apply inside_map. intros q Hq. apply in_seq in Hq. destruct (nth_pos perm q) as [E1 E2]; [apply Ip; lia|].
    pose proof (inside_nth idx (dims y) Hi (pos q perm)) as Q. rewrite Dy in Q. rewrite map_length, map_nth_in, E1 in Q by exact E2. apply Q, E2. }
  assert (Ly : length (dims y) = r) by (rewrite Dy, map_length; exact Lp).
  split.
  - split; cbn [dims val values transpose]; [rewrite Dx; symmetry; exact Dy|]. rewrite Dx, <- Dy. intros idx Hi. change (val x' (g idx) = fst (val y idx)). rewrite Vx by (apply Ig, Hi). rewrite <- (M (g idx)) by (apply Ig, Hi).
    fold (f (g idx)). rewrite Fg by (rewrite (inside_length _ _ Hi); exact Ly). reflexivity.
  - intros _ dy Ddy. cbn [OnnxModel.backward_node okind]. eexists _, _, []. split; [reflexivity|]. split; [reflexivity|].
    assert (Da : dims (transpose (argsort perm) dy) = dims x).
    { cbn [transpose dims]. unfold argsort. rewrite map_map, Ddy. change (g (dims y) = dims x). rewrite Dy. apply (Gf (dims x)). reflexivity. }
    split; [constructor; [exact Da|constructor]|]. split; [constructor|]. split; [constructor|]. cbn [map laid_out]. rewrite pairings1, pairings0, !pairing_isum, Da, Ddy.
    transitivity (isum (dims x) (fun idx => mul (val (transpose (argsort perm) dy) idx) (val (slopes x) idx))); [|symmetry; apply add0].
    rewrite <- (isum_bij (dims x) (dims y) f g (fun idx => mul (val dy idx) (val (slopes y) idx))).
    + apply isum_ext. intros idx Hi. cbn [slopes val]. unfold f at 2. rewrite (M idx Hi). f_equal. cbn [transpose val]. f_equal.
      assert (La : length (argsort perm) = r) by (unfold argsort; rewrite map_length, seq_length; exact Lp). rewrite La.
      apply (nth_ext _ _ 0 0); [unfold f; rewrite !map_length, seq_length; exact Lp|]. unfold f. intros i Hi'. rewrite map_length in Hi'.
      rewrite map_nth_in by exact Hi'. rewrite nth_map_seq by congruence. f_equal.
      assert (Na : NoDup (argsort perm)).
      { unfold argsort. apply (NoDup_map_inv (fun i => nth i perm 0)). rewrite map_map. apply (@NoDup_incl_NoDup nat (seq 0 (length perm))); [apply seq_NoDup|rewrite map_length, seq_length; lia|].
        intros q Hq. apply in_map_iff. exists q. split; [|exact Hq]. apply in_seq in Hq. apply nth_pos, Ip. lia. }
      rewrite <- (pos_nth (argsort perm) Na (nth i perm 0)); [|rewrite La; apply Ip, nth_In; exact Hi']. f_equal. unfold argsort. rewrite nth_map_seq by (rewrite Lp; apply Ip, nth_In; exact Hi'). apply pos_nth; assumption.
    + intros idx Hi. split; [apply If, Hi|]. apply Gf, (inside_length _ _ Hi).
    + intros idx Hi. split; [apply Ig, Hi|]. apply Fg. rewrite (inside_length _ _ Hi). exact Ly.
Qed.
End OnnxP.
