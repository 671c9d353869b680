(** Proofs about the Conv nodes of converted ONNX models. *)
From Coq Require Import List Arith Bool Lia ZArith Permutation Ring Ring_theory.
From Verif Require Import ConvModel ConvSpec ConvProofs ConvGrad ConvBack OnnxModel OnnxSpec OnnxProofs OnnxLayers.
Import ListNotations.

Lemma count_bounds H k s o : 0 < s -> 0 < o -> windows VALID H k s o -> (o - 1) * s + k <= H /\ H < o * s + k.
Proof.
  intros Hs Ho W. unfold windows in W. split; [apply W; lia|]. destruct (Nat.le_gt_cases (o * s + k) H) as [L|L]; [|exact L]. apply W in L. lia.
Qed.
Lemma zceil_windows H k s o : 0 < s -> 0 < o -> windows VALID H k s o -> zceil (Z.of_nat H - Z.of_nat k + 1) s = Z.of_nat o.
Proof.
  intros Hs Ho W. destruct (count_bounds H k s o Hs Ho W) as [L1 L2]. unfold zceil. rewrite <- (Z.div_unique (- (Z.of_nat H - Z.of_nat k + 1)) (Z.of_nat s) (- Z.of_nat o) (Z.of_nat o * Z.of_nat s - (Z.of_nat H - Z.of_nat k + 1))); [lia| |lia].
  left. destruct o as [|o]; [lia|]. replace (S o - 1) with o in L1 by lia. nia.
Qed.
Lemma covered_windows H k s o : 0 < s -> 0 < o -> windows VALID H k s o -> (H - k) mod s = 0 -> (o - 1) * s + k = H.
Proof.
  intros Hs Ho W E. destruct (count_bounds H k s o Hs Ho W) as [L1 L2]. destruct o as [|o]; [lia|]. replace (S o - 1) with o in * by lia.
  assert (B : H - k = o * s + (H - k - o * s)) by lia. assert (M : (H - k) mod s = H - k - o * s). { rewrite B at 1. rewrite Nat.add_comm, Nat.mod_add by lia. apply Nat.mod_small. nia. } lia.
Qed.

Section OnnxC.
Context {A : Type} (zero one : A) (add mul sub : A -> A -> A) (opp : A -> A) (RT : ring_theory zero one add mul sub opp eq) (positive : A -> bool) (over : A -> nat -> A).
Add Ring Aring7 : RT.
Notation sum := (ConvModel.sum zero add).
Notation sigma := (ConvSpec.sigma zero add).
Let sum_ext := sum_ext zero add.
Let sum_zero := sum_zero zero one add mul sub opp RT.
Let sum_add := sum_add zero one add mul sub opp RT.
Let sum_shift := sum_shift zero one add mul sub opp RT.
Let fst_sigma := fst_sigma zero one add mul sub opp RT.
Let snd_sigma := snd_sigma zero one add mul sub opp RT.
Let isum4 := isum4 zero one add mul sub opp RT.
Notation pairing := (OnnxSpec.pairing zero add mul).
Notation pairings := (OnnxSpec.pairings zero add mul).
Notation D := (@dual A).
Notation dzero := (OnnxSpec.dzero zero).
Notation dadd := (OnnxSpec.dadd add).
Notation dmul := (OnnxSpec.dmul add mul).
Notation dopp := (OnnxSpec.dopp opp).
Notation dpositive := (OnnxSpec.dpositive positive).
Notation meansD := (means dzero dadd dmul dopp dpositive).
Notation works := (OnnxProofs.works zero add mul opp positive over).
Notation build_node := (@OnnxModel.build_node A).
Notation extended := (ConvSpec.extended zero).
Notation dot := (ConvBack.dot zero add mul).
Notation corr := (ConvBack.corr zero add mul).

(** The padding of a node with as many rows at the top as at the bottom. *)
Lemma pad_at pads top lft rgt (t : ten A) n ch h v : borders pads = (top, lft, top, rgt) -> dims t = [n; ch; h; v] ->
  dims (conv_pad zero pads t) = [n; ch; top + h + top; lft + v + rgt] /\
  forall b e y z, y < top + h + top -> z < lft + v + rgt -> at4 (conv_pad zero pads t) b e y z = extended (at4 t) h v top lft b e y z.
Proof.
  intros B Dt. destruct pads as [(((p0, p1), p2), p3)|]; cbn in B; injection B; intros; subst; cbn [conv_pad].
  - split; [unfold pad_axis; cbn [dims]; rewrite Dt; reflexivity|]. intros b e y z Hy Hz. unfold at4, pad_axis, ConvSpec.extended. cbn [val dims nth set_nth]. rewrite Dt. cbn [nth set_nth].
    destruct ((top <=? y) && (y <? top + h)); cbn [andb]; destruct ((lft <=? z) && (z <? lft + v)); reflexivity.
  - split; [rewrite Dt; f_equal; f_equal; f_equal; [lia|f_equal; lia]|]. intros b e y z Hy Hz. unfold ConvSpec.extended. cbn [Nat.leb Nat.add andb]. rewrite !Nat.sub_0_r. destruct (Nat.ltb_spec y h); [|lia]. destruct (Nat.ltb_spec z v); [|lia]. reflexivity.
Qed.
Lemma crop_at pads top lft rgt (t : ten A) n ch h v : borders pads = (top, lft, top, rgt) -> dims t = [n; ch; top + h + top; lft + v + rgt] ->
  dims (conv_crop pads t) = [n; ch; h; v] /\ forall b e y z, at4 (conv_crop pads t) b e y z = at4 t b e (y + top) (z + lft).
Proof.
  intros B Dt. destruct pads as [(((p0, p1), p2), p3)|]; cbn in B; injection B; intros; subst; cbn [conv_crop].
  - split; [unfold crop_axis; cbn [dims]; rewrite Dt; cbn [nth set_nth]; f_equal; f_equal; f_equal; [lia|f_equal; lia]|]. intros b e y z. reflexivity.
  - split; [rewrite Dt; f_equal; f_equal; f_equal; [lia|f_equal; lia]|]. intros b e y z. rewrite !Nat.add_0_r. reflexivity.
Qed.
Lemma extended_map {B} (zb : B) (F : B -> A) (x : nat -> nat -> nat -> nat -> B) h v top lft b e y z : F zb = zero ->
  F (ConvSpec.extended zb x h v top lft b e y z) = extended (fun b e y z => F (x b e y z)) h v top lft b e y z.
Proof. intros E. unfold ConvSpec.extended. destruct (_ && _ && _ && _); [reflexivity|exact E]. Qed.
Lemma extended_ext x x' h v top lft b e y z : (forall y z, y < h -> z < v -> x b e y z = x' b e y z) -> extended x h v top lft b e y z = extended x' h v top lft b e y z.
Proof.
  intros E. unfold ConvSpec.extended. destruct (Nat.leb_spec top y); cbn [andb]; [|reflexivity]. destruct (Nat.ltb_spec y (top + h)); cbn [andb]; [|reflexivity].
  destruct (Nat.leb_spec lft z); cbn [andb]; [|reflexivity]. destruct (Nat.ltb_spec z (lft + v)); [|reflexivity]. apply E; lia.
Qed.
(** Correlations within the padded image. *)
Lemma corr_inside img ker H V ch k0 k1 s ho wo b g i j : 0 < s -> windows VALID H k0 s ho -> windows VALID V k1 s wo -> i < ho -> j < wo ->
  corr img ker VALID H V ch k0 k1 s s b g i j = sum k0 (fun u => sum k1 (fun q => sum ch (fun e => mul (img b e (i * s + u) (j * s + q)) (ker u q e g)))).
Proof.
  intros Hs W0 W1 Hi Hj. apply W0 in Hi. apply W1 in Hj. unfold ConvBack.corr. apply sum_ext. intros u Hu. apply sum_ext. intros q Hq. apply sum_ext. intros e _. f_equal. apply valid_pixel; lia.
Qed.
Lemma pairing4 (x y : ten A) a b c d : dims x = [a; b; c; d] -> pairing x y = dot a b c d (at4 x) (at4 y).
Proof. intros E. rewrite pairing_isum, E. apply isum4. Qed.

Lemma conv_ok (x w y : ten D) (c : option (ten D)) s pads top lft rgt k bt n ch h v k0 f ho wo (train : Prop) :
  dims x = [n; ch; h; v] -> dims w = [f; ch; k0; k0] -> dims y = [n; f; ho; wo] -> full x -> full w -> full y -> 0 < s -> borders pads = (top, lft, top, rgt) ->
  windows VALID (top + h + top) k0 s ho -> windows VALID (lft + v + rgt) k0 s wo ->
  (forall b g i j, b < n -> g < f -> i < ho -> j < wo -> val y [b; g; i; j] =
    dadd (correlation dzero dadd dmul (ConvSpec.extended dzero (at4 x) h v top lft) (fun p q e g => val w [g; e; p; q]) ch k0 k0 s s b g i j) (match c with Some c => val c [g] | None => dzero end)) ->
  same k (values w) -> bias_ok f bt c -> (train -> (top + h + top - k0) mod s = 0 /\ (lft + v + rgt - k0) mod s = 0) ->
  exists ob, build_node (ConvOp s s pads) (Shape (shape_of x) :: Init k :: match bt with Some b => [Init b] | None => [] end) = Ok (ob, shape_of y) /\
    works (ConvOp s s pads) train [x] (w :: match c with Some c => [c] | None => [] end) y ob.
Proof.
  intros Dx Dw Dy Fx Fw Fy Hs Hp W0 W1 M [Dk Vk] Hb Tr. cbn in Dk. rewrite Dw in Dk. rewrite Dk in Vk. set (H := top + h + top) in *. set (V := lft + v + rgt) in *.
  unfold full in Fx, Fw, Fy. rewrite Dx in Fx. rewrite Dw in Fw. rewrite Dy in Fy.
  assert (P : 0 < n /\ 0 < ch /\ 0 < h /\ 0 < v /\ 0 < f /\ 0 < k0 /\ 0 < ho /\ 0 < wo).
  { repeat match goal with F : Forall _ (_ :: _) |- _ => inversion F; subst; clear F end. repeat split; assumption. }
  destruct P as (Pn & Pc & Ph & Pv & Pf & Pk & Po & Pw). clear Fx Fw Fy.
  set (kt := transpose [2; 3; 1; 0] k). assert (Dt : dims kt = [k0; k0; ch; f]) by (unfold kt, transpose; cbn; rewrite Dk; reflexivity).
  destruct (reshape_same _ kt Dt) as (K & EK & DK & VK). rewrite Dt in DK. rewrite DK in VK.
  assert (VK' : forall u q e g, u < k0 -> q < k0 -> e < ch -> g < f -> at4 K u q e g = fst (val w [g; e; u; q])).
  { intros u q e g Hu Hq He Hg. unfold at4. rewrite VK by (apply w4; assumption). transitivity (val k [g; e; u; q]); [reflexivity|]. apply (Vk [g; e; u; q]), w4; assumption. }
  assert (HH : (match pads with Some (p0, _, p2, _) => Z.of_nat h + Z.of_nat (p0 + p2) | None => Z.of_nat h end = Z.of_nat H)%Z /\ (match pads with Some (_, p1, _, p3) => Z.of_nat v + Z.of_nat (p1 + p3) | None => Z.of_nat v end = Z.of_nat V)%Z).
  { unfold H, V. destruct pads as [(((p0, p1), p2), p3)|]; cbn in Hp; injection Hp; lia. }
  assert (B : exists ws, conv_build s pads (shape_of x) k bt = Ok (ws, shape_of y) /\ match c with
    | None => ws = [K]
    | Some c => exists b', ws = [K; b'] /\ forall g, g < f -> val b' [g; 0; 0] = fst (val c [g]) end).
  { unfold conv_build, shape_of. rewrite Dx, Dy. cbn [tl map]. fold kt. rewrite (proj1 HH), (proj2 HH), Dt, Nat.eqb_refl, Nat2Z.id, EK, (zceil_windows H k0 s ho Hs Po W0), (zceil_windows V k0 s wo Hs Pw W1).
    unfold bias_ok in Hb. destruct bt as [b|], c as [c|]; try contradiction.
    - destruct Hb as ((Db & Vb) & Dc). cbn in Db. rewrite Dc in Db. rewrite Db in Vb. destruct (reshape_ok [f; 1; 1] b) as (b' & Eb & Db' & Vb'); [rewrite Db; cbn; lia|]. rewrite Eb. exists [K; b']. split; [reflexivity|]. exists b'. split; [reflexivity|].
      intros g Hg. assert (I : inside [g] [f]) by (repeat constructor; exact Hg). rewrite Db in Vb'. rewrite (Vb' [g; 0; 0] [g]); [apply (Vb [g] I)|apply w3; lia|exact I|cbn; lia].
    - exists [K]. split; reflexivity. }
  destruct B as (ws & Eb & HW).
  assert (Wt : exists bo, ws = K :: match bo with Some b => [b] | None => [] end /\ (bo = None <-> c = None) /\ forall g, g < f -> bias_at zero bo g = match c with Some c => fst (val c [g]) | None => zero end).
  { destruct c as [c|]; [destruct HW as (b' & -> & Vb); exists (Some b')|subst ws; exists None]; (split; [reflexivity|]; split; [split; discriminate || reflexivity|]); [exact Vb|reflexivity]. }
  destruct Wt as (bo & Ews & Ebo & Vbo). clear HW.
  exists (Obj (ConvOp s s pads) ws (shape_of x) []). split.
  { cbn [OnnxModel.build_node]. destruct bt as [b|]; rewrite Eb; reflexivity. }
  split; [reflexivity|]. intros xs Hx. apply same1 in Hx as (x' & -> & Dx' & Vx'). rewrite Dx in Dx', Vx'.
  destruct (pad_at pads top lft rgt x' n ch h v Hp Dx') as (Dp & Vp). fold H V in Dp, Vp. set (xp := conv_pad zero pads x') in *.
  set (Xv := fun b e y z => fst (at4 x b e y z)). set (Xs := fun b e y z => snd (at4 x b e y z)).
  set (Kv := fun u q e g => fst (val w [g; e; u; q])). set (Ks := fun u q e g => snd (val w [g; e; u; q])).
  set (C := fun (X K : nat -> nat -> nat -> nat -> A) b g i j => sum k0 (fun u => sum k0 (fun q => sum ch (fun e => mul (extended X h v top lft b e (i * s + u) (j * s + q)) (K u q e g))))).
  assert (Eo : ho = out_len VALID H k0 s) by (apply (windows_unique VALID H k0 s); [exact W0|apply out_len_windows, Hs]).
  assert (Ew : wo = out_len VALID V k0 s) by (apply (windows_unique VALID V k0 s); [exact W1|apply out_len_windows, Hs]).
  assert (Rows : forall i u, i < ho -> u < k0 -> i * s + u < H). { intros i u Hi Hu. apply W0 in Hi. lia. }
  assert (Cols : forall j u, j < wo -> u < k0 -> j * s + u < V). { intros j u Hj Hu. apply W1 in Hj. lia. }
  assert (Vxp : forall b e yy zz, b < n -> e < ch -> yy < H -> zz < V -> at4 xp b e yy zz = extended Xv h v top lft b e yy zz).
  { intros b e yy zz Hb' He Hy Hz. rewrite (Vp b e yy zz Hy Hz). apply extended_ext. intros y0 z0 Hy0 Hz0. unfold at4 at 1. rewrite Vx' by (apply w4; assumption). reflexivity. }
  assert (Fst : forall b g i j, b < n -> g < f -> i < ho -> j < wo -> fst (val y [b; g; i; j]) = add (C Xv Kv b g i j) (match c with Some c => fst (val c [g]) | None => zero end)).
  { intros b g i j Hb' Hg Hi Hj. rewrite (M b g i j Hb' Hg Hi Hj). cbn [fst OnnxSpec.dadd]. f_equal; [|destruct c; reflexivity]. unfold correlation, C. rewrite fst_sigma. apply sum_ext. intros u _. rewrite fst_sigma. apply sum_ext. intros q _. rewrite fst_sigma. apply sum_ext. intros e _.
    cbn [fst OnnxSpec.dmul]. f_equal. apply (extended_map dzero fst). reflexivity. }
  assert (Snd : forall b g i j, b < n -> g < f -> i < ho -> j < wo -> snd (val y [b; g; i; j]) = add (add (C Xv Ks b g i j) (C Xs Kv b g i j)) (match c with Some c => snd (val c [g]) | None => zero end)).
  { intros b g i j Hb' Hg Hi Hj. rewrite (M b g i j Hb' Hg Hi Hj). cbn [snd OnnxSpec.dadd]. f_equal; [|destruct c; reflexivity]. unfold correlation, C. rewrite <- sum_add, snd_sigma. apply sum_ext. intros u _. rewrite <- sum_add, snd_sigma. apply sum_ext. intros q _. rewrite <- sum_add, snd_sigma. apply sum_ext. intros e _.
    cbn [snd OnnxSpec.dmul]. rewrite (extended_map dzero fst) by reflexivity. rewrite (extended_map dzero snd) by reflexivity. reflexivity. }
  set (L := conv_layer s s).
  destruct (call_ok zero one add mul sub opp RT L K bo xp n ch H V k0 k0 f Dp DK Pk Pk Pc Pf) as (o & Eq & Do & Vo). cbv zeta in *. cbn [pad stride0 stride1 channels_first L conv_layer nchw shape] in Do, Vo. rewrite <- Eo, <- Ew in Do, Vo.
  assert (Fwd : OnnxModel.forward_node zero add mul opp positive (Obj (ConvOp s s pads) ws (shape_of x) []) [x'] = Ok (o, [xp])).
  { cbn [OnnxModel.forward_node okind weights]. fold xp. rewrite Ews. replace (hd_error (match bo with Some b => [b] | None => [] end)) with bo by (destruct bo; reflexivity). fold L. rewrite Eq. reflexivity. }
  exists o, [xp]. split; [exact Fwd|]. split.
  - split; cbn [dims values val]; [congruence|]. rewrite Do. intros idx Hi. apply inside4 in Hi as (b & g & i & j & -> & Hb' & Hg & Hi & Hj). rewrite (Fst b g i j Hb' Hg Hi Hj). change (val o [b; g; i; j]) with (at4 o b g i j). rewrite (Vo b g i j Hb' Hg Hi Hj), (Vbo g Hg). f_equal.
    etransitivity; [exact (corr_inside (at4 xp) (at4 K) H V ch k0 k0 s ho wo b g i j Hs W0 W1 Hi Hj)|]. unfold C. apply sum_ext. intros u Hu. apply sum_ext. intros q Hq. apply sum_ext. intros e He.
    rewrite Vxp by auto. rewrite VK' by assumption. reflexivity.
  - intros T. destruct (Tr T) as (T0 & T1). pose proof (covered_windows H k0 s ho Hs Po W0 T0) as C0. pose proof (covered_windows V k0 s wo Hs Pw W1 T1) as C1. intros dy Ddy. rewrite Dy in Ddy.
    assert (PH : 0 < H) by (unfold H; lia). assert (PV : 0 < V) by (unfold V; lia).
    assert (Po' : 0 < out_len (pad L) H k0 s) by (cbn [pad L conv_layer]; rewrite <- Eo; exact Po). assert (Pw' : 0 < out_len (pad L) V k0 s) by (cbn [pad L conv_layer]; rewrite <- Ew; exact Pw).
    assert (C0' : covered (pad L) H k0 s (out_len (pad L) H k0 s)) by (cbn [pad L conv_layer covered]; rewrite <- Eo; exact C0). assert (C1' : covered (pad L) V k0 s (out_len (pad L) V k0 s)) by (cbn [pad L conv_layer covered]; rewrite <- Ew; exact C1).
    assert (Ddy' : dims dy = shape (channels_first L) n f (out_len (pad L) H k0 s) (out_len (pad L) V k0 s)) by (cbn [pad L conv_layer channels_first shape]; rewrite <- Eo, <- Ew; exact Ddy).
    destruct (backward_ok zero one add mul sub opp RT over L n ch H V k0 k0 f s Pn Pc Pk Pk Pf Hs PH PV Po' Pw' eq_refl eq_refl C0' C1' K xp dy bo DK Dp Ddy') as (gk & gb & dx & Eback & Dgk & Vgk & Vgb & Ddx & Vdx).
    cbn [pad L conv_layer tf_before channels_first nchw] in Vdx. rewrite Dp in Ddx. rewrite DK in Dgk.
    destruct (crop_at pads top lft rgt dx n ch h v Hp Ddx) as (Dc & Vc).
    set (gs := gk :: match gb with Some b => [b] | None => [] end).
    assert (Back : OnnxModel.backward_node zero add mul opp positive over (Obj (ConvOp s s pads) ws (shape_of x) [xp]) [dy] = Ok (gs, [conv_crop pads dx])).
    { cbn [OnnxModel.backward_node okind saved weights]. rewrite Ews. replace (hd_error (match bo with Some b => [b] | None => [] end)) with bo by (destruct bo; reflexivity). fold L. rewrite Eback. cbn [fst snd]. unfold gs. destruct gb; reflexivity. }
    set (laid := laid_out (ConvOp s s pads) (map slopes (w :: match c with Some c => [c] | None => [] end))).
    assert (El : laid = Ten [k0; k0; ch; f] (fun idx => snd (val w [nth 3 idx 0; nth 2 idx 0; nth 0 idx 0; nth 1 idx 0])) :: match c with Some c => [Ten (dims c ++ [1; 1]) (fun idx => snd (val c (firstn 1 idx)))] | None => [] end).
    { unfold laid. cbn [laid_out map slopes dims val]. rewrite Dw. cbn [nth]. f_equal. destruct c; reflexivity. }
    assert (Dcc : match c with Some c => dims c = [f] | None => True end). { unfold bias_ok in Hb. destruct bt, c; try contradiction; [apply Hb|exact I]. }
    exists gs, [conv_crop pads dx], gs. split; [exact Back|]. split; [reflexivity|]. split; [repeat constructor; rewrite Dc, Dx; reflexivity|]. split; [apply reported_refl; discriminate|]. fold laid. rewrite El. split.
    { unfold gs. constructor; [exact Dgk|]. destruct bo as [bb|], gb as [gb|]; try contradiction; destruct c as [cc|]; try (exfalso; destruct Ebo as [E1 E2]; (discriminate (E1 eq_refl) || discriminate (E2 eq_refl))); [|constructor].
      constructor; [|constructor]. cbn [dims]. rewrite Dcc. apply Vgb. }
    assert (Iy : pairing dy (slopes y) = add (add (dot n f ho wo (at4 dy) (C Xv Ks)) (dot n f ho wo (at4 dy) (C Xs Kv))) (dot n f ho wo (at4 dy) (fun _ g _ _ => match c with Some c => snd (val c [g]) | None => zero end))).
    { rewrite (pairing4 dy (slopes y) n f ho wo Ddy), <- !(dot_add zero one add mul sub opp RT). apply dot_ext. intros b g i j Hb' Hg Hi Hj. unfold at4 at 1. cbn [slopes val]. apply Snd; assumption. }
    assert (Ix : pairing (conv_crop pads dx) (slopes x) = dot n f ho wo (at4 dy) (C Xs Kv)).
    { rewrite (pairing4 _ _ n ch h v Dc).
      pose proof (image_adjoint zero one add mul sub opp RT L n ch H V k0 k0 f s Pn Pc Pk Pk Pf Hs PH PV Po' Pw' C0' C1' K dy (fun b e yy zz => extended Xs h v top lft b e yy zz)) as Adj.
      cbn [pad L conv_layer tf_before channels_first nchw] in Adj. rewrite <- Eo, <- Ew in Adj.
      transitivity (dot n f ho wo (at4 dy) (corr (fun b e yy zz => extended Xs h v top lft b e yy zz) (at4 K) VALID H V ch k0 k0 s s)).
      - etransitivity; [|exact Adj]. unfold ConvBack.dot. apply sum_ext. intros b Hb'. apply sum_ext. intros e He.
        transitivity (sum H (fun yy => if (top <=? yy) && (yy <? top + h) then sum V (fun zz => if (lft <=? zz) && (zz <? lft + v) then mul (at4 dx b e yy zz) (Xs b e (yy - top) (zz - lft)) else zero) else zero)).
        + rewrite (sum_shift H h top) by (unfold H; lia). apply sum_ext. intros yy Hy. rewrite (sum_shift V v lft) by (unfold V; lia). apply sum_ext. intros zz Hz. rewrite Vc, !Nat.add_sub. reflexivity.
        + apply sum_ext. intros yy Hy. unfold ConvSpec.extended. destruct ((top <=? yy) && (yy <? top + h)); cbn [andb].
          * apply sum_ext. intros zz Hz. rewrite <- Vdx by assumption. destruct ((lft <=? zz) && (zz <? lft + v)); [reflexivity|ring].
          * rewrite (sum_ext V _ (fun _ => zero)); [symmetry; apply sum_zero|]. intros zz _. ring.
      - apply dot_ext. intros b g i j Hb' Hg Hi Hj. rewrite (corr_inside _ (at4 K) H V ch k0 k0 s ho wo b g i j Hs W0 W1 Hi Hj). unfold C. apply sum_ext. intros u Hu. apply sum_ext. intros q Hq. apply sum_ext. intros e He. rewrite VK' by assumption. reflexivity. }
    assert (Ik : pairing gk (Ten [k0; k0; ch; f] (fun idx => snd (val w [nth 3 idx 0; nth 2 idx 0; nth 0 idx 0; nth 1 idx 0]))) = dot n f ho wo (at4 dy) (C Xv Ks)).
    { rewrite (pairing4 gk _ k0 k0 ch f Dgk). pose proof (kernel_adjoint zero one add mul sub opp RT L n ch H V k0 k0 f s xp dy Ks) as Adj. cbn [pad L conv_layer tf_before channels_first nchw] in Adj. rewrite <- Eo, <- Ew in Adj.
      transitivity (dot n f ho wo (at4 dy) (corr (at4 xp) Ks VALID H V ch k0 k0 s s)).
      - etransitivity; [|exact Adj]. apply dot_extl. exact Vgk.
      - apply dot_ext. intros b g i j Hb' Hg Hi Hj. rewrite (corr_inside _ Ks H V ch k0 k0 s ho wo b g i j Hs W0 W1 Hi Hj). unfold C. apply sum_ext. intros u Hu. apply sum_ext. intros q Hq. apply sum_ext. intros e He. rewrite Vxp by auto. reflexivity. }
    cbn [map]. rewrite (pairings1 zero one add mul sub opp RT), Iy, Ix. unfold gs.
    destruct bo as [bb|], gb as [gb|]; try contradiction; destruct c as [cc|]; try (exfalso; destruct Ebo as [E1 E2]; (discriminate (E1 eq_refl) || discriminate (E2 eq_refl))).
    + rewrite (pairings2 zero one add mul sub opp RT), Ik. destruct Vgb as (Dgb & Vgb).
      assert (Ib : pairing gb (Ten (dims cc ++ [1; 1]) (fun idx => snd (val cc (firstn 1 idx)))) = dot n f ho wo (at4 dy) (fun _ g _ _ => snd (val cc [g]))).
      { rewrite pairing_isum, Dgb, (isum_cons zero one add mul sub opp RT). pose proof (bias_adjoint zero one add mul sub opp RT L n H V k0 k0 f s dy (fun g => snd (val cc [g]))) as Adj. cbn [pad L conv_layer tf_before channels_first nchw] in Adj. rewrite <- Eo, <- Ew in Adj.
        etransitivity; [|exact Adj]. apply sum_ext. intros g Hg. rewrite (isum2 zero one add mul sub opp RT). cbn [ConvModel.sum val firstn]. rewrite (Vgb g Hg). ring. }
      rewrite Ib. ring.
    + rewrite (pairings1 zero one add mul sub opp RT), Ik. assert (Z0 : dot n f ho wo (at4 dy) (fun _ _ _ _ => zero) = zero).
      { unfold ConvBack.dot. rewrite (sum_ext n _ (fun _ => zero)); [apply sum_zero|]. intros ? _. rewrite (sum_ext f _ (fun _ => zero)); [apply sum_zero|]. intros ? _. rewrite (sum_ext ho _ (fun _ => zero)); [apply sum_zero|]. intros ? _. rewrite (sum_ext wo _ (fun _ => zero)); [apply sum_zero|]. intros ? _. ring. }
      rewrite Z0. ring.
Qed.
End OnnxC.
