(** Proofs about the backward pass of Conv2D. *)
From Coq Require Import List Arith Bool Lia Ring Ring_theory.
From Verif Require Import ConvModel ConvSpec ConvProofs ConvGrad.
Import ListNotations.

Lemma same_shape_ok d : same_shape d d = true.
Proof. unfold same_shape. destruct (list_eq_dec Nat.eq_dec d d); [reflexivity|congruence]. Qed.

Section ConvB.
Context {A : Type} (zero one : A) (add mul sub : A -> A -> A) (opp : A -> A) (RT : ring_theory zero one add mul sub opp eq) (over : A -> nat -> A).
Add Ring Aring3 : RT.
Notation sum := (ConvModel.sum zero add).
Notation sigma := (ConvSpec.sigma zero add).
Let sum_ext := sum_ext zero add.
Let sum_zero := sum_zero zero one add mul sub opp RT.
Let sum_swap := sum_swap zero one add mul sub opp RT.
Let sum_mul := sum_mul zero one add mul sub opp RT.
Let sum_mulr := sum_mulr zero one add mul sub opp RT.
Let sum_add := sum_add zero one add mul sub opp RT.
Let swap21 := swap21 zero one add mul sub opp RT.
Let sum_shift := sum_shift zero one add mul sub opp RT.
Let sum_sigma := sum_sigma zero one add mul sub opp RT.
Notation pixel := (ConvProofs.pixel zero).
Notation inner := (ConvSpec.inner zero add mul).

(** The inner product of two images. *)
Definition dot (n c h w : nat) (x y : nat -> nat -> nat -> nat -> A) : A :=
  sum n (fun b => sum c (fun ch => sum h (fun i => sum w (fun j => mul (x b ch i j) (y b ch i j))))).
Lemma sigma_ext n f g : (forall i, i < n -> f i = g i) -> sigma n f = sigma n g.
Proof. intros H. rewrite <- !sum_sigma. apply sum_ext, H. Qed.
Lemma inner4_dot n c h w x y : inner4 zero add mul n c h w x y = dot n c h w (at4 x) (at4 y).
Proof.
  unfold inner4, dot. rewrite <- sum_sigma. apply sum_ext. intros b _. rewrite <- sum_sigma. apply sum_ext. intros ch _. rewrite <- sum_sigma. apply sum_ext. intros i _. rewrite <- sum_sigma. reflexivity.
Qed.
Lemma inner_image first n c h w x y : dims x = shape first n c h w -> inner x y = dot n c h w (nchw first x) (nchw first y).
Proof.
  intros D. unfold ConvSpec.inner, shape, nchw in *. destruct first; rewrite D, inner4_dot; [reflexivity|]. unfold dot. apply sum_ext. intros b _.
  exact (swap21 h w c (fun i j ch => mul (at4 x b i j ch) (at4 y b i j ch))).
Qed.
Lemma dot_ext n c h w x y y' : (forall b ch i j, b < n -> ch < c -> i < h -> j < w -> y b ch i j = y' b ch i j) -> dot n c h w x y = dot n c h w x y'.
Proof. intros H. apply sum_ext. intros b Hb. apply sum_ext. intros ch Hc. apply sum_ext. intros i Hi. apply sum_ext. intros j Hj. rewrite H by assumption. reflexivity. Qed.
Lemma dot_extl n c h w x x' y : (forall b ch i j, b < n -> ch < c -> i < h -> j < w -> x b ch i j = x' b ch i j) -> dot n c h w x y = dot n c h w x' y.
Proof. intros H. apply sum_ext. intros b Hb. apply sum_ext. intros ch Hc. apply sum_ext. intros i Hi. apply sum_ext. intros j Hj. rewrite H by assumption. reflexivity. Qed.
Lemma dot_add n c h w x y y' : dot n c h w x (fun b ch i j => add (y b ch i j) (y' b ch i j)) = add (dot n c h w x y) (dot n c h w x y').
Proof.
  unfold dot. rewrite <- sum_add. apply sum_ext. intros b _. rewrite <- sum_add. apply sum_ext. intros ch _. rewrite <- sum_add. apply sum_ext. intros i _. rewrite <- sum_add. apply sum_ext. intros j _. ring.
Qed.

(** The image as the convolution reads it. *)
Definition corr (img : nat -> nat -> nat -> nat -> A) (ker : nat -> nat -> nat -> nat -> A) p h w c k0 k1 s0 s1 b g i j : A :=
  sum k0 (fun u => sum k1 (fun v => sum c (fun ch => mul (pixel img p h w k0 k1 s0 s1 b ch (i * s0 + u) (j * s1 + v)) (ker u v ch g)))).
Lemma pixel_add img img' p h w k0 k1 s0 s1 b ch y z : pixel (fun b ch y z => add (img b ch y z) (img' b ch y z)) p h w k0 k1 s0 s1 b ch y z = add (pixel img p h w k0 k1 s0 s1 b ch y z) (pixel img' p h w k0 k1 s0 s1 b ch y z).
Proof. unfold ConvProofs.pixel, extended. destruct (_ && _); [reflexivity|ring]. Qed.
Lemma corr_addl img img' ker p h w c k0 k1 s0 s1 b g i j : corr (fun b ch y z => add (img b ch y z) (img' b ch y z)) ker p h w c k0 k1 s0 s1 b g i j = add (corr img ker p h w c k0 k1 s0 s1 b g i j) (corr img' ker p h w c k0 k1 s0 s1 b g i j).
Proof.
  unfold corr. rewrite <- sum_add. apply sum_ext. intros u _. rewrite <- sum_add. apply sum_ext. intros v _. rewrite <- sum_add. apply sum_ext. intros ch _. rewrite pixel_add. ring.
Qed.
Lemma corr_addr img ker ker' p h w c k0 k1 s0 s1 b g i j : corr img (fun u v ch g => add (ker u v ch g) (ker' u v ch g)) p h w c k0 k1 s0 s1 b g i j = add (corr img ker p h w c k0 k1 s0 s1 b g i j) (corr img ker' p h w c k0 k1 s0 s1 b g i j).
Proof.
  unfold corr. rewrite <- sum_add. apply sum_ext. intros u _. rewrite <- sum_add. apply sum_ext. intros v _. rewrite <- sum_add. apply sum_ext. intros ch _. ring.
Qed.

(** Calls of the layer. *)
Definition bias_at (bias : option (ten A)) (g : nat) : A := match bias with Some b => val b [g; 0; 0] | None => zero end.
Lemma call_ok L K bias x n c h w k0 k1 f : dims x = shape (channels_first L) n c h w -> dims K = [k0; k1; c; f] -> 0 < k0 -> 0 < k1 -> 0 < c -> 0 < f ->
  let ho := out_len (pad L) h k0 (stride0 L) in let wo := out_len (pad L) w k1 (stride1 L) in
  exists o, conv_call zero add mul L K bias x = Ok o /\ dims o = shape (channels_first L) n f ho wo /\
  forall b g i j, b < n -> g < f -> i < ho -> j < wo -> nchw (channels_first L) o b g i j = add (corr (nchw (channels_first L) x) (at4 K) (pad L) h w c k0 k1 (stride0 L) (stride1 L) b g i j) (bias_at bias g).
Proof.
  intros D DK H0 H1 Hc Hf ho wo. unfold conv_call. set (xi := if channels_first L then x else transpose [0; 3; 1; 2] x).
  assert (Di : dims xi = [n; c; h; w]). { unfold xi, shape in *. destruct (channels_first L); [exact D|]. unfold transpose. cbn [dims]. rewrite D. reflexivity. }
  assert (Vi : forall b ch y z, at4 xi b ch y z = nchw (channels_first L) x b ch y z). { intros. unfold xi, nchw. destruct (channels_first L); reflexivity. }
  destruct (conv2d_ok zero one add mul sub opp RT xi K n c h w k0 k1 f (stride0 L) (stride1 L) (pad L) Di DK H0 H1 Hc Hf) as (o & Eo & Do & Vo). cbv zeta in *. fold ho wo in Do, Vo.
  rewrite Eo. eexists. split; [reflexivity|]. split.
  - unfold shape. destruct bias; destruct (channels_first L); unfold transpose, add_bias; cbn [dims]; rewrite Do; reflexivity.
  - intros b g i j Hb Hg Hi Hj. assert (E : conv_at zero add mul xi K (pad L) h w c k0 k1 (stride0 L) (stride1 L) b g i j = corr (nchw (channels_first L) x) (at4 K) (pad L) h w c k0 k1 (stride0 L) (stride1 L) b g i j).
    { unfold conv_at, corr. apply sum_ext. intros u _. apply sum_ext. intros v _. apply sum_ext. intros ch _. f_equal. unfold ConvProofs.pixel, extended. rewrite Vi. reflexivity. }
    rewrite <- E, <- (Vo b g i j Hb Hg Hi Hj). unfold nchw, bias_at, at4, add_bias, transpose. destruct bias, (channels_first L); cbn; ring.
Qed.

Section Backward.
Context (L : conv) (n c h w k0 k1 f s : nat).
Let p := pad L.
Let ho := out_len p h k0 s.
Let wo := out_len p w k1 s.
Context (Hn : 0 < n) (Hc : 0 < c) (Hk0 : 0 < k0) (Hk1 : 0 < k1) (Hf : 0 < f) (Hs : 0 < s) (Hh : 0 < h) (Hw : 0 < w) (Ho : 0 < ho) (Wo : 0 < wo).
Context (S0 : stride0 L = s) (S1 : stride1 L = s) (C0 : covered p h k0 s ho) (C1 : covered p w k1 s wo).
Context (K x dy : ten A) (bias : option (ten A)) (DK : dims K = [k0; k1; c; f]) (Dx : dims x = shape (channels_first L) n c h w) (Dy : dims dy = shape (channels_first L) n f ho wo).
Notation grad := (image_grad zero add mul h w k0 k1 f s p (nchw (channels_first L) dy) K).
Let top := tf_before p h k0 s.
Let left := tf_before p w k1 s.
Let H := (ho - 1) * s + k0.
Let W := (wo - 1) * s + k1.

Lemma total q k o : covered p q k s o -> o = out_len p q k s -> 0 < q -> match p with SAME => pad_along q k s = (o - 1) * s + k - q /\ tf_before p q k s = pad_along q k s / 2 | VALID => (o - 1) * s + k = q /\ tf_before p q k s = 0 end.
Proof.
  clear - Hs. intros C E Q. destruct p; cbn [covered] in *; [|split; [exact C|reflexivity]]. rewrite (pad_along_total q k s Hs Q). subst o. split; reflexivity.
Qed.
Lemma fits q k o : covered p q k s o -> o = out_len p q k s -> 0 < q -> tf_before p q k s + q <= (o - 1) * s + k.
Proof.
  clear - Hs. intros C E Q. pose proof (total q k o C E Q) as T. destruct p; cbn [covered] in C; destruct T as (T1 & T2); rewrite T2.
  - rewrite T1. pose proof (Nat.div_le_upper_bound ((o - 1) * s + k - q) 2 ((o - 1) * s + k - q)). lia.
  - lia.
Qed.

(** The gradient of the image is the adjoint of the convolution in the image. *)
Lemma image_adjoint img : dot n c h w (fun b ch y z => grad b ch (y + top) (z + left)) img =
  dot n f ho wo (nchw (channels_first L) dy) (corr img (at4 K) p h w c k0 k1 s s).
Proof.
  transitivity (sum n (fun b => sum c (fun ch => sum H (fun y => sum W (fun z => mul (grad b ch y z) (pixel img p h w k0 k1 s s b ch y z)))))).
  - unfold dot. apply sum_ext. intros b _. apply sum_ext. intros ch _.
    transitivity (sum H (fun y => if (top <=? y) && (y <? top + h) then sum W (fun z => if (left <=? z) && (z <? left + w) then mul (grad b ch y z) (img b ch (y - top) (z - left)) else zero) else zero)).
    + rewrite (sum_shift H h top _ (fits h k0 ho C0 eq_refl Hh)). apply sum_ext. intros y Hy. rewrite (sum_shift W w left _ (fits w k1 wo C1 eq_refl Hw)). apply sum_ext. intros z Hz.
      rewrite !Nat.add_sub. reflexivity.
    + apply sum_ext. intros y _. unfold ConvProofs.pixel, extended. fold top left. destruct ((top <=? y) && (y <? top + h)); cbn [andb].
      * apply sum_ext. intros z _. destruct ((left <=? z) && (z <? left + w)); [reflexivity|ring].
      * rewrite (sum_ext W _ (fun _ => zero)); [symmetry; apply sum_zero|]. intros z _. ring.
  - rewrite (image_inner zero one add mul sub opp RT n c h w k0 k1 f s p Hn Hc Hk0 Hk1 Hf Hs Ho Wo (nchw (channels_first L) dy) K). unfold dot. do 4 (apply sum_ext; intros ? _). unfold term, corr. do 3 (rewrite <- sum_mul; apply sum_ext; intros ? _). ring.
Qed.
(** The gradient of the kernel. *)
Definition kernel_grad (u v ch g : nat) : A :=
  sum n (fun b => sum ho (fun i => sum wo (fun j => mul (nchw (channels_first L) dy b g i j) (pixel (nchw (channels_first L) x) p h w k0 k1 s s b ch (i * s + u) (j * s + v))))).
Lemma kernel_adjoint ker : dot k0 k1 c f kernel_grad ker = dot n f ho wo (nchw (channels_first L) dy) (corr (nchw (channels_first L) x) ker p h w c k0 k1 s s).
Proof.
  transitivity (sum n (fun b => sum f (fun g => sum ho (fun i => sum wo (fun j => sum k0 (fun u => sum k1 (fun v => sum c (fun ch => term mul s (nchw (channels_first L) dy) (pixel (nchw (channels_first L) x) p h w k0 k1 s s) ker b ch u v g i j)))))))).
  - rewrite (order_kernel zero one add mul sub opp RT n c h w k0 k1 f s p (nchw (channels_first L) dy)). unfold dot, kernel_grad. do 4 (apply sum_ext; intros ? _). do 3 (rewrite <- sum_mulr; apply sum_ext; intros ? _). unfold term. ring.
  - unfold dot. do 4 (apply sum_ext; intros ? _). unfold term, corr. do 3 (rewrite <- sum_mul; apply sum_ext; intros ? _). reflexivity.
Qed.
(** The gradient of the bias. *)
Definition bias_grad (g : nat) : A := sum n (fun b => sum ho (fun i => sum wo (fun j => nchw (channels_first L) dy b g i j))).
Lemma bias_adjoint (v : nat -> A) : sum f (fun g => mul (bias_grad g) (v g)) = dot n f ho wo (nchw (channels_first L) dy) (fun _ g _ _ => v g).
Proof.
  unfold dot, bias_grad. rewrite (sum_swap n f). apply sum_ext. intros g _. do 3 (rewrite <- sum_mulr; apply sum_ext; intros ? _). reflexivity.
Qed.

Lemma backward_ok : exists gk gb dx, conv_backward zero add mul over L K bias x dy = Ok (scaled over L n gk, option_map (scaled over L n) gb, dx) /\
  dims gk = dims K /\ (forall u v ch g, u < k0 -> v < k1 -> ch < c -> g < f -> at4 gk u v ch g = kernel_grad u v ch g) /\
  match bias, gb with Some _, Some gb => dims gb = [f; 1; 1] /\ (forall g, g < f -> val gb [g; 0; 0] = bias_grad g) | None, None => True | _, _ => False end /\
  dims dx = dims x /\ (forall b ch y z, b < n -> ch < c -> y < h -> z < w -> nchw (channels_first L) dx b ch y z = grad b ch (y + top) (z + left)).
Proof.
  unfold conv_backward. rewrite DK. cbn [nth]. rewrite S0, S1. set (xi := if channels_first L then x else transpose [0; 3; 1; 2] x).
  assert (Di : dims xi = [n; c; h; w]). { unfold xi, shape in *. destruct (channels_first L); [exact Dx|]. unfold transpose. cbn [dims]. rewrite Dx. reflexivity. }
  assert (Vi : forall b ch y z, at4 xi b ch y z = nchw (channels_first L) x b ch y z). { intros. unfold xi, nchw. destruct (channels_first L); reflexivity. }
  rewrite Di. cbn [nth]. set (dyT := if channels_first L then transpose [2; 3; 0; 1] dy else transpose [1; 2; 0; 3] dy).
  assert (DT : dims dyT = [ho; wo; n; f]). { unfold dyT, shape in *. destruct (channels_first L); unfold transpose; cbn [dims]; rewrite Dy; reflexivity. }
  assert (VT : forall i j b g, i < ho -> j < wo -> b < n -> g < f -> val dyT [i; j; b; g] = nchw (channels_first L) dy b g i j). { intros. unfold dyT, nchw. destruct (channels_first L); reflexivity. }
  destruct (dx_ok zero one add mul sub opp RT n c h w k0 k1 f s p Hn Hc Hk0 Hk1 Hf Hs Ho Wo (nchw (channels_first L) dy) K DK dyT DT VT) as (d0 & E0 & D0 & V0). rewrite E0. fold ho wo H W in D0, V0.
  fold p. set (ph := pad_along h k0 s). set (pw := pad_along w k1 s).
  set (d1 := match p with SAME => crop_axis 3 (pw / 2) (pw - pw / 2) (crop_axis 2 (ph / 2) (ph - ph / 2) d0) | VALID => d0 end).
  set (x1 := match p with SAME => pad_axis zero 3 (pw / 2) (pw - pw / 2) (pad_axis zero 2 (ph / 2) (ph - ph / 2) xi) | VALID => xi end).
  pose proof (total h k0 ho C0 eq_refl Hh) as TH. pose proof (total w k1 wo C1 eq_refl Hw) as TW. fold top ph H in TH. fold left pw W in TW.
  pose proof (fits h k0 ho C0 eq_refl Hh) as FH. pose proof (fits w k1 wo C1 eq_refl Hw) as FW. fold top H in FH. fold left W in FW.
  assert (P2 : forall q, q / 2 <= q) by (intros q; apply Nat.div_le_upper_bound; lia).
  assert (D1 : dims d1 = [n; c; h; w]).
  { unfold d1. destruct p; cbn [covered] in C0, C1; fold H in C0; fold W in C1; destruct TH as (T1 & T2), TW as (T3 & T4).
    - unfold crop_axis. cbn [dims]. rewrite D0. cbn [nth set_nth]. pose proof (P2 ph). pose proof (P2 pw). f_equal. f_equal. f_equal; [lia|f_equal; lia].
    - rewrite D0, T1, T3. reflexivity. }
  assert (V1 : forall b ch y z, b < n -> ch < c -> y < h -> z < w -> at4 d1 b ch y z = grad b ch (y + top) (z + left)).
  { intros b ch y z Hb Hch Hy Hz. rewrite <- (V0 b ch (y + top) (z + left) Hb Hch) by lia. unfold d1. destruct p; destruct TH as (_ & T2), TW as (_ & T4); rewrite T2, T4; [|rewrite !Nat.add_0_r; reflexivity].
    unfold at4, crop_axis. cbn [val nth set_nth]. reflexivity. }
  assert (X1 : dims x1 = [n; c; H; W]).
  { unfold x1. destruct p; cbn [covered] in C0, C1; fold H in C0; fold W in C1; destruct TH as (T1 & T2), TW as (T3 & T4).
    - unfold pad_axis. cbn [dims]. rewrite Di. cbn [nth set_nth]. pose proof (P2 ph). pose proof (P2 pw). f_equal. f_equal. f_equal; [lia|f_equal; lia].
    - rewrite Di, T1, T3. reflexivity. }
  assert (Y1 : forall b ch y z, y < H -> z < W -> at4 x1 b ch y z = pixel (nchw (channels_first L) x) p h w k0 k1 s s b ch y z).
  { intros b ch y z Hy Hz. unfold ConvProofs.pixel, extended. fold top left. rewrite <- Vi. unfold x1. destruct p; destruct TH as (T1 & T2), TW as (T3 & T4); rewrite T2, T4.
    - unfold at4, pad_axis. cbn [val dims nth set_nth]. rewrite Di. cbn [nth set_nth]. destruct ((ph / 2 <=? y) && (y <? ph / 2 + h)) eqn:Q; cbn [andb].
      + reflexivity.
      + destruct ((pw / 2 <=? z) && (z <? pw / 2 + w)); reflexivity.
    - cbn [Nat.leb Nat.add andb]. rewrite !Nat.sub_0_r. destruct (Nat.ltb_spec y h); [|lia]. destruct (Nat.ltb_spec z w); [|lia]. reflexivity. }
  assert (DX : dims (transpose [1; 0; 2; 3] x1) = [c; n; H; W]) by (unfold transpose; cbn [dims]; rewrite X1; reflexivity).
  destruct (dk_ok zero one add mul sub opp RT n c h w k0 k1 f s p Hn Hc Hk0 Hk1 Hf Hs Ho Wo (nchw (channels_first L) dy) dyT (transpose [1; 0; 2; 3] x1) DT VT DX) as (dk & Ek & Dk & Vk). rewrite Ek.
  assert (SX : same_shape (dims (if channels_first L then d1 else transpose [0; 2; 3; 1] d1)) (dims x) = true).
  { rewrite Dx. unfold shape. destruct (channels_first L); unfold transpose; cbn [dims]; rewrite D1; apply same_shape_ok. }
  assert (SK : same_shape (dims (scaled over L n (transpose [2; 3; 0; 1] dk))) [k0; k1; c; f] = true).
  { unfold scaled. destruct (lazy L); unfold transpose; cbn [dims]; rewrite Dk; apply same_shape_ok. }
  assert (B : exists gb, match bias with Some _ => match sum_bias zero add dyT with Ok b => Ok (Some (scaled over L n b)) | Err e => Err e end | None => Ok None end = Ok (option_map (scaled over L n) gb) /\
    match bias, gb with Some _, Some gb => dims gb = [f; 1; 1] /\ (forall g, g < f -> val gb [g; 0; 0] = bias_grad g) | None, None => True | _, _ => False end).
  { destruct bias as [bt|]; [|exists None; split; reflexivity]. unfold sum_bias. rewrite DT. unfold reshape. cbn [dims psize fold_right]. rewrite !Nat.mul_1_r, Nat.eqb_refl. eexists (Some _). split; [reflexivity|]. split; [reflexivity|].
    intros g Hg. cbn [val unravel ravel psize fold_right nth]. rewrite Nat.div_1_r, Nat.mul_1_r, !Nat.add_0_r, ?Nat.mul_1_r. unfold bias_grad.
    rewrite (swap21 ho wo n (fun i j b => val dyT [i; j; b; g])). apply sum_ext. intros b Hb. apply sum_ext. intros i Hi. apply sum_ext. intros j Hj. apply VT; assumption. }
  destruct B as (gb & Eb & Vb). rewrite Eb, SX, SK. exists (transpose [2; 3; 0; 1] dk), gb. eexists. split; [reflexivity|]. split; [unfold transpose; cbn [dims]; rewrite Dk; reflexivity|]. split.
  - intros u v ch g Hu Hv Hch Hg. transitivity (at4 dk ch g u v); [reflexivity|]. rewrite (Vk ch g u v Hch Hg Hu Hv). unfold kernel_grad. apply sum_ext. intros b Hb. apply sum_ext. intros i Hi. apply sum_ext. intros j Hj. f_equal.
    transitivity (at4 x1 b ch (i * s + u) (j * s + v)); [reflexivity|]. apply Y1.
    + assert (i * s <= (ho - 1) * s) by (apply Nat.mul_le_mono_r; fold ho in Hi; lia). unfold H. lia.
    + assert (j * s <= (wo - 1) * s) by (apply Nat.mul_le_mono_r; fold wo in Hj; lia). unfold W. lia.
  - split; [exact Vb|]. split.
    + rewrite Dx. unfold shape. destruct (channels_first L); unfold transpose; cbn [dims]; rewrite D1; reflexivity.
    + intros b ch y z Hb Hch Hy Hz. rewrite <- (V1 b ch y z Hb Hch Hy Hz). unfold nchw. destruct (channels_first L); reflexivity.
Qed.
End Backward.
End ConvB.
