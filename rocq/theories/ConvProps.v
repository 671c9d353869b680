(** Properties of convolutions: C94, C95. *)
From Coq Require Import List Arith Bool Lia Ring Ring_theory ZArith.
From Verif Require Import ConvModel ConvSpec ConvProofs ConvGrad ConvBack.
Import ListNotations.

Section Props.
Context {A : Type} (zero one : A) (add mul sub : A -> A -> A) (opp : A -> A) (RT : ring_theory zero one add mul sub opp eq).
Lemma sums_sigma kh kw c F : ConvModel.sum zero add kh (fun u => ConvModel.sum zero add kw (fun v => ConvModel.sum zero add c (fun ch => F u v ch))) =
  sigma zero add kh (fun u => sigma zero add kw (fun v => sigma zero add c (fun ch => F u v ch))).
Proof.
  rewrite <- (sum_sigma zero one add mul sub opp RT). apply sum_ext. intros u _. rewrite <- (sum_sigma zero one add mul sub opp RT). apply sum_ext. intros v _. apply (sum_sigma zero one add mul sub opp RT).
Qed.

(** C94: a convolution is the cross-correlation of the image, extended by zeros as TensorFlow does, with the kernel: for all
    shapes, strides and paddings, and entries from any commutative ring. *)
Theorem C94_conv2d (x y : ten A) p n c h w kh kw f sh sw :
  dims x = [n; c; h; w] -> dims y = [kh; kw; c; f] -> 0 < kh -> 0 < kw -> 0 < c -> 0 < f -> 0 < sh -> 0 < sw -> (p = VALID -> kh <= h /\ kw <= w) ->
  exists z, conv2d zero add mul x y sh sw p = Ok z /\ cross_correlation zero add mul z x y p n c h w kh kw f sh sw.
Proof.
  intros D E H1 H2 H3 H4 H5 H6 _. destruct (conv2d_ok zero one add mul sub opp RT x y n c h w kh kw f sh sw p D E H1 H2 H3 H4) as (z & Ez & Dz & Vz). cbv zeta in *.
  exists z. split; [exact Ez|]. exists (out_len p h kh sh), (out_len p w kw sw), (tf_before p h kh sh), (tf_before p w kw sw).
  split; [apply out_len_windows, H5|]. split; [apply out_len_windows, H6|]. split; [destruct p; reflexivity|]. split; [destruct p; reflexivity|]. split; [exact Dz|].
  intros b g i j Hb Hg Hi Hj. rewrite (Vz b g i j Hb Hg Hi Hj). unfold conv_at, correlation, pixel. apply sums_sigma.
Qed.
(** The same for tensors of int100, which order the columns by channel. *)
Theorem C94_conv2d_int100 (x y : ten A) p n c h w kh kw f sh sw :
  dims x = [n; c; h; w] -> dims y = [kh; kw; c; f] -> 0 < kh -> 0 < kw -> 0 < c -> 0 < f -> 0 < sh -> 0 < sw -> (p = VALID -> kh <= h /\ kw <= w) ->
  exists z, crt_conv2d zero add mul x y sh sw p = Ok z /\ cross_correlation zero add mul z x y p n c h w kh kw f sh sw.
Proof.
  intros D E H1 H2 H3 H4 H5 H6 _. destruct (crt_conv2d_ok zero one add mul sub opp RT x y n c h w kh kw f sh sw p D E H1 H2 H3 H4) as (z & Ez & Dz & Vz). cbv zeta in *.
  exists z. split; [exact Ez|]. exists (out_len p h kh sh), (out_len p w kw sw), (tf_before p h kh sh), (tf_before p w kw sw).
  split; [apply out_len_windows, H5|]. split; [apply out_len_windows, H6|]. split; [destruct p; reflexivity|]. split; [destruct p; reflexivity|]. split; [exact Dz|].
  intros b g i j Hb Hg Hi Hj. rewrite (Vz b g i j Hb Hg Hi Hj). unfold conv_at, correlation, pixel. apply sums_sigma.
Qed.

(** C95: what [backward] of Conv2D returns are the gradients: the change of the inner product of [dy] with the output is the
    inner product of the gradient with the change of the input, the kernel or the bias. *)
Theorem C95_conv_gradient (over : A -> nat -> A) (L : conv) (K x dy : ten A) (bias : option (ten A)) n c h w k0 k1 f s ho wo :
  stride0 L = s -> stride1 L = s -> 0 < s -> 0 < n -> 0 < c -> 0 < h -> 0 < w -> 0 < k0 -> 0 < k1 -> 0 < f -> 0 < ho -> 0 < wo ->
  windows (pad L) h k0 s ho -> windows (pad L) w k1 s wo -> covered (pad L) h k0 s ho -> covered (pad L) w k1 s wo ->
  dims K = [k0; k1; c; f] -> dims x = shape (channels_first L) n c h w -> dims dy = shape (channels_first L) n f ho wo ->
  exists o gk dk db dx, conv_call zero add mul L K bias x = Ok o /\ dims o = dims dy /\
    conv_backward zero add mul over L K bias x dy = Ok (dk, db, dx) /\
    dims dx = dims x /\
    (forall x', dims x' = dims x -> exists o', conv_call zero add mul L K bias (plus add x x') = Ok o' /\
      inner zero add mul dy o' = add (inner zero add mul dy o) (inner zero add mul dx x')) /\
    dims gk = dims K /\ averaged over (lazy L) n gk dk /\
    (forall K', dims K' = dims K -> exists o', conv_call zero add mul L (plus add K K') bias x = Ok o' /\
      inner zero add mul dy o' = add (inner zero add mul dy o) (inner zero add mul gk K')) /\
    match bias with
    | Some b => exists gb db', db = Some db' /\ dims gb = [f; 1; 1] /\ averaged over (lazy L) n gb db' /\
      forall b', exists o', conv_call zero add mul L K (Some (plus add b b')) x = Ok o' /\
        inner zero add mul dy o' = add (inner zero add mul dy o) (bias_inner zero add mul f gb b')
    | None => db = None
    end.
Proof.
  intros S0 S1 Hs Hn Hc Hh Hw H0 H1 Hf Ho Wo W0 W1 C0 C1 DK Dx Dy.
  assert (Eo : ho = out_len (pad L) h k0 s) by (apply (windows_unique (pad L) h k0 s); [exact W0|apply out_len_windows, Hs]).
  assert (Ew : wo = out_len (pad L) w k1 s) by (apply (windows_unique (pad L) w k1 s); [exact W1|apply out_len_windows, Hs]).
  clear W0 W1. subst ho wo. set (ho := out_len (pad L) h k0 s) in *. set (wo := out_len (pad L) w k1 s) in *.
  destruct (backward_ok zero one add mul sub opp RT over L n c h w k0 k1 f s Hn Hc H0 H1 Hf Hs Hh Hw Ho Wo S0 S1 C0 C1 K x dy bias DK Dx Dy) as (gk & gb & dx & Eb & Dk & Vk & Vb & Ddx & Vdx).
  assert (Call : forall K1 bias1 x1, dims K1 = dims K -> dims x1 = dims x -> exists o, conv_call zero add mul L K1 bias1 x1 = Ok o /\ dims o = dims dy /\
    forall b g i j, b < n -> g < f -> i < ho -> j < wo -> nchw (channels_first L) o b g i j = add (corr zero add mul (nchw (channels_first L) x1) (at4 K1) (pad L) h w c k0 k1 s s b g i j) (bias_at zero bias1 g)).
  { intros K1 bias1 x1 D1 D2. rewrite DK in D1. rewrite Dx in D2. destruct (call_ok zero one add mul sub opp RT L K1 bias1 x1 n c h w k0 k1 f D2 D1 H0 H1 Hc Hf) as (o & E & Do & Vo). cbv zeta in *. rewrite S0, S1 in *. fold ho wo in Do, Vo.
    exists o. split; [exact E|]. split; [rewrite Do, Dy; reflexivity|exact Vo]. }
  assert (Dot : forall o F, (forall b g i j, b < n -> g < f -> i < ho -> j < wo -> nchw (channels_first L) o b g i j = F b g i j) -> inner zero add mul dy o = dot zero add mul n f ho wo (nchw (channels_first L) dy) F).
  { intros o F HF. rewrite (inner_image zero one add mul sub opp RT (channels_first L) n f ho wo dy o Dy). apply dot_ext, HF. }
  destruct (Call K bias x eq_refl eq_refl) as (o & Eq & Do & Vo). pose proof (Dot o _ Vo) as Io.
  exists o, gk, (scaled over L n gk), (option_map (scaled over L n) gb), dx. split; [exact Eq|]. split; [exact Do|]. split; [exact Eb|]. split; [exact Ddx|]. split; [|split; [exact Dk|split; [|split]]].
  - intros x' Dx'. destruct (Call K bias (plus add x x') eq_refl eq_refl) as (o' & E' & Do' & Vo'). exists o'. split; [exact E'|]. rewrite (Dot o' _ Vo'), Io.
    rewrite (inner_image zero one add mul sub opp RT (channels_first L) n c h w dx x' (eq_trans Ddx Dx)). rewrite (dot_extl zero add mul n c h w (nchw (channels_first L) dx) _ (nchw (channels_first L) x') Vdx).
    rewrite (image_adjoint zero one add mul sub opp RT L n c h w k0 k1 f s) by assumption. rewrite <- (dot_add zero one add mul sub opp RT). apply dot_ext. intros b g i j _ _ _ _.
    transitivity (add (corr zero add mul (fun b ch y z => add (nchw (channels_first L) x b ch y z) (nchw (channels_first L) x' b ch y z)) (at4 K) (pad L) h w c k0 k1 s s b g i j) (bias_at zero bias g)).
    + f_equal. unfold nchw, plus, at4. cbn [val]. destruct (channels_first L); reflexivity.
    + rewrite (corr_addl zero one add mul sub opp RT). destruct RT as [_ Rc Ra _ _ _ _ _ _]. rewrite <- !Ra. f_equal. apply Rc.
  - unfold averaged, scaled. destruct (lazy L); split; reflexivity.
  - intros K' DK'. destruct (Call (plus add K K') bias x eq_refl eq_refl) as (o' & E' & Do' & Vo'). exists o'. split; [exact E'|]. rewrite (Dot o' _ Vo'), Io.
    assert (IK : inner zero add mul gk K' = dot zero add mul k0 k1 c f (kernel_grad zero add mul L n h w k0 k1 s x dy) (at4 K')).
    { unfold inner. rewrite Dk, DK, (inner4_dot zero one add mul sub opp RT). apply dot_extl. exact Vk. }
    rewrite IK, (kernel_adjoint zero one add mul sub opp RT L n c h w k0 k1 f s). rewrite <- (dot_add zero one add mul sub opp RT). apply dot_ext. intros b g i j _ _ _ _.
    transitivity (add (corr zero add mul (nchw (channels_first L) x) (fun u v ch g => add (at4 K u v ch g) (at4 K' u v ch g)) (pad L) h w c k0 k1 s s b g i j) (bias_at zero bias g)); [reflexivity|].
    rewrite (corr_addr zero one add mul sub opp RT). destruct RT as [_ Rc Ra _ _ _ _ _ _]. rewrite <- !Ra. f_equal. apply Rc.
  - destruct bias as [bt|]; [|destruct gb; [destruct Vb|reflexivity]]. destruct gb as [gb|]; [|destruct Vb]. destruct Vb as (Db & Vb). exists gb, (scaled over L n gb). split; [reflexivity|]. split; [exact Db|].
    split; [unfold averaged, scaled; destruct (lazy L); split; reflexivity|]. intros b'. destruct (Call K (Some (plus add bt b')) x eq_refl eq_refl) as (o' & E' & Do' & Vo'). exists o'. split; [exact E'|]. rewrite (Dot o' _ Vo'), Io.
    unfold bias_inner. rewrite <- (sum_sigma zero one add mul sub opp RT). rewrite (sum_ext zero add f _ (fun g => mul (bias_grad zero add L n h w k0 k1 s dy g) (val b' [g; 0; 0]))) by (intros g Hg; rewrite (Vb g Hg); reflexivity).
    rewrite (bias_adjoint zero one add mul sub opp RT L n h w k0 k1 f s dy (fun g => val b' [g; 0; 0])). rewrite <- (dot_add zero one add mul sub opp RT). apply dot_ext. intros b g i j _ _ _ _.
    cbn [bias_at plus val]. destruct RT as [_ Rc Ra _ _ _ _ _ _]. apply Ra.
Qed.
End Props.
Print Assumptions C94_conv2d.
Print Assumptions C94_conv2d_int100.
Print Assumptions C95_conv_gradient.

(** Concrete tensors over the integers. *)
Definition zten (d : list nat) (l : list Z) : ten Z := Ten d (fun idx => nth (ravel d idx) l 0%Z).
Definition entries (t : ten Z) : list Z := map (fun q => val t (unravel (dims t) q)) (seq 0 (psize (dims t))).
Definition shown (r : res (ten Z)) : option (list nat * list Z) := match r with Ok t => Some (dims t, entries t) | Err _ => None end.
Definition zconv := conv2d 0%Z Z.add Z.mul.
Definition zcall := conv_call 0%Z Z.add Z.mul.
Definition zback := conv_backward 0%Z Z.add Z.mul (fun a n => Z.div a (Z.of_nat n)).
Definition zinner := inner 0%Z Z.add Z.mul.

Definition image35 : ten Z := zten [1; 1; 3; 5] (map Z.of_nat (seq 1 15)).
Definition kernel22 : ten Z := zten [2; 2; 1; 1] [1; 10; 100; 1000]%Z.
Example C94_conv2d_case : exists z, zconv image35 kernel22 2 1 SAME = Ok z /\ cross_correlation 0%Z Z.add Z.mul z image35 kernel22 SAME 1 1 3 5 2 2 1 2 1.
Proof. apply (C94_conv2d 0%Z 1%Z Z.add Z.mul Z.sub Z.opp Zth); try reflexivity; first [discriminate|lia]. Qed.
Example C94_conv2d_value : shown (zconv image35 kernel22 2 1 SAME) = Some ([1; 1; 2; 5], [7621; 8732; 9843; 10954; 1005; 131; 142; 153; 164; 15]%Z).
Proof. vm_compute. reflexivity. Qed.
Example C94_conv2d_int100_case : exists z, crt_conv2d 0%Z Z.add Z.mul image35 kernel22 2 1 SAME = Ok z /\ cross_correlation 0%Z Z.add Z.mul z image35 kernel22 SAME 1 1 3 5 2 2 1 2 1.
Proof. apply (C94_conv2d_int100 0%Z 1%Z Z.add Z.mul Z.sub Z.opp Zth); try reflexivity; first [discriminate|lia]. Qed.
Example C94_conv2d_int100_value : shown (crt_conv2d 0%Z Z.add Z.mul image35 kernel22 2 1 SAME) = shown (zconv image35 kernel22 2 1 SAME).
Proof. vm_compute. reflexivity. Qed.

(** A layer with SAME padding, strides 2, in the data format channels_last, for which the hypotheses of C95 hold. *)
Definition layer22 : conv := Conv 2 2 SAME false true.
Definition image54 : ten Z := zten [2; 5; 4; 1] (map Z.of_nat (seq 1 40)).
Definition kernel33 : ten Z := zten [3; 3; 1; 2] (map Z.of_nat (seq 1 18)).
Definition bias2 : ten Z := zten [2; 1; 1] [5; 7]%Z.
Definition grad32 : ten Z := zten [2; 3; 2; 2] (map Z.of_nat (seq 1 24)).
Example C95_conv_gradient_case :
  windows SAME 5 3 2 3 /\ windows SAME 4 3 2 2 /\ covered SAME 5 3 2 3 /\ covered SAME 4 3 2 2 /\
  dims kernel33 = [3; 3; 1; 2] /\ dims image54 = shape false 2 1 5 4 /\ dims grad32 = shape false 2 2 3 2.
Proof. repeat split; try reflexivity; cbn; intros; lia. Qed.
Example C95_conv_gradient_value : match zback layer22 kernel33 (Some bias2) image54 grad32 with
  | Ok (dk, Some db, dx) => dims dx = [2; 5; 4; 1] /\ entries db = [72; 78]%Z /\
    match zcall layer22 kernel33 (Some bias2) image54, zcall layer22 kernel33 (Some bias2) (plus Z.add image54 image54) with
    | Ok o, Ok o' => (zinner grad32 o' = zinner grad32 o + zinner dx image54)%Z /\ (zinner dx image54 <> 0)%Z
    | _, _ => False
    end
  | _ => False end.
Proof. vm_compute. repeat split; discriminate. Qed.

(** Where the windows leave a part of the image uncovered, backward fails although the call succeeds. *)
Theorem C95_uncovered_refuted : exists (L : conv) (K x dy : ten Z), stride0 L = stride1 L /\ windows (pad L) 4 3 2 1 /\
  dims K = [3; 3; 1; 1] /\ dims x = [1; 1; 4; 4] /\ dims dy = [1; 1; 1; 1] /\
  shown (zcall L K None x) = Some (dims dy, [9%Z]) /\ zback L K None x dy = Err AssertionError.
Proof.
  exists (Conv 2 2 VALID true false), (zten [3; 3; 1; 1] (repeat 1%Z 9)), (zten [1; 1; 4; 4] (repeat 1%Z 16)), (zten [1; 1; 1; 1] [1%Z]).
  repeat split; try reflexivity; cbn; intros; lia.
Qed.
Print Assumptions C95_uncovered_refuted.
(** With different strides along rows and columns, backward may return a wrong gradient, without any error. *)
Theorem C95_strides_refuted : exists (L : conv) (K x x' dy o o' dk dx : ten Z) db, stride0 L = 3 /\ stride1 L = 2 /\ pad L = SAME /\
  dims x' = dims x /\ zcall L K None x = Ok o /\ dims o = dims dy /\ zcall L K None (plus Z.add x x') = Ok o' /\
  zback L K None x dy = Ok (dk, db, dx) /\ dims dx = dims x /\ dims dk = dims K /\ zinner dy o' <> (zinner dy o + zinner dx x')%Z.
Proof.
  pose (L := Conv 3 2 SAME true false). pose (K := zten [1; 1; 1; 1] [1%Z]). pose (x := zten [1; 1; 4; 4] (repeat 0%Z 16)).
  pose (x' := zten [1; 1; 4; 4] [0; 0; 0; 1]%Z). pose (dy := zten [1; 1; 2; 2] (repeat 1%Z 4)).
  assert (Q : match zcall L K None x, zcall L K None (plus Z.add x x'), zback L K None x dy with
    | Ok o, Ok o', Ok (dk, _, dx) => dims o = dims dy /\ dims dx = dims x /\ dims dk = dims K /\ zinner dy o' <> (zinner dy o + zinner dx x')%Z | _, _, _ => False end).
  { clear. vm_compute. repeat split; discriminate. }
  destruct (zcall L K None x) as [o|] eqn:E1; [|destruct Q]. destruct (zcall L K None (plus Z.add x x')) as [o'|] eqn:E2; [|destruct Q].
  destruct (zback L K None x dy) as [[[dk db] dx]|] eqn:E3; [|destruct Q]. exists L, K, x, x', dy, o, o', dk, dx, db.
  destruct Q as (Q1 & Q2 & Q3 & Q4). repeat (split; [first [assumption|reflexivity]|]). assumption.
Qed.
Print Assumptions C95_strides_refuted.
