(** Proofs about the weights of tfe.keras models: building layers, setting weights, running models. *)
From Coq Require Import List Arith Bool Lia Ring Ring_theory.
From Verif Require Import ConvModel ConvSpec ConvProofs CloneModel CloneSpec CloneProofs.
Import ListNotations.

Section CloneM.
Context {A : Type} (zero one : A) (add mul sub : A -> A -> A) (opp : A -> A) (RT : ring_theory zero one add mul sub opp eq).
Context (sqrt recip : A -> A) (epsilon : A).
Add Ring Aring9 : RT.
Notation sigma := (ConvSpec.sigma zero add).
Notation config := (config (A:=A)).
Notation layer := (layer (A:=A)).
Notation within := CloneSpec.within.
Notation call := (call zero add mul sub).
Notation build := (build zero one add mul sqrt recip epsilon).
Notation set_layer := (set_layer zero one add mul sqrt recip epsilon).
Notation keras := (keras zero add mul sub sqrt recip epsilon).
Notation denominator := (denominator add sqrt recip epsilon).

(** The shapes of the weights of tfe.keras layers. *)
Definition tfe_shapes (c : config) (d : list nat) : list (list nat) :=
  match c with
  | DenseC units b _ => [nth 0 d 0; units] :: (if b then [[units]] else [])
  | ConvC k0 k1 f L b _ => [k0; k1; depth (channels_first L) d; f] :: (if b then [[f; 1; 1]] else [])
  | DepthC k0 k1 m L b _ => [k0; k1; depth (channels_first L) d; depth (channels_first L) d * m] :: (if b then [[depth (channels_first L) d * m; 1; 1]] else [])
  | NormC axis scale center => repeat (norm_shape axis (0 :: d)) (2 + (if scale then 1 else 0) + (if center then 1 else 0))
  | PlainC _ => []
  end.
(** A built layer whose weights have the right shapes. *)
Definition inv (c : config) (d : list nat) (l : layer) : Prop :=
  cfg l = c /\ built l = true /\ map dims (kept l) = tfe_shapes c d /\
  match c with NormC axis _ _ => exists dn, denom l = Some dn /\ dims dn = norm_shape axis (0 :: d) | _ => True end.
Lemma norm_shape_eq axis n d : 0 < axis -> norm_shape axis (n :: d) = norm_shape axis (0 :: d).
Proof. intros H. unfold norm_shape. destruct axis; [lia|]. reflexivity. Qed.
Lemma supported_normal axis s k d e n : supported (NormC axis s k : config) d e -> normal axis (n :: d) /\ 0 < axis /\ e = d.
Proof. intros [E H]. cbn. unfold normal. cbn [length]. destruct H as [[-> H]|[[-> H]|[-> H]]]; rewrite H; (split; [auto 10|]); (split; [lia|exact E]). Qed.

Lemma build_ok init c d e n : supported c d e -> exists l, build init c (n :: d) = Ok l /\ inv c d l.
Proof.
  intros S. destruct c as [units b act|k0 k1 f L b act|k0 k1 m L b act|axis s k|f].
  - destruct S as (Hd & -> & _). destruct d as [|q [|]]; try discriminate Hd. eexists. split; [reflexivity|]. unfold inv. cbn. destruct b; cbn; auto.
  - destruct S as (c & h & w & ho & wo & -> & _). unfold build, CloneModel.build, channels, image. destruct (channels_first L) eqn:F; cbn; (eexists; split; [reflexivity|]); unfold inv, depth, tfe_shapes, depth; rewrite F; cbn; destruct b; cbn; auto.
  - destruct S as (c & h & w & ho & wo & -> & _ & _ & _ & _ & Hm & _). unfold build, CloneModel.build, channels, image. destruct (channels_first L) eqn:F; cbn;
      (destruct (rearrange_ok zero one add mul sub opp RT k0 k1 c m (Ten [k0; k1; c; m] (init 0 [k0; k1; c; m])) Hm eq_refl) as (W & EW & DW & _); rewrite EW; eexists; split; [reflexivity|]);
      unfold inv, depth, tfe_shapes, depth; rewrite F; cbn; rewrite DW; destruct b; cbn; auto.
  - destruct S as [-> H]. unfold inv. destruct H as [[-> H]|[[-> H]|[-> H]]]; (repeat (destruct d as [|? d]; try discriminate H)); cbn; (eexists; split; [reflexivity|]); cbn; destruct s, k; cbn; eauto 10.
  - eexists. split; [reflexivity|]. unfold inv. cbn. auto.
Qed.

(** What a layer computes, in terms of its own weights. *)
Definition bias_opt (b : list (ten A)) : option (ten A) := match b with b :: _ => Some b | [] => None end.
Definition conv_sem L (K : ten A) (bias : list (ten A)) act (x z : ten A) f : Prop :=
  exists n c h w ho wo top left y k0 k1, dims K = [k0; k1; c; f] /\ dims x = shape (channels_first L) n c h w /\ dims y = shape (channels_first L) n f ho wo /\ acted act y z /\
    windows (pad L) h k0 (stride0 L) ho /\ windows (pad L) w k1 (stride1 L) wo /\
    placed (pad L) h k0 (stride0 L) ho top /\ placed (pad L) w k1 (stride1 L) wo left /\
    forall b g i j, b < n -> g < f -> i < ho -> j < wo -> nchw (channels_first L) y b g i j =
      bias3 add (bias_opt bias) g (correlation zero add mul (extended zero (nchw (channels_first L) x) h w top left) (at4 K) c k0 k1 (stride0 L) (stride1 L) b g i j).
Definition norm_sem axis (gamma beta : option (ten A)) (mean dn x z : ten A) : Prop :=
  dims z = dims x /\ forall idx, within idx (dims x) ->
    let v := mul (sub (val x idx) (val mean (chan axis idx))) (val dn (chan axis idx)) in
    let v := match gamma with Some g => mul (val g (chan axis idx)) v | None => v end in
    val z idx = match beta with Some b => add v (val b (chan axis idx)) | None => v end.
Definition sem (c : config) (l : layer) (x z : ten A) : Prop :=
  match c, kept l, denom l with
  | DenseC units _ act, K :: bias, _ =>
    exists n q y, dims x = [n; q] /\ dims y = [n; units] /\ acted act y z /\
    forall i j, i < n -> j < units -> val y [i; j] = shifted add bias j (sigma q (fun k => mul (val x [i; k]) (val K [k; j])))
  | ConvC _ _ f L _ act, K :: bias, _ => conv_sem L K bias act x z f
  | DepthC _ _ m L _ act, K :: bias, _ => exists c, conv_sem L K bias act x z (c * m)
  | NormC axis true true, [gamma; beta; mean; _], Some dn => norm_sem axis (Some gamma) (Some beta) mean dn x z
  | NormC axis true false, [gamma; mean; _], Some dn => norm_sem axis (Some gamma) None mean dn x z
  | NormC axis false true, [beta; mean; _], Some dn => norm_sem axis None (Some beta) mean dn x z
  | NormC axis false false, [mean; _], Some dn => norm_sem axis None None mean dn x z
  | PlainC f, _, _ => f x = Ok z
  | _, _, _ => False
  end.
Lemma map_one {X Y} (f : X -> Y) l a : map f l = [a] -> exists x, l = [x] /\ f x = a.
Proof. destruct l as [|x [|]]; intros E; try discriminate E. injection E; intros; subst. eauto. Qed.
Lemma map_nil {X Y} (f : X -> Y) l : map f l = [] -> l = [].
Proof. destruct l; [reflexivity|discriminate]. Qed.
Lemma map_cons {X Y} (f : X -> Y) l a r : map f l = a :: r -> exists x l', l = x :: l' /\ f x = a /\ map f l' = r.
Proof. destruct l as [|x l']; intros E; [discriminate E|]. cbn in E. injection E; intros; subst. eauto. Qed.
Ltac unmap W := let w := fresh "w" in let l := fresh "l" in let E := fresh "E" in let D := fresh "D" in let W' := fresh "W" in
  match type of W with
  | map dims _ = _ :: _ => apply map_cons in W; destruct W as (w & l & E & D & W'); rewrite E in *; unmap W'
  | map dims _ = [] => apply map_nil in W; subst
  end.
Ltac norm_step N T axis := let t := fresh "t" in let E := fresh "E" in let D := fresh "D" in let V := fresh "V" in
  match goal with
  | |- context [broadcasted ?f ?x ?y] =>
    first [destruct (norm_l f axis x y) as (t & E & D & V); [first [exact N|apply T; congruence]|congruence|]
          |destruct (norm_r f axis y x) as (t & E & D & V); [first [exact N|apply T; congruence]|congruence|]]; rewrite E
  end.
Lemma call_ok c d e l x n : inv c d l -> supported c d e -> dims x = n :: d -> exists z, call l x = Ok z /\ dims z = n :: e /\ sem c l x z.
Proof.
  intros (C & _ & W & DN) S Dx. unfold call, CloneModel.call. unfold sem. rewrite C. destruct c as [units b act|k0 k1 f L b act|k0 k1 m L b act|axis s k|f].
  - destruct S as (Hd & -> & Ka). destruct d as [|q [|]]; try discriminate Hd. cbn [tfe_shapes nth] in W. destruct (kept l) as [|K bs]; [discriminate W|]. cbn [map] in W. injection W; clear W; intros W Dk.
    destruct (product_at zero add mul x K n q units) as (z & Ez & Dz & Vz); try assumption.
    destruct b.
    + apply map_one in W. destruct W as (b & -> & Db). cbn [bias_of]. rewrite Ez. destruct (broadcasted_l add z b) as (y & Ey & Dy & Vy). { rewrite Dz, Db. cbn. auto. }
      rewrite Ey. eexists. split; [reflexivity|]. split; [rewrite keeps_dims by exact Ka; congruence|]. exists n, q, y. split; [exact Dx|]. split; [congruence|]. split; [apply acted_activated|].
      intros i j Hi Hj. rewrite Vy by (rewrite Dz; apply w2; assumption). rewrite Db. unfold stretch. cbn [length Nat.sub skipn combine map]. rewrite low by exact Hj. cbn [shifted]. f_equal. rewrite Vz by assumption. apply (sum_sigma zero one add mul sub opp RT).
    + apply map_nil in W. subst bs. cbn [bias_of]. rewrite Ez. eexists. split; [reflexivity|]. split; [rewrite keeps_dims by exact Ka; congruence|]. exists n, q, z. split; [exact Dx|]. split; [congruence|]. split; [apply acted_activated|].
      intros i j Hi Hj. cbn [shifted]. rewrite Vz by assumption. apply (sum_sigma zero one add mul sub opp RT).
  - destruct S as (c & h & w & ho & wo & -> & -> & <- & P1 & P2 & P3 & P4 & P5 & W0 & W1 & Ka). cbn [tfe_shapes] in W. destruct (kept l) as [|K bs]; [discriminate W|]. cbn [map] in W. injection W; clear W; intros W Dk.
    assert (Hc : depth (channels_first L) (image (channels_first L) c h w) = c) by (unfold depth, image; destruct (channels_first L); reflexivity). rewrite Hc in *.
    assert (Dx' : dims x = shape (channels_first L) n c h w) by (rewrite Dx; unfold shape, image; destruct (channels_first L); reflexivity).
    assert (Q : exists bo, bias_of b bs = Ok bo /\ bo = bias_opt bs /\ match bo with Some b => dims b = [f; 1; 1] | None => True end).
    { destruct b; [apply map_one in W; destruct W as (b & -> & Db); exists (Some b)|apply map_nil in W; subst bs; exists None]; cbn; auto. }
    destruct Q as (bo & Eb & Ebo & Db). rewrite Eb.
    destruct (convolve_ok zero one add mul sub opp RT L K bo act x n c h w k0 k0 f ho wo Dx' Dk Db P1 P1 P2 P3 P4 P5 W0 W1) as (y & top & left & Ey & Dy & T1 & T2 & V).
    eexists. split; [exact Ey|]. split; [rewrite keeps_dims by exact Ka; rewrite Dy; unfold shape, image; destruct (channels_first L); reflexivity|]. subst bo.
    exists n, c, h, w, ho, wo, top, left, y, k0, k0. repeat (split; [first [assumption|apply acted_activated]|]). exact V.
  - destruct S as (c & h & w & ho & wo & -> & -> & <- & P1 & P2 & P3 & P4 & P5 & W0 & W1 & Ka). cbn [tfe_shapes] in W. destruct (kept l) as [|K bs]; [discriminate W|]. cbn [map] in W. injection W; clear W; intros W Dk.
    assert (Hc : depth (channels_first L) (image (channels_first L) c h w) = c) by (unfold depth, image; destruct (channels_first L); reflexivity). rewrite Hc in *.
    assert (Dx' : dims x = shape (channels_first L) n c h w) by (rewrite Dx; unfold shape, image; destruct (channels_first L); reflexivity).
    assert (Q : exists bo, bias_of b bs = Ok bo /\ bo = bias_opt bs /\ match bo with Some b => dims b = [c * m; 1; 1] | None => True end).
    { destruct b; [apply map_one in W; destruct W as (b & -> & Db); exists (Some b)|apply map_nil in W; subst bs; exists None]; cbn; auto. }
    destruct Q as (bo & Eb & Ebo & Db). rewrite Eb. assert (P6 : 0 < c * m) by nia.
    destruct (convolve_ok zero one add mul sub opp RT L K bo act x n c h w k0 k0 (c * m) ho wo Dx' Dk Db P1 P1 P2 P6 P4 P5 W0 W1) as (y & top & left & Ey & Dy & T1 & T2 & V).
    eexists. split; [exact Ey|]. split; [rewrite keeps_dims by exact Ka; rewrite Dy; unfold shape, image; destruct (channels_first L); reflexivity|]. subst bo. exists c.
    exists n, c, h, w, ho, wo, top, left, y, k0, k0. repeat (split; [first [assumption|apply acted_activated]|]). exact V.
  - destruct (supported_normal _ _ _ _ _ n S) as (N & Hx & ->). destruct DN as (dn & En & Dn). rewrite En. cbn [tfe_shapes] in W.
    rewrite <- (norm_shape_eq axis n d Hx) in *. rewrite <- Dx in *.
    assert (T : forall t : ten A, dims t = dims x -> normal axis (dims t)) by (intros t Et; rewrite Et; exact N).
    destruct s, k; cbn [Nat.add repeat] in W.
    all: unmap W.
    all: repeat norm_step N T axis.
    all: eexists; (split; [reflexivity|]); (split; [congruence|]); (split; [congruence|]); intros idx Wi; cbv zeta.
    all: repeat match goal with V : forall i, within i (dims ?t) -> val ?z i = _, Wi : within ?j _ |- context [val ?z ?j] => rewrite V by (first [exact Wi|replace (dims t) with (dims x) by congruence; exact Wi]) end.
    all: ring.
  - destruct (S n x Dx) as (z & Ez & Dz). exists z. auto.
Qed.

(** Setting the weights of one layer. *)
Definition reshaped (r v : ten A) : Prop := psize (dims r) = psize (dims v) /\
  forall idx idx', within idx (dims r) -> within idx' (dims v) -> ravel (dims r) idx = ravel (dims v) idx' -> val r idx = val v idx'.
Notation reshape_as := (fun w v : ten A => reshape (dims w) v).
Lemma assign_same (w v : ten A) : dims v = dims w -> assign w v = Ok v.
Proof. intros E. unfold assign, same_shape. destruct (list_eq_dec Nat.eq_dec (dims w) (dims v)); congruence. Qed.
Lemma assign_dims (w v r : ten A) : assign w v = Ok r -> r = v /\ dims v = dims w.
Proof. unfold assign, same_shape. destruct (list_eq_dec Nat.eq_dec (dims w) (dims v)); intros E; [injection E; intros; subst; auto|discriminate E]. Qed.
Lemma assign_all_tail old new : Forall2 (fun w v : ten A => psize (dims w) = psize (dims v)) old new ->
  exists rs, assign_all reshape_as old new = Ok rs /\ map dims rs = map dims old /\ Forall2 reshaped rs new.
Proof.
  induction 1 as [|w v old new H _ (rs & E & D & F)]; [exists []; repeat constructor|]. destruct (reshape_ok (dims w) v H) as (r & Er & Dr & Vr). cbn [assign_all]. rewrite Er, assign_same, E by exact Dr.
  exists (r :: rs). split; [reflexivity|]. split; [cbn; congruence|]. constructor; [|exact F]. split; [congruence|]. rewrite Dr. exact Vr.
Qed.
Lemma assign_all_head first (w v r : ten A) old new : first w v = Ok r -> dims r = dims w -> Forall2 (fun w v : ten A => psize (dims w) = psize (dims v)) old new ->
  exists rs, assign_all first (w :: old) (v :: new) = Ok (r :: rs) /\ map dims rs = map dims old /\ Forall2 reshaped rs new.
Proof.
  intros E Dr F. destruct (assign_all_tail _ _ F) as (rs & Er & D & R). exists rs. cbn [assign_all]. rewrite E, assign_same, Er by exact Dr. auto.
Qed.
Lemma assign_all_dims first (old new rs : list (ten A)) : assign_all first old new = Ok rs -> map dims rs = map dims old.
Proof.
  revert first new rs. induction old as [|w old IH]; intros first new rs E; [cbn in E; injection E; intros; subst; reflexivity|]. destruct new as [|v new]; [discriminate E|]. cbn [assign_all] in E.
  destruct (first w v) as [v1|]; [|discriminate E]. destruct (assign w v1) as [v2|] eqn:E2; [|discriminate E]. destruct (assign_all _ old new) as [r|] eqn:E3; [|discriminate E]. injection E; intros; subst.
  apply assign_dims in E2. destruct E2 as [-> E2]. cbn [map]. rewrite E2, (IH _ _ _ E3). reflexivity.
Qed.
Definition masked k0 k1 c m (W K : ten A) : Prop := forall u v i e d, u < k0 -> v < k1 -> i < c -> e < c -> d < m -> val W [u; v; i; e * m + d] = if Nat.eqb i e then val K [u; v; e; d] else zero.
Definition loaded (c : config) (d : list nat) (ws : list (ten A)) (l : layer) : Prop :=
  match c with
  | DepthC k0 k1 m L _ _ => match kept l, ws with W :: bs', K :: bs => masked k0 k1 (depth (channels_first L) d) m W K /\ Forall2 reshaped bs' bs | _, _ => False end
  | NormC _ _ _ => Forall2 reshaped (kept l) ws /\ exists v r, rev (kept l) = v :: r /\ denom l = Some (denominator v)
  | _ => Forall2 reshaped (kept l) ws
  end.
Lemma Forall2_map {X Y Z} (f : X -> Z) (g : Y -> Z) (R : Z -> Z -> Prop) l m : Forall2 R (map f l) (map g m) -> Forall2 (fun a b => R (f a) (g b)) l m.
Proof.
  revert m. induction l as [|a l IH]; intros [|b m] H; cbn in H; inversion H; subst; constructor; auto.
Qed.
Lemma sizes_eq (old ws : list (ten A)) so sw : map dims old = so -> map dims ws = sw -> Forall2 (fun a b => psize a = psize b) so sw ->
  Forall2 (fun w v : ten A => psize (dims w) = psize (dims v)) old ws.
Proof. intros <- <- H. apply (Forall2_map dims dims (fun a b => psize a = psize b)), H. Qed.
Lemma norm_psize axis d : axis = 1 /\ length d = 1 \/ axis = 1 /\ length d = 3 \/ axis = 3 /\ length d = 3 -> psize (norm_shape axis (0 :: d)) = psize [nth (axis - 1) d 0].
Proof. intros H. destruct H as [[-> H]|[[-> H]|[-> H]]]; (repeat (destruct d as [|? d]; try discriminate H)); cbn; lia. Qed.
Lemma shapes_eq c d e : supported c d e -> match c with DepthC _ _ _ _ _ _ => False | _ => True end -> Forall2 (fun a b => psize a = psize b) (tfe_shapes c d) (keras_shapes c d).
Proof.
  intros S H. destruct c as [units b act|k0 k1 f L b act|k0 k1 m L b act|axis s k|f]; cbn [tfe_shapes keras_shapes]; try destruct H.
  - destruct b; repeat constructor.
  - destruct b; repeat constructor.
  - destruct S as [_ S]. apply norm_psize in S. generalize (2 + (if s then 1 else 0) + (if k then 1 else 0)). intros t. induction t; cbn [repeat]; constructor; assumption.
  - constructor.
Qed.
Lemma values_ok (c : config) k (ws : list (ten A)) : ws <> [] -> takes c k = true -> values (match c with NormC _ _ _ => true | _ => false end) (map (pair k) ws) = Ok ws.
Proof.
  intros H T. destruct ws as [|w ws]; [congruence|]. cbn [map values].
  assert (M : map snd (map (pair k) ws) = ws) by (rewrite map_map; apply map_id).
  destruct c, k; cbn in T; try discriminate T; cbn; rewrite M; reflexivity.
Qed.
Lemma set_ok c d e l k ws : inv c d l -> supported c d e -> map dims ws = keras_shapes c d -> ws <> [] -> takes c k = true ->
  exists l', set_layer l (map (pair k) ws) = Ok l' /\ inv c d l' /\ loaded c d ws l'.
Proof.
  intros (C & B & W & DN) S Dw Nw T. unfold set_layer, CloneModel.set_layer. rewrite C. pose proof (values_ok c k ws Nw T) as V.
  destruct c as [units b act|k0 k1 f L b act|k0 k1 m L b act|axis s q|f]; rewrite V.
  - destruct (assign_all_tail (kept l) ws) as (rs & E & D & R). { apply (sizes_eq _ _ _ _ W Dw), (shapes_eq _ _ _ S I). }
    rewrite E. eexists. split; [reflexivity|]. split; [|exact R]. unfold inv. cbn [cfg built kept denom]. repeat split; congruence.
  - destruct (assign_all_tail (kept l) ws) as (rs & E & D & R). { apply (sizes_eq _ _ _ _ W Dw), (shapes_eq _ _ _ S I). }
    rewrite E. eexists. split; [reflexivity|]. split; [|exact R]. unfold inv. cbn [cfg built kept denom]. repeat split; congruence.
  - destruct S as (c & h & w & ho & wo & -> & -> & <- & P1 & P2 & P3 & _). cbn [tfe_shapes keras_shapes] in W, Dw.
    assert (Hc : depth (channels_first L) (image (channels_first L) c h w) = c) by (unfold depth, image; destruct (channels_first L); reflexivity). rewrite Hc in *.
    apply map_cons in W. destruct W as (K' & bs' & Ek & Dk & Db). apply map_cons in Dw. destruct Dw as (K & bs & -> & DK & Db'). rewrite Ek.
    destruct (rearrange_ok zero one add mul sub opp RT k0 k0 c m K P3 DK) as (R & ER & DR & VR).
    destruct (assign_all_head (fun w v => rearrange zero one mul k0 k0 (nth 2 (dims w) 0) m v) K' K R bs' bs) as (rs & E & D & F); [cbv beta; rewrite Dk; exact ER|congruence| |].
    { apply (sizes_eq _ _ _ _ Db Db'). destruct b; repeat constructor. }
    rewrite E. eexists. split; [reflexivity|]. unfold inv, loaded. cbn [cfg built kept denom tfe_shapes map]. rewrite Hc, DR, D, Db. repeat split; try assumption.
  - destruct (assign_all_tail (kept l) ws) as (rs & E & D & R). { apply (sizes_eq _ _ _ _ W Dw), (shapes_eq _ _ _ S I). }
    rewrite E. destruct DN as (dn & En & Dn). rewrite En.
    assert (Q : exists v r, rev rs = v :: r /\ dims v = norm_shape axis (0 :: d)).
    { rewrite W in D. cbn [tfe_shapes] in D. destruct s, q; cbn [Nat.add repeat] in D; unmap D; cbn; eauto. }
    destruct Q as (v & r & Q & Dv). rewrite Q, assign_same by (cbn; congruence). eexists. split; [reflexivity|]. unfold inv, loaded. cbn [cfg built kept denom].
    split; [repeat split; try congruence; eexists; split; [reflexivity|]; exact Dv|]. split; [exact R|]. eauto.
  - destruct ws; [congruence|discriminate Dw].
Qed.
Lemma set_inv c d l ws l' : inv c d l -> set_layer l ws = Ok l' -> inv c d l'.
Proof.
  intros (C & B & W & DN) E. unfold set_layer, CloneModel.set_layer in E. rewrite C in E.
  destruct c as [units b act|k0 k1 f L b act|k0 k1 m L b act|axis s q|f];
    (destruct (values _ ws) as [vs|]; [|discriminate E]); (destruct (assign_all _ (kept l) vs) as [rs|] eqn:Er; [|discriminate E]); apply assign_all_dims in Er;
    try (injection E; intros <-; unfold inv; cbn [cfg built kept denom]; repeat split; congruence).
  destruct (rev rs) as [|v r] eqn:Ev; [discriminate E|]. destruct DN as (dn & En & Dn). rewrite En in E. destruct (assign dn (denominator v)) as [dn'|] eqn:Ed; [|discriminate E]. injection E; intros <-.
  apply assign_dims in Ed. destruct Ed as [-> Ed]. unfold inv; cbn [cfg built kept denom]. repeat split; try congruence. eexists. split; [reflexivity|]. congruence.
Qed.

(** A layer with the weights of a layer of tf.keras computes the same. *)
Lemma reshaped_same (r v : ten A) idx : reshaped r v -> dims r = dims v -> within idx (dims v) -> val r idx = val v idx.
Proof. intros [_ H] D W. apply H; rewrite ?D; auto. Qed.
Lemma corr_ext img K K' c kh kw sh sw b g i j : (forall u v ch, u < kh -> v < kw -> ch < c -> at4 K u v ch g = at4 K' u v ch g) ->
  correlation zero add mul img (at4 K) c kh kw sh sw b g i j = correlation zero add mul img (at4 K') c kh kw sh sw b g i j.
Proof.
  intros H. unfold correlation. apply (sigma_ext zero one add mul sub opp RT). intros u Hu. apply (sigma_ext zero one add mul sub opp RT). intros v Hv. apply (sigma_ext zero one add mul sub opp RT). intros ch Hc.
  rewrite H by assumption. reflexivity.
Qed.
Lemma bias_same (b' b : list (ten A)) f g v : Forall2 reshaped b' b -> map dims b' = [] /\ map dims b = [] \/ map dims b' = [[f; 1; 1]] /\ map dims b = [[f]] -> g < f -> bias3 add (bias_opt b') g v = shifted add b g v.
Proof.
  intros F [[E1 E2]|[E1 E2]] Hg.
  - apply map_nil in E1, E2. subst. reflexivity.
  - apply map_one in E1, E2. destruct E1 as (w & -> & D1). destruct E2 as (w' & -> & D2). inversion F as [|? ? ? ? [_ R] _]; subst. cbn [bias_opt bias3 shifted]. f_equal.
    apply R; rewrite ?D1, ?D2; [apply w3; lia|repeat constructor; exact Hg|cbn; lia].
Qed.
Lemma keras_of c d e l ws x z n : inv c d l -> supported c d e -> map dims ws = keras_shapes c d -> dims x = n :: d -> loaded c d ws l -> sem c l x z -> keras c ws x z.
Proof.
  intros (C & B & W & DN) S Dw Dx Ld M. unfold sem in M. destruct c as [units b act|k0 k1 f L b act|k0 k1 m L b act|axis s q|f].
  - cbn [loaded keras_shapes tfe_shapes] in *. destruct (kept l) as [|K' bs']; [discriminate W|]. destruct ws as [|K bs]; [discriminate Dw|]. cbn [map] in W, Dw. injection W; clear W; intros W Dk. injection Dw; clear Dw; intros Dw DK.
    inversion Ld as [|? ? ? ? RK RB]; subst. destruct M as (n' & q & y & Dx' & Dy & Ac & V). exists n', q, y. repeat (split; [assumption|]). intros i j Hi Hj. rewrite V by assumption.
    rewrite Dx in Dx'. injection Dx'; intros -> <-. cbn [nth] in *.
    rewrite (sigma_ext zero one add mul sub opp RT q _ (fun k => mul (val x [i; k]) (val K [k; j]))).
    + destruct b; [apply map_one in W, Dw; destruct W as (w & -> & D1); destruct Dw as (w' & -> & D2)|apply map_nil in W, Dw; subst; reflexivity].
      inversion RB as [|? ? ? ? R _]; subst. cbn [shifted]. f_equal. apply reshaped_same; [exact R|congruence|]. rewrite D2. repeat constructor. exact Hj.
    + intros k Hk. f_equal. apply reshaped_same; [exact RK|congruence|]. rewrite DK. apply w2; assumption.
  - cbn [loaded keras_shapes tfe_shapes] in *. destruct (kept l) as [|K' bs']; [discriminate W|]. destruct ws as [|K bs]; [discriminate Dw|]. cbn [map] in W, Dw. injection W; clear W; intros W Dk. injection Dw; clear Dw; intros Dw DK.
    inversion Ld as [|? ? ? ? RK RB]; subst. destruct M as (n' & c & h & w & ho & wo & top & left & y & h0 & h1 & Dk' & Dx' & Dy & Ac & W0 & W1 & T0 & T1 & V).
    rewrite Dk in Dk'. injection Dk'; intros Ec <- <-. exists n', c, h, w, ho, wo, top, left, y. cbv zeta. repeat (split; [assumption|]). intros b0 g i j Hb Hg Hi Hj. rewrite V by assumption.
    rewrite (bias_same bs' bs f g _ RB) by (first [exact Hg|destruct b; [right|left]; auto]).
    f_equal. apply corr_ext. intros u v ch Hu Hv Hc. unfold at4. apply reshaped_same; [exact RK|congruence|]. rewrite DK. apply w4; try assumption. rewrite Ec. exact Hc.
  - cbn [loaded keras_shapes tfe_shapes] in *. destruct (kept l) as [|K' bs']; [discriminate W|]. destruct ws as [|K bs]; [discriminate Dw|]. cbn [map] in W, Dw. injection W; clear W; intros W Dk. injection Dw; clear Dw; intros Dw DK.
    destruct Ld as [RK RB]. destruct M as (c0 & n' & c & h & w & ho & wo & top & left & y & h0 & h1 & Dk' & Dx' & Dy & Ac & W0 & W1 & T0 & T1 & V).
    rewrite Dk in Dk'. injection Dk'; intros Ec' Ec <- <-. rewrite Ec in *. rewrite <- Ec' in *. exists n', c, h, w, ho, wo, top, left, y. cbv zeta. repeat (split; [assumption|]).
    intros b0 ch dd i j Hb Hch Hd Hi Hj. assert (J : ch * m + dd < c * m) by nia. rewrite V by assumption.
    rewrite (bias_same bs' bs (c * m) (ch * m + dd) _ RB) by (first [exact J|destruct b; [right|left]; auto]).
    f_equal. apply (depth_correlation zero one add mul sub opp RT _ K' K k0 k1 c m); assumption.
  - destruct Ld as [F (v & r & Ev & En)]. rewrite En in M. destruct (supported_normal _ _ _ _ _ n S) as (N & Hx & ->). cbn [tfe_shapes keras_shapes] in W, Dw.
    assert (X : forall idx (w' w : ten A), reshaped w' w -> dims w' = norm_shape axis (0 :: d) -> dims w = [nth (axis - 1) d 0] -> within idx (dims x) -> val w' (chan axis idx) = val w [nth axis idx 0]).
    { intros idx w' w [_ R] D1 D2 Wi. rewrite Dx in Wi. clear -R D1 D2 Wi N. rewrite D1, D2 in R. destruct N as [[-> N]|[[-> N]|[-> N]]];
        (repeat (destruct d as [|? d]; cbn in N; try discriminate N)); repeat match goal with W : within _ _ |- _ => inversion W; clear W; subst | W : Forall2 _ _ _ |- _ => inversion W; clear W; subst end;
        (apply R; [cbn; repeat constructor; assumption|repeat constructor; assumption|cbn; lia]). }
    cbn [keras] in *. destruct s, q; cbn [Nat.add repeat] in W, Dw; unmap W; unmap Dw;
      repeat match goal with F : Forall2 reshaped _ _ |- _ => inversion F; clear F; subst end; cbn in Ev; injection Ev; intros; subst;
      (destruct M as [Dz V]; split; [exact Dz|]; intros idx Wi; rewrite V by exact Wi; cbv zeta;
       repeat (erewrite (X idx); [|eassumption|assumption|eassumption|exact Wi]); cbn [denominator CloneModel.denominator val]; repeat (erewrite (X idx); [|eassumption|assumption|eassumption|exact Wi]); reflexivity).
  - cbn [keras_shapes] in Dw. apply map_nil in Dw. subst ws. exact M.
Qed.
End CloneM.
