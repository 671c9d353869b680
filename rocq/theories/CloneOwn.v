(** Proofs about the weights of tfe.keras models: setting the weights that a model has. *)
From Coq Require Import List Arith Bool Lia Ring Ring_theory.
From Verif Require Import ConvModel ConvSpec ConvProofs CloneModel CloneSpec CloneProofs CloneMain CloneNet.
Import ListNotations.

Section CloneO.
Context {A : Type} (zero one : A) (add mul sub : A -> A -> A) (opp : A -> A) (RT : ring_theory zero one add mul sub opp eq).
Context (sqrt recip : A -> A) (epsilon : A).
Add Ring Aring10 : RT.
Notation config := (config (A:=A)).
Notation layer := (layer (A:=A)).
Notation model := (model (A:=A)).
Notation build := (build zero one add mul sqrt recip epsilon).
Notation from_config := (from_config zero one add mul sub sqrt recip epsilon).
Notation set_layer := (set_layer zero one add mul sqrt recip epsilon).
Notation set_all := (set_all zero one add mul sqrt recip epsilon).
Notation set_weights := (set_weights zero one add mul sqrt recip epsilon).
Notation made := (made zero one add mul sub sqrt recip epsilon).
Notation denominator := (denominator add sqrt recip epsilon).
Notation within := CloneSpec.within.

(** What every layer keeps: kernels of DepthwiseConv2D are masked, the denominator belongs to the variance, and only normalizations have one. *)
Definition tidy (l : layer) : Prop :=
  match cfg l with
  | DepthC k0 k1 m _ _ _ => denom l = None /\ forall W r, kept l = W :: r -> exists c, dims W = [k0; k1; c; c * m] /\ forall u v i e d, u < k0 -> v < k1 -> i < c -> e < c -> d < m -> i <> e -> val W [u; v; i; e * m + d] = zero
  | NormC _ _ _ => exists v r, rev (kept l) = v :: r /\ denom l = Some (denominator v)
  | _ => denom l = None
  end.
Lemma rearrange_tidy k0 k1 c m (K W : ten A) : rearrange zero one mul k0 k1 c m K = Ok W -> dims W = [k0; k1; c; c * m] ->
  forall u v i e d, u < k0 -> v < k1 -> i < c -> e < c -> d < m -> i <> e -> val W [u; v; i; e * m + d] = zero.
Proof.
  intros E D u v i e d Hu Hv Hi He Hd N. unfold rearrange in E. destruct (if 1 <? m then _ else _) as [K1|]; [|discriminate E]. unfold broadcasted in E.
  destruct (mask_ok zero one k0 k1 c m) as [Dk Vk]. destruct (broadcast _ _) as [q|]; [|discriminate E]. injection E; clear E; intros E. subst W. cbn [val]. rewrite Dk.
  rewrite (stretch_self [u; v; i; e * m + d] [k0; k1; c; c * m]) by (apply w4; try assumption; nia). rewrite Vk by assumption. destruct (Nat.eqb_spec i e); [congruence|]. ring.
Qed.
Lemma build_tidy init c d l : build init c d = Ok l -> tidy l.
Proof.
  unfold build, CloneModel.build. destruct c as [units b act|k0 k1 f L b act|k0 k1 m L b act|axis s q|f]; intros E.
  - destruct d as [|? [|? [|]]]; try discriminate E. injection E; intros <-. reflexivity.
  - destruct (channels _ d); [|discriminate E]. injection E; intros <-. reflexivity.
  - destruct (channels _ d) as [c|]; [|discriminate E]. destruct (rearrange zero one mul k0 k1 c m (Ten [k0; k1; c; m] (init 0 [k0; k1; c; m]))) as [W|] eqn:EW; [|discriminate E]. injection E; intros <-. cbn. split; [reflexivity|].
    intros W' r Q. injection Q; intros _ <-. exists c. destruct (Nat.eq_dec m 0) as [Z|Z].
    + subst m. unfold rearrange in EW. cbn [Nat.ltb Nat.leb] in EW. unfold broadcasted in EW. destruct (mask_ok zero one k0 k1 c 0) as [Dk _]. rewrite Dk in EW.
      destruct (broadcast _ _) as [q|] eqn:Eq; [|discriminate EW]. injection EW; intros <-. cbn [dims]. split; [|intros; lia]. cbn [dims] in Eq. rewrite broadcast_l in Eq by (rewrite Nat.mul_0_r; cbn; auto 10). rewrite Nat.mul_0_r in *. congruence.
    + destruct (rearrange_ok zero one add mul sub opp RT k0 k1 c m (Ten [k0; k1; c; m] (init 0 [k0; k1; c; m])) ltac:(lia) eq_refl) as (W2 & E2 & D2 & _). rewrite E2 in EW. injection EW; intros <-. split; [exact D2|]. apply (rearrange_tidy _ _ _ _ _ _ E2 D2).
  - destruct (_ || _); [|discriminate E]. destruct (nth_error d axis); [|discriminate E]. injection E; intros <-. cbn. rewrite !rev_app_distr. cbn. eauto.
  - injection E; intros <-. reflexivity.
Qed.
Lemma set_tidy l ws l' : tidy l -> set_layer l ws = Ok l' -> tidy l'.
Proof.
  intros T E. unfold set_layer, CloneModel.set_layer, tidy in *. destruct (cfg l) as [units b act|k0 k1 f L b act|k0 k1 m L b act|axis s q|f] eqn:C.
  - destruct (values _ ws); [|discriminate E]. destruct (assign_all _ _ _); [|discriminate E]. injection E; intros <-. exact T.
  - destruct (values _ ws); [|discriminate E]. destruct (assign_all _ _ _); [|discriminate E]. injection E; intros <-. exact T.
  - destruct (values _ ws) as [vs|]; [|discriminate E]. destruct T as [T1 T]. destruct (kept l) as [|W r] eqn:K.
    + cbn in E. injection E; intros <-. cbn. split; [exact T1|]. intros ? ? Q. discriminate Q.
    + destruct vs as [|v vs]; [discriminate E|]. cbn [assign_all] in E. destruct (T W r eq_refl) as (c & D & _). rewrite D in E. cbn [nth] in E.
      destruct (rearrange zero one mul k0 k1 c m v) as [R|] eqn:ER; [|discriminate E]. destruct (assign W R) as [R'|] eqn:EA; [|discriminate E]. apply assign_dims in EA. destruct EA as [-> DR].
      destruct (assign_all _ r vs); [|discriminate E]. injection E; intros <-. cbn. split; [exact T1|]. intros W' r' Q. injection Q; intros _ <-. exists c. split; [congruence|]. apply (rearrange_tidy _ _ _ _ _ _ ER). congruence.
  - destruct (values _ ws); [|discriminate E]. destruct (assign_all _ _ _) as [rs|]; [|discriminate E]. destruct (rev rs) as [|v r] eqn:R; [discriminate E|]. destruct (denom l); [|discriminate E]. destruct (assign t (denominator v)) as [dn|] eqn:EA; [|discriminate E]. injection E; intros <-.
    apply assign_dims in EA. destruct EA as [-> _]. cbn. eauto.
  - destruct (values _ ws); [|discriminate E]. destruct (assign_all _ _ _); [|discriminate E]. injection E; intros <-. exact T.
Qed.
Lemma set_all_tidy ls wss ls' : Forall tidy ls -> set_all ls wss = Ok ls' -> Forall tidy ls'.
Proof.
  intros T. revert wss ls'. induction T as [|l ls Tl T IH]; intros wss ls' E.
  - destruct wss as [|ws wss]; cbn [CloneModel.set_all] in E; [injection E; intros <-; constructor|]. assert (X : ls' = []). { destruct ws; cbn in E; [|discriminate E]. destruct (forallb _ wss); [injection E; auto|discriminate E]. } subst. constructor.
  - destruct wss as [|ws wss]; cbn [CloneModel.set_all] in E; [injection E; intros <-; constructor; assumption|]. destruct ws as [|w ws].
    + destruct (set_all ls wss) as [r|] eqn:Er; [|discriminate E]. injection E; intros <-. constructor; [exact Tl|]. apply (IH _ _ Er).
    + destruct (set_layer l (w :: ws)) as [l1|] eqn:El; [|discriminate E]. destruct (set_all ls wss) as [r|] eqn:Er; [|discriminate E]. injection E; intros <-. constructor; [apply (set_tidy _ _ _ Tl El)|]. apply (IH _ _ Er).
Qed.
Lemma from_config_tidy init input cs : forall i M M', outputs M <> None \/ layers M = [] -> Forall tidy (layers M) -> from_config init (Some input) i M cs = Ok M' -> Forall tidy (layers M').
Proof.
  induction cs as [|c cs IH]; intros i M M' O T E; [cbn in E; injection E; intros <-; exact T|]. cbn [CloneModel.from_config] in E. destruct (instantiate c) as [c'|]; [|discriminate E].
  destruct (add_layer _ _ _ _ _ _ _ _ _ _ M c') as [M1|] eqn:EA; [|discriminate E]. apply (IH _ _ _) in E; [exact E| |]; unfold add_layer, apply in EA; cbn [built cfg] in EA.
  - left. destruct (layers M) as [|l l0] eqn:LM.
    + destruct (build (init i) c' (dims input)) as [l1|]; [|discriminate EA]. destruct (CloneModel.call _ _ _ _ l1 input); [|discriminate EA]. injection EA; intros <-. discriminate.
    + destruct O as [O|O]; [|discriminate O]. destruct (outputs M) as [x|]; [|congruence]. destruct (build (init i) c' (dims x)) as [l1|]; [|discriminate EA]. destruct (CloneModel.call _ _ _ _ l1 x); [|discriminate EA]. injection EA; intros <-. discriminate.
  - destruct (layers M) as [|l l0] eqn:LM.
    + destruct (build (init i) c' (dims input)) as [l1|] eqn:EB; [|discriminate EA]. destruct (CloneModel.call _ _ _ _ l1 input); [|discriminate EA]. injection EA; intros <-. cbn. constructor; [apply (build_tidy _ _ _ _ EB)|constructor].
    + destruct O as [O|O]; [|discriminate O]. destruct (outputs M) as [x|]; [|congruence]. destruct (build (init i) c' (dims x)) as [l1|] eqn:EB; [|discriminate EA]. destruct (CloneModel.call _ _ _ _ l1 x); [|discriminate EA]. injection EA; intros <-. cbn [layers fst].
      change (Forall tidy ((l :: l0) ++ [l1])). apply Forall_app. split; [exact T|]. constructor; [apply (build_tidy _ _ _ _ EB)|constructor].
Qed.
Lemma made_tidy init input cs M : made init input cs M -> Forall tidy (layers M).
Proof.
  intros H. induction H as [M E|M g M' H IH E].
  - apply (from_config_tidy init input cs 0 (Model [] None) M); [right; reflexivity|constructor|exact E].
  - unfold set_weights, CloneModel.set_weights in E. destruct g as [[|w ws]|[|w wss]]; try discriminate E;
      (destruct (CloneModel.set_all _ _ _ _ _ _ _ (layers M) _) as [ls|] eqn:El; [|discriminate E]); injection E; intros <-; cbn [layers]; apply (set_all_tidy _ _ _ IH El).
Qed.

(** Setting the weights of a layer to what they are. *)
Lemma same_refl (t : ten A) : same t t.
Proof. split; auto. Qed.
Lemma reshape_self (w : ten A) : exists r, reshape (dims w) w = Ok r /\ same w r.
Proof.
  destruct (reshape_ok (dims w) w eq_refl) as (r & E & D & V). exists r. split; [exact E|]. split; [congruence|]. intros idx W. symmetry. apply V; auto.
Qed.
Lemma assign_self (ws : list (ten A)) : exists rs, assign_all (fun w v => reshape (dims w) v) ws ws = Ok rs /\ Forall2 same ws rs.
Proof.
  induction ws as [|w ws (rs & E & F)]; [exists []; split; [reflexivity|constructor]|]. destruct (reshape_self w) as (r & Er & S). cbn [assign_all]. rewrite Er, assign_same, E by (symmetry; apply S). eexists. split; [reflexivity|]. constructor; assumption.
Qed.
Lemma same_denominator (v v' : ten A) : same v v' -> same (denominator v) (denominator v').
Proof. intros [D V]. split; [exact D|]. intros idx W. cbn. rewrite (V idx W). reflexivity. Qed.
Lemma Forall2_rev {X Y} (R : X -> Y -> Prop) l m : Forall2 R l m -> Forall2 R (rev l) (rev m).
Proof. induction 1; [constructor|]. cbn. apply Forall2_app; [assumption|]. constructor; [assumption|constructor]. Qed.
Lemma own_layer c d e l : inv c d l -> supported c d e -> one_each c -> tidy l -> kept l <> [] ->
  exists l', set_layer l (map (pair (match cfg l with NormC _ _ _ => PubVar | _ => PrivVar end)) (kept l)) = Ok l' /\ same_layer l l'.
Proof.
  intros (C & B & W & DN) S O T N. unfold set_layer, CloneModel.set_layer. unfold tidy in T. rewrite C in *.
  assert (V : values (match c with NormC _ _ _ => true | _ => false end) (map (pair (match c with NormC _ _ _ => PubVar | _ => PrivVar end)) (kept l)) = Ok (kept l)) by (apply values_ok; [exact N|destruct c; reflexivity]).
  unfold same_layer. rewrite C.
  destruct c as [units b act|k0 k1 f L b act|k0 k1 m L b act|axis s q|f]; rewrite V.
  - destruct (assign_self (kept l)) as (rs & E & F). rewrite E. eexists. split; [reflexivity|]. cbn [cfg built kept denom]. rewrite T. auto.
  - destruct (assign_self (kept l)) as (rs & E & F). rewrite E. eexists. split; [reflexivity|]. cbn [cfg built kept denom]. rewrite T. auto.
  - destruct T as [T1 T]. cbn in O. subst m. destruct (kept l) as [|K bs]; [congruence|]. destruct (T K bs eq_refl) as (ch & DK & VK). destruct (assign_self bs) as (rs & E & F).
    rewrite Nat.mul_1_r in DK. assert (Q : exists R, rearrange zero one mul k0 k1 ch 1 K = Ok R /\ same K R).
    { clear F E. unfold rearrange. cbn [Nat.ltb Nat.leb]. destruct (mask_ok zero one k0 k1 ch 1) as [Dk Vk]. rewrite Nat.mul_1_r in Dk. destruct (broadcasted_l mul K (get_mask zero one k0 k1 ch 1)) as (R & ER & DR & VR). { rewrite DK, Dk. cbn. auto 10. }
      exists R. split; [exact ER|]. split; [congruence|]. intros idx Wi. rewrite VR by exact Wi. rewrite Dk, stretch_self by (rewrite DK in Wi; exact Wi). rewrite DK in Wi.
      repeat match goal with W : within _ _ |- _ => inversion W; clear W; subst | W : Forall2 _ _ _ |- _ => inversion W; clear W; subst end.
      match goal with |- val K [?u; ?v; ?i; ?j] = _ => pose proof (Vk u v i j 0) as Q; pose proof (VK u v i j 0) as Q' end. rewrite Nat.mul_1_r, Nat.add_0_r in Q, Q'. rewrite Q by (assumption || lia).
      match goal with |- context [Nat.eqb ?i ?j] => destruct (Nat.eqb_spec i j) as [Ei|Ei] end; [ring|]. rewrite Q' by (assumption || lia). ring. }
    destruct Q as (R & ER & SR). cbn [assign_all]. rewrite DK. cbn [nth]. rewrite ER, assign_same by (symmetry; apply SR). rewrite E. eexists. split; [reflexivity|]. cbn [cfg built kept denom]. rewrite T1. repeat split; auto.
  - destruct (assign_self (kept l)) as (rs & E & F). rewrite E. destruct T as (v & r & Ev & En). pose proof (Forall2_rev _ _ _ F) as G. rewrite Ev in G. inversion G as [|? v' ? r' Sv _ E1 E2]; subst. rewrite En. rewrite <- E2 || idtac.
    destruct (rev rs) as [|v1 r1] eqn:Er; [discriminate E2|]. injection E2; intros; subst. rewrite assign_same by (symmetry; apply Sv). eexists. split; [reflexivity|]. cbn [cfg built kept denom]. repeat split; auto; apply same_denominator; exact Sv.
  - destruct (kept l); [congruence|discriminate W].
Qed.
Lemma own_net cs d ls : inv_net cs d ls -> Forall one_each cs -> Forall tidy ls ->
  exists ls', set_all ls (map (fun l => map (pair (match cfg l with NormC _ _ _ => PubVar | _ => PrivVar end)) (kept l)) ls) = Ok ls' /\ Forall2 same_layer ls ls'.
Proof.
  revert cs d. induction ls as [|l ls IH]; intros cs d I0 O T; [exists []; split; [reflexivity|constructor]|]. destruct cs as [|c cs]; [destruct I0|]. destruct I0 as (Il & e & S & I0).
  inversion O as [|? ? O1 O2]; subst. inversion T as [|? ? T1 T2]; subst. destruct (IH cs e I0 O2 T2) as (ls' & E & F). cbn [map]. destruct (kept l) as [|w ws] eqn:K.
  - cbn [map CloneModel.set_all]. rewrite E. eexists. split; [reflexivity|]. constructor; [|exact F]. repeat split; try reflexivity; [rewrite K; constructor|]. destruct (denom l); [apply same_refl|exact I].
  - destruct (own_layer c d e l Il S O1 T1 ltac:(rewrite K; discriminate)) as (l' & El & Sl). rewrite K in El. cbn [map] in El |- *. cbn [CloneModel.set_all]. rewrite El, E. eexists. split; [reflexivity|]. constructor; assumption.
Qed.
End CloneO.
