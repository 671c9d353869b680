(** Proofs about the weights of tfe.keras models: whole models. *)
From Coq Require Import List Arith Bool Lia Ring Ring_theory.
From Verif Require Import ConvModel ConvSpec ConvProofs CloneModel CloneSpec CloneProofs CloneMain.
Import ListNotations.

Section CloneN.
Context {A : Type} (zero one : A) (add mul sub : A -> A -> A) (opp : A -> A) (RT : ring_theory zero one add mul sub opp eq).
Context (sqrt recip : A -> A) (epsilon : A).
Notation config := (config (A:=A)).
Notation layer := (layer (A:=A)).
Notation model := (model (A:=A)).
Notation call := (call zero add mul sub).
Notation run := (run zero add mul sub).
Notation from_config := (from_config zero one add mul sub sqrt recip epsilon).
Notation set_layer := (set_layer zero one add mul sqrt recip epsilon).
Notation set_all := (set_all zero one add mul sqrt recip epsilon).
Notation set_weights := (set_weights zero one add mul sqrt recip epsilon).
Notation keras := (keras zero add mul sub sqrt recip epsilon).
Notation keras_net := (keras_net zero add mul sub sqrt recip epsilon).
Notation made := (made zero one add mul sub sqrt recip epsilon).
Notation loaded := (loaded zero add sqrt recip epsilon).

Lemma supported_unique (c : config) d e e' : supported c d e -> supported c d e' -> e = e'.
Proof.
  destruct c as [units b act|k0 k1 f L b act|k0 k1 m L b act|axis s q|f]; cbn.
  - intros (_ & -> & _) (_ & -> & _). reflexivity.
  - intros (c & h & w & ho & wo & -> & -> & _ & _ & _ & _ & _ & _ & W0 & W1 & _) (c' & h' & w' & ho' & wo' & E & -> & _ & _ & _ & _ & _ & _ & W0' & W1' & _).
    assert (X : c = c' /\ h = h' /\ w = w') by (unfold image in E; destruct (channels_first L); injection E; auto). destruct X as (<- & <- & <-).
    rewrite (windows_unique _ _ _ _ _ _ W0 W0'), (windows_unique _ _ _ _ _ _ W1 W1'). reflexivity.
  - intros (c & h & w & ho & wo & -> & -> & _ & _ & _ & _ & _ & _ & W0 & W1 & _) (c' & h' & w' & ho' & wo' & E & -> & _ & _ & _ & _ & _ & _ & W0' & W1' & _).
    assert (X : c = c' /\ h = h' /\ w = w') by (unfold image in E; destruct (channels_first L); injection E; auto). destruct X as (<- & <- & <-).
    rewrite (windows_unique _ _ _ _ _ _ W0 W0'), (windows_unique _ _ _ _ _ _ W1 W1'). reflexivity.
  - intros [-> _] [-> _]. reflexivity.
  - intros H H'. destruct (H 0 (Ten (0 :: d) (fun _ => zero)) eq_refl) as (z & E & D). destruct (H' 0 (Ten (0 :: d) (fun _ => zero)) eq_refl) as (z' & E' & D'). congruence.
Qed.
Lemma supported_instantiate (c : config) d e : supported c d e -> instantiate c = Ok c.
Proof.
  destruct c as [units b act|k0 k1 f L b act|k0 k1 m L b act|axis s q|f]; cbn; try reflexivity.
  - intros (? & ? & ? & ? & ? & _ & _ & -> & _). rewrite Nat.eqb_refl. reflexivity.
  - intros (? & ? & ? & ? & ? & _ & _ & -> & _). rewrite Nat.eqb_refl. reflexivity.
  - intros [_ [[-> _]|[[-> _]|[-> _]]]]; reflexivity.
Qed.

(** The layers of a model are built for the samples that they get. *)
Fixpoint inv_net (cs : list config) (d : list nat) (ls : list layer) : Prop :=
  match cs, ls with
  | [], [] => True
  | c :: cs, l :: ls => inv c d l /\ exists e, supported c d e /\ inv_net cs e ls
  | _, _ => False
  end.
Definition head (input : ten A) (M : model) (x : ten A) : Prop := layers M = [] /\ x = input \/ layers M <> [] /\ outputs M = Some x.
Lemma from_config_ok init input cs d d' : supported_net cs d d' -> forall i M x n, head input M x -> dims x = n :: d ->
  exists M', from_config init (Some input) i M cs = Ok M' /\ exists ls, layers M' = layers M ++ ls /\ inv_net cs d ls.
Proof.
  revert d. induction cs as [|c cs IH]; intros d S i M x n H Dx.
  - exists M. split; [reflexivity|]. exists []. split; [symmetry; apply app_nil_r|exact I].
  - destruct S as (e & S & S'). cbn [CloneModel.from_config]. rewrite (supported_instantiate c d e S).
    destruct (build_ok zero one add mul sub opp RT sqrt recip epsilon (init i) c d e n S) as (l & El & Il).
    destruct (call_ok zero one add mul sub opp RT c d e l x n Il S Dx) as (z & Ez & Dz & _).
    assert (Q : add_layer zero one add mul sub sqrt recip epsilon (init i) (Some input) M c = Ok (Model (layers M ++ [l]) (Some z))).
    { unfold add_layer, apply. cbn [built cfg]. destruct H as [[H ->]|[H O]].
      - rewrite H. rewrite Dx, El, Ez. reflexivity.
      - rewrite O. destruct (layers M); [congruence|]. rewrite Dx, El, Ez. reflexivity. }
    rewrite Q. destruct (IH e S' (Datatypes.S i) (Model (layers M ++ [l]) (Some z)) z n) as (M' & E' & ls & L' & I'); [|exact Dz|].
    { right. cbn. split; [destruct (layers M); discriminate|reflexivity]. }
    exists M'. split; [exact E'|]. exists (l :: ls). cbn [layers] in L'. rewrite L', <- app_assoc. split; [reflexivity|]. split; [exact Il|]. exists e. auto.
Qed.
Lemma set_all_inv cs d ls wss ls' : inv_net cs d ls -> set_all ls wss = Ok ls' -> inv_net cs d ls'.
Proof.
  revert cs d wss ls'. induction ls as [|l ls IH]; intros cs d wss ls' I0 E.
  - destruct cs; [|destruct I0]. destruct wss as [|ws wss]; [cbn in E; injection E; intros <-; exact I|]. cbn [CloneModel.set_all] in E.
    assert (X : ls' = []). { destruct ws; cbn in E; [|discriminate E]. destruct (forallb _ wss); [injection E; auto|discriminate E]. } subst. exact I.
  - destruct cs as [|c cs]; [destruct I0|]. destruct I0 as (Il & e & S & I0). destruct wss as [|ws wss]; [cbn in E; injection E; intros <-; split; eauto|]. cbn [CloneModel.set_all] in E.
    destruct ws as [|w ws].
    + destruct (set_all ls wss) as [r|] eqn:Er; [|discriminate E]. injection E; intros <-. split; [exact Il|]. exists e. split; [exact S|]. apply (IH _ _ _ _ I0 Er).
    + destruct (set_layer l (w :: ws)) as [l1|] eqn:El; [|discriminate E]. destruct (set_all ls wss) as [r|] eqn:Er; [|discriminate E]. injection E; intros <-. split; [apply (set_inv zero one add mul sqrt recip epsilon _ _ _ _ _ Il El)|]. exists e. split; [exact S|]. apply (IH _ _ _ _ I0 Er).
Qed.
Lemma made_inv init input cs d d' n M : made init input cs M -> supported_net cs d d' -> dims input = n :: d -> inv_net cs d (layers M).
Proof.
  intros H S D. induction H as [M E|M g M' H IH E].
  - destruct (from_config_ok init input cs d d' S 0 (Model [] None) input n) as (M1 & E1 & ls & L & Q); [left; auto|exact D|]. rewrite E1 in E. injection E; intros <-. rewrite L. exact Q.
  - unfold set_weights, CloneModel.set_weights in E. destruct g as [[|w ws]|[|w wss]]; try discriminate E;
      (destruct (CloneModel.set_all _ _ _ _ _ _ _ (layers M) _) as [ls|] eqn:El; [|discriminate E]); injection E; intros <-; cbn [layers]; apply (set_all_inv _ _ _ _ _ IH El).
Qed.

(** Setting all weights. *)
Fixpoint loaded_net (cs : list config) (wss : list (list (ten A))) (d : list nat) (ls : list layer) : Prop :=
  match cs, wss, ls with
  | [], [], [] => True
  | c :: cs, ws :: wss, l :: ls => inv c d l /\ loaded c d ws l /\ map dims ws = keras_shapes c d /\ exists e, supported c d e /\ loaded_net cs wss e ls
  | _, _, _ => False
  end.
Lemma keras_shapes_nil (c : config) d : keras_shapes c d = [] -> tfe_shapes c d = [] /\ exists f, c = PlainC f.
Proof. destruct c as [units b act|k0 k1 f L b act|k0 k1 m L b act|axis s q|f]; cbn; try discriminate. eauto. Qed.
Lemma shapes_length (c : config) d : length (tfe_shapes c d) = length (keras_shapes c d).
Proof. destruct c as [units b act|k0 k1 f L b act|k0 k1 m L b act|axis s q|f]; cbn [tfe_shapes keras_shapes]; try (destruct b; reflexivity); [|reflexivity]. rewrite !repeat_length. reflexivity. Qed.
Lemma set_all_ok cs d ls wss ks : inv_net cs d ls -> weighted cs wss d -> Forall2 (fun c k => takes c k = true) cs ks ->
  exists ls', set_all ls (tagged ks wss) = Ok ls' /\ loaded_net cs wss d ls'.
Proof.
  intros I0 W T. revert d ls wss I0 W. induction T as [|c k cs ks Tk T IH]; intros d ls wss I0 W.
  - destruct wss; [|destruct W]. destruct ls; [|destruct I0]. exists []. split; [reflexivity|exact I].
  - destruct wss as [|ws wss]; [destruct W|]. destruct ls as [|l ls]; [destruct I0|]. destruct I0 as (Il & e & S & I0). destruct W as (Dw & e' & S' & W). rewrite (supported_unique _ _ _ _ S' S) in W.
    destruct (IH e ls wss I0 W) as (ls' & E & Q). unfold tagged in *. cbn [combine map]. destruct ws as [|w ws].
    + cbn [map CloneModel.set_all]. rewrite E. exists (l :: ls'). split; [reflexivity|]. cbn [loaded_net]. split; [exact Il|]. split; [|split; [exact Dw|]; exists e; auto].
      symmetry in Dw. destruct (keras_shapes_nil _ _ Dw) as (N & f & ->). destruct Il as (_ & _ & Dk & _). rewrite N in Dk. apply map_nil in Dk. cbn [CloneMain.loaded]. rewrite Dk. constructor.
    + destruct (set_ok zero one add mul sub opp RT sqrt recip epsilon c d e l k (w :: ws) Il S Dw ltac:(discriminate) Tk) as (l' & El & Il' & Ll').
      cbn [map] in El |- *. cbn [CloneModel.set_all]. rewrite El, E. exists (l' :: ls'). split; [reflexivity|]. cbn [loaded_net]. repeat (split; [assumption|]). exists e. auto.
Qed.
Lemma split_ok cs d ls wss ks : inv_net cs d ls -> weighted cs wss d -> length ks = length wss -> split ls (concat (tagged ks wss)) = tagged ks wss.
Proof.
  revert d ls wss ks. induction cs as [|c cs IH]; intros d ls wss ks I0 W Lk.
  - destruct wss; [|destruct W]. destruct ls; [|destruct I0]. destruct ks; [reflexivity|discriminate Lk].
  - destruct wss as [|ws wss]; [destruct W|]. destruct ls as [|l ls]; [destruct I0|]. destruct ks as [|k ks]; [discriminate Lk|]. destruct I0 as ((_ & _ & Dk & _) & e & S & I0). destruct W as (Dw & e' & S' & W). rewrite (supported_unique _ _ _ _ S' S) in W.
    assert (N : length (kept l) = length (map (pair k) ws)). { rewrite map_length. rewrite <- (map_length dims (kept l)), Dk, shapes_length, <- Dw, map_length. reflexivity. }
    unfold tagged in *. cbn [combine map concat split]. rewrite N, firstn_app, firstn_all, Nat.sub_diag, skipn_app, skipn_all, Nat.sub_diag. cbn [firstn skipn app]. rewrite app_nil_r. f_equal. apply (IH e ls wss ks I0 W). injection Lk; auto.
Qed.
Lemma run_ok cs wss d ls d' n x : loaded_net cs wss d ls -> supported_net cs d d' -> dims x = n :: d -> exists z, run ls x = Ok z /\ dims z = n :: d' /\ keras_net cs wss x z.
Proof.
  revert wss d ls x. induction cs as [|c cs IH]; intros wss d ls x Q S Dx.
  - destruct wss; [|destruct Q]. destruct ls; [|destruct Q]. cbn in S. subst d'. exists x. repeat split; assumption.
  - destruct wss as [|ws wss]; [destruct Q|]. destruct ls as [|l ls]; [destruct Q|]. destruct Q as (Il & Ll & Dw & e' & S1 & Q). destruct S as (e & S0 & S). rewrite (supported_unique _ _ _ _ S1 S0) in Q.
    destruct (call_ok zero one add mul sub opp RT c d e l x n Il S0 Dx) as (y & Ey & Dy & Se).
    destruct (IH wss e ls y Q S Dy) as (z & Ez & Dz & Kz). exists z. cbn [CloneModel.run]. rewrite Ey. split; [exact Ez|]. split; [exact Dz|]. exists y. split; [|exact Kz].
    apply (keras_of zero one add mul sub opp RT sqrt recip epsilon c d e l ws x y n); assumption.
Qed.
Lemma set_weights_ok cs wss ks d d' M g : inv_net cs d (layers M) -> cs <> [] -> supported_net cs d d' -> weighted cs wss d -> Forall2 (fun c k => takes c k = true) cs ks -> written ks wss g ->
  exists M', set_weights M g = Ok M' /\ forall n x, dims x = n :: d -> exists z, run (layers M') x = Ok z /\ dims z = n :: d' /\ keras_net cs wss x z.
Proof.
  intros I0 N S W T (Lk & G). destruct (set_all_ok cs d (layers M) wss ks I0 W T) as (ls & E & Q). exists (Model ls (outputs M)).
  split; [|intros n x Dx; apply (run_ok cs wss d ls d' n x Q S Dx)]. destruct G as [->|[Nz ->]].
  - unfold set_weights, CloneModel.set_weights. destruct (tagged ks wss) as [|w r] eqn:Et; [|rewrite E; reflexivity].
    destruct cs; [congruence|]. destruct wss; [destruct W|]. destruct ks; [discriminate Lk|]. discriminate Et.
  - unfold set_weights, CloneModel.set_weights. destruct (concat (tagged ks wss)) as [|w r] eqn:Et.
    + exfalso. apply Nz. clear -Et Lk. revert ks Lk Et. induction wss as [|ws wss IH]; intros [|k ks] Lk Et; cbn in *; try reflexivity; try discriminate Lk. apply app_eq_nil in Et. destruct Et as [E1 E2]. apply map_eq_nil in E1. subst ws. apply (IH ks); [injection Lk; auto|exact E2].
    + rewrite <- Et, (split_ok cs d (layers M) wss ks I0 W Lk), E. reflexivity.
Qed.
End CloneN.
