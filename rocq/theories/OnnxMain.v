(** Proofs about whole converted ONNX models. *)
From Coq Require Import List Arith Bool Lia ZArith Permutation Ring Ring_theory.
From Verif Require Import ConvModel ConvSpec ConvProofs ConvGrad ConvBack OnnxModel OnnxSpec OnnxProofs OnnxLayers OnnxConv.
Import ListNotations.


Section OnnxM.
Context {A : Type} (zero one : A) (add mul sub : A -> A -> A) (opp : A -> A) (RT : ring_theory zero one add mul sub opp eq) (positive : A -> bool) (over : A -> nat -> A).
Add Ring Aring8 : RT.
Notation pairing := (OnnxSpec.pairing zero add mul).
Notation pairings := (OnnxSpec.pairings zero add mul).
Notation D := (@dual A).
Notation dzero := (OnnxSpec.dzero zero).
Notation dadd := (OnnxSpec.dadd add).
Notation dmul := (OnnxSpec.dmul add mul).
Notation dopp := (OnnxSpec.dopp opp).
Notation dpositive := (OnnxSpec.dpositive positive).
Notation meansD := (means dzero dadd dmul dopp dpositive).
Notation works := (OnnxProofs.works zero add mul opp positive over).
Notation returns := (OnnxProofs.returns zero add mul opp positive over).
Notation build_node := (@OnnxModel.build_node A).
Notation forward_node := (OnnxModel.forward_node zero add mul opp positive).
Notation backward_node := (OnnxModel.backward_node zero add mul opp positive over).

(** An input of a node as it is built. *)
Definition given (I : nat -> bool) (E : nat -> ten D) (i : nat) (a : arg A) : Prop :=
  if I i then exists t, a = Init t /\ same t (values (E i)) else a = Shape (shape_of (E i)).

Lemma node_ok o (I : nat -> bool) (E : nat -> ten D) ins y args (train : Prop) :
  supported o (map I ins) (map (fun i => dims (E i)) ins) -> meansD o (map E ins) y -> (forall i, In i ins -> full (E i)) -> full y ->
  (forall i, In i ins -> I i = false -> dims (E i) <> []) -> Forall2 (given I E) ins args -> (train -> trainable o (map I ins) (map (fun i => dims (E i)) ins)) ->
  exists ob, build_node o args = Ok (ob, shape_of y) /\ works o train (map E (filter (fun i => negb (I i)) ins)) (map E (filter I ins)) y ob.
Proof.
  intros S M F Fy N G T.
  destruct o; destruct ins as [|i [|j [|k [|l ins]]]]; cbn [map supported] in S; try contradiction;
    repeat match goal with H : context [I ?i] |- _ => match type of H with match I _ with _ => _ end => destruct (I i) eqn:? end end; try contradiction;
    repeat match goal with H : Forall2 (given _ _) (_ :: _) _ |- _ => inversion H; subst; clear H | H : Forall2 (given _ _) [] _ |- _ => inversion H; subst; clear H end;
    repeat match goal with H : given _ _ ?i _, Q : I ?i = _ |- _ => unfold given in H; rewrite Q in H end;
    repeat match goal with H : exists t, _ = Init t /\ _ |- _ => destruct H as (? & -> & ?) end; subst;
    cbn [filter map]; repeat match goal with Q : I _ = _ |- _ => rewrite Q end; cbn [negb map].
  - destruct (I j) eqn:Ij.
    + match goal with H : given I E j _ |- _ => unfold given in H; rewrite Ij in H; destruct H as (b & -> & Sb) end. cbn [negb map]. apply (add_init zero one add mul sub opp RT positive over); [exact M|apply N; [now left|assumption]|exact Sb|].
      intros Tr. specialize (T Tr). cbn [trainable map nth] in T. rewrite Ij in T. apply T. reflexivity.
    + match goal with H : given I E j _ |- _ => unfold given in H; rewrite Ij in H; subst end. cbn [negb map]. apply (add_data zero one add mul sub opp RT positive over); [exact M|apply N; [now left|assumption]|].
      intros Tr. specialize (T Tr). cbn [trainable map nth] in T. rewrite Ij in T. destruct (list_eq_dec Nat.eq_dec (dims (E j)) (dims (E i))) as [Q|Q]; [exact Q|]. apply T in Q. discriminate.
  - apply (sub_ok zero one add mul sub opp RT positive over), M.
  - apply (mul_ok zero one add mul sub opp RT positive over), M.
  - apply (neg_ok zero one add mul sub opp RT positive over), M.
  - apply (matmul_ok zero one add mul sub opp RT positive over); assumption.
  - destruct S as (t & r & ->). apply (gemm_ok zero one add mul sub opp RT positive over); assumption.
  - cbn [map means] in M. unfold convolved in M. cbn [trainable map nth] in T. destruct (borders pads) as [[[top lft] bottom] rgt] eqn:B. destruct S as (Hs & -> & <- & Sq).
    destruct M as (n & ch & h & v & k0 & k1 & f & ho & wo & Dx & Dw & Dy & W0 & W1 & M). cbn [nth] in Sq. rewrite Dw in Sq. cbn [nth] in Sq. subst k1.
    apply (conv_ok zero one add mul sub opp RT positive over (E i) (E j) y None s0 pads top lft rgt _ None n ch h v k0 f ho wo train); try assumption; try (apply F; cbn; tauto).
    + exact Logic.I.
    + rewrite Dx, Dw in T. cbn [nth] in T. intros Tr. apply T, Tr.
  - cbn [map means] in M. unfold convolved in M. cbn [trainable map nth] in T. destruct M as (M & Dc). destruct (borders pads) as [[[top lft] bottom] rgt] eqn:B. destruct S as (Hs & -> & <- & Sq).
    destruct M as (n & ch & h & v & k0 & k1 & f & ho & wo & Dx & Dw & Dy & W0 & W1 & M). cbn [nth] in Sq. rewrite Dw in Sq. cbn [nth] in Sq. subst k1. rewrite Dy in Dc. cbn [nth] in Dc.
    match goal with H : same ?b (values (E k)) |- _ =>
      apply (conv_ok zero one add mul sub opp RT positive over (E i) (E j) y (Some (E k)) s0 pads top lft rgt _ (Some b) n ch h v k0 f ho wo train); try assumption; try (apply F; cbn; tauto); [split; assumption|] end.
    rewrite Dx, Dw in T. cbn [nth] in T. intros Tr. apply T, Tr.
  - apply (relu_ok zero one add mul sub opp RT positive over), M.
  - apply (flatten_ok zero one add mul sub opp RT positive over); [apply F; now left|exact S|exact M].
  - apply (transpose_ok zero one add mul sub opp RT positive over); [apply N; [now left|assumption]|exact S|exact M].
Qed.

Lemma put_same {X} (d : dict X) k v : put d k v k = Some v. Proof. unfold put. rewrite Nat.eqb_refl. reflexivity. Qed.
Lemma put_other {X} (d : dict X) k v q : q <> k -> put d k v q = d q. Proof. unfold put. intros H. destruct (Nat.eqb_spec q k); [contradiction|reflexivity]. Qed.
Lemma initial_in {B} (g : graph B) i : initial g i = true <-> In i (map fst (ginit g)).
Proof.
  unfold initial. rewrite existsb_exists. split; [intros (j & Hj & E); apply Nat.eqb_eq in E; subst; exact Hj|]. intros H. exists i. split; [exact H|apply Nat.eqb_refl].
Qed.
Lemma folded {X} (l : list (nat * X)) : forall d i, (~ In i (map fst l) -> fold_left (fun d p => put d (fst p) (snd p)) l d i = d i) /\
  (In i (map fst l) -> exists v, In (i, v) l /\ fold_left (fun d p => put d (fst p) (snd p)) l d i = Some v).
Proof.
  induction l as [|(k, v) l IH]; intros d i; cbn [map fst snd fold_left]; [split; [reflexivity|intros []]|]. destruct (IH (put d k v) i) as [H0 H1]. destruct (in_dec Nat.eq_dec i (map fst l)) as [I|I].
  - split; [intros N; exfalso; apply N; now right|]. intros _. destruct (H1 I) as (w & Hw & E). exists w. split; [now right|exact E].
  - rewrite (H0 I). split; [intros N; apply put_other; intros ->; apply N; now left|]. intros [->|Q]; [|contradiction]. exists v. split; [now left|apply put_same].
Qed.
Lemma put_all_ok {X} ks : forall (d : dict X) vs, length vs = length ks -> NoDup ks -> exists d', put_all d ks vs = Ok d' /\ (forall i, ~ In i ks -> d' i = d i) /\ (forall P : nat -> X -> Prop, Forall2 P ks vs -> forall i, In i ks -> exists v, d' i = Some v /\ P i v).
Proof.
  induction ks as [|k ks IH]; intros d [|v vs] L N; try discriminate L; cbn [put_all].
  - exists d. split; [reflexivity|]. split; [reflexivity|]. intros P _ i [].
  - inversion N as [|? ? Nk Nks]; subst. destruct (IH (put d k v) vs) as (d' & E & O & G); [cbn in L; lia|exact Nks|]. exists d'. split; [exact E|]. split.
    + intros i Hi. rewrite O by (intros Q; apply Hi; now right). apply put_other. intros ->. apply Hi. now left.
    + intros P F i Hi. inversion F; subst. destruct Hi as [->|Hi]; [exists v; rewrite O by exact Nk; split; [apply put_same|assumption]|]. apply G; assumption.
Qed.
Lemma get_all_ok {X} (d : dict X) (P : nat -> X -> Prop) ks : (forall i, In i ks -> exists v, d i = Some v /\ P i v) -> exists vs, get_all d ks = Ok vs /\ Forall2 P ks vs /\ map d ks = map Some vs.
Proof.
  induction ks as [|k ks IH]; intros H; cbn [get_all]; [exists []; repeat split; constructor|]. destruct (H k (or_introl eq_refl)) as (v & E & Pv). rewrite E. destruct IH as (vs & E' & F & M); [intros i Hi; apply H; now right|]. rewrite E'.
  exists (v :: vs). split; [reflexivity|]. split; [constructor; assumption|]. cbn. rewrite E, M. reflexivity.
Qed.

Section G.
Context (g : graph A) (E : nat -> ten D) (train : Prop).
Context (SG : sound dzero dadd dmul dopp dpositive g E) (HI : Forall (fun p => same (snd p) (values (E (fst p)))) (ginit g)).
Context (TR : train -> Forall (fun n => trainable (nop n) (map (initial g) (nin n)) (map (fun i => dims (E i)) (nin n))) (gnodes g)).

Lemma ini_some i : initial g i = true -> exists t, initializers g i = Some t /\ same t (values (E i)).
Proof.
  intros H. apply initial_in in H. destruct (folded (ginit g) nothing i) as [_ Q]. destruct (Q H) as (v & Hv & Ev). exists v. split; [exact Ev|]. rewrite Forall_forall in HI. apply (HI (i, v) Hv).
Qed.
Lemma ini_none i : initial g i = false -> initializers g i = None.
Proof. intros H. destruct (folded (ginit g) nothing i) as [Q _]. unfold initializers. rewrite Q; [reflexivity|]. intros J. apply initial_in in J. congruence. Qed.
Lemma disjoint i : In i (gin g ++ results (gnodes g)) -> initial g i = false.
Proof.
  intros H. destruct (initial g i) eqn:Q; [|reflexivity]. exfalso. apply initial_in in Q. pose proof (once _ _ _ _ _ _ _ SG) as N. revert N Q H. generalize (map fst (ginit g)) as a. generalize (gin g ++ results (gnodes g)) as b.
  intros b a. induction a as [|x a IH]; intros N; [intros []|]. cbn in N. inversion N as [|? ? Nx Na]; subst. intros [->|Hi] Hb; [apply Nx, in_or_app; now right|exact (IH Na Hi Hb)].
Qed.

(** What is needed of a node. *)
Definition good (n : node) : Prop := exists y, nout n = [y] /\ initial g y = false /\ supported (nop n) (map (initial g) (nin n)) (map (fun i => dims (E i)) (nin n)) /\
  meansD (nop n) (map E (nin n)) (E y) /\ (forall i, In i (y :: nin n) -> full (E i) /\ (initial g i = false -> dims (E i) <> [])) /\
  (train -> trainable (nop n) (map (initial g) (nin n)) (map (fun i => dims (E i)) (nin n))).
Lemma all_good : Forall good (gnodes g).
Proof.
  pose proof (before _ _ _ _ _ _ _ SG) as O. pose proof (filled _ _ _ _ _ _ _ SG) as F. pose proof (batched _ _ _ _ _ _ _ SG) as Bt. pose proof (nodes_supported _ _ _ _ _ _ _ SG) as S. pose proof (nodes_mean _ _ _ _ _ _ _ SG) as M. pose proof disjoint as Dj.
  assert (K : incl (map fst (ginit g) ++ gin g) (map fst (ginit g) ++ gin g ++ results (gnodes g))). { intros i Hi. apply in_app_or in Hi as [Hi|Hi]; [apply in_or_app; now left|]. apply in_or_app. right. apply in_or_app. now left. }
  assert (R : incl (results (gnodes g)) (gin g ++ results (gnodes g))) by (intros i Hi; apply in_or_app; now right).
  clear SG HI. set (all := map fst (ginit g) ++ gin g ++ results (gnodes g)) in *. assert (RA : forall i, In i all -> initial g i = false -> In i (gin g ++ results (gnodes g))). { intros i Hi Q. unfold all in Hi. apply in_app_or in Hi as [Hi|Hi]; [apply initial_in in Hi; congruence|exact Hi]. }
  assert (AR : incl (gin g ++ results (gnodes g)) all). { intros i Hi. unfold all. apply in_or_app. now right. }
  revert O K R S M TR. generalize (map fst (ginit g) ++ gin g) as known. clearbody all. remember (gin g ++ results (gnodes g)) as dyn eqn:Ed. clear Ed. induction (gnodes g) as [|n l IH]; intros known O K R S M T; [constructor|].
  cbn in O. destruct O as (Hi & Ln & O). inversion S as [|? ? S1 S2]; subst. inversion M as [|? ? M1 M2]; subst. destruct (nout n) as [|y [|]] eqn:Ey; try discriminate Ln. inversion M1; subst.
  assert (Hy : In y dyn). { apply R. unfold results. cbn. rewrite Ey. now left. }
  constructor.
  - exists y. split; [exact Ey|]. split; [apply Dj, Hy|]. split; [exact S1|]. split; [assumption|]. split.
    + intros i [<-|Hn]; [split; [apply F, AR, Hy|intros _; apply Bt, Hy]|]. specialize (K i (Hi i Hn)). split; [apply F, K|intros Q; apply Bt, RA; assumption].
    + intros t. specialize (T t). inversion T; assumption.
  - apply (IH (y :: known)); [exact O| | |exact S2|exact M2|].
    + intros i [<-|Hk]; [apply AR, Hy|apply K, Hk].
    + intros i Hk. apply R. unfold results. cbn. apply in_or_app. now right.
    + intros t. specialize (T t). inversion T; assumption.
Qed.

Definition built (n : node) (ob : obj A) : Prop := forall y, nout n = [y] -> works (nop n) train (map E (data g n)) (map E (params g n)) (E y) ob.
Definition ready (n : node) (ob : obj A) : Prop := train -> forall y, nout n = [y] -> returns (nop n) (map E (data g n)) (map E (params g n)) (E y) ob.
Definition covers {X} (P : nat -> X -> Prop) (seen : list nat) (d : dict X) : Prop :=
  (forall i, In i seen -> initial g i = false -> exists v, d i = Some v /\ P i v) /\ (forall i, initial g i = true -> d i = None).
Lemma covers_put {X} (P : nat -> X -> Prop) seen (d : dict X) y v : covers P seen d -> initial g y = false -> P y v -> covers P (y :: seen) (put d y v).
Proof.
  intros [C0 C1] Hy Pv. split.
  - intros i [<-|Hi] Q; [exists v; split; [apply put_same|exact Pv]|]. destruct (Nat.eq_dec i y) as [->|N]; [exists v; split; [apply put_same|exact Pv]|]. rewrite put_other by exact N. apply C0; assumption.
  - intros i Hi. rewrite put_other by (intros ->; congruence). apply C1, Hi.
Qed.
Notation shape_is := (fun i s => s = shape_of (E i)).
Notation value_is := (fun i t => same t (values (E i))).

Lemma arguments_ok shapes seen ins : covers shape_is seen shapes -> incl ins seen -> exists args, arguments (initializers g) shapes ins = Ok args /\ Forall2 (given (initial g) E) ins args.
Proof.
  intros [C0 C1]. induction ins as [|i ins IH]; intros Hi; cbn [arguments]; [exists []; split; [reflexivity|constructor]|]. destruct IH as (args & Ea & F); [intros j Hj; apply Hi; now right|]. destruct (initial g i) eqn:Q.
  - destruct (ini_some i Q) as (t & Et & St). rewrite Et, Ea. exists (Init t :: args). split; [reflexivity|]. constructor; [|exact F]. unfold given. rewrite Q. exists t. split; [reflexivity|exact St].
  - rewrite (ini_none i Q). destruct (C0 i (Hi i (or_introl eq_refl)) Q) as (s & Es & ->). rewrite Es, Ea. exists (Shape (shape_of (E i)) :: args). split; [reflexivity|]. constructor; [|exact F]. unfold given. rewrite Q. reflexivity.
Qed.

Lemma build_ok l : forall seen objs shapes, Forall good l -> NoDup (map nname l) -> ordered seen l -> covers shape_is seen shapes ->
  exists objs' shapes', build_nodes (initializers g) l objs shapes = Ok (objs', shapes') /\ covers shape_is (rev (results l) ++ seen) shapes' /\
  (forall n, In n l -> exists ob, objs' (nname n) = Some ob /\ built n ob) /\ (forall q, ~ In q (map nname l) -> objs' q = objs q).
Proof.
  induction l as [|n l IH]; intros seen objs shapes G N O C; cbn [build_nodes].
  { exists objs, shapes. split; [reflexivity|]. split; [exact C|]. split; [intros n []|reflexivity]. }
  inversion G as [|? ? (y & Ey & Iy & S & M & F & T) G']; subst. cbn in N. inversion N as [|? ? Nn Nl]; subst. cbn in O. destruct O as (Hi & _ & O).
  destruct (arguments_ok shapes seen (nin n) C Hi) as (args & Ea & Fa). rewrite Ea.
  destruct (node_ok (nop n) (initial g) E (nin n) (E y) args train S M) as (ob & Eb & W).
  { intros i Hn. apply F. now right. } { apply F. now left. } { intros i Hn. apply F. now right. } { exact Fa. } { exact T. }
  rewrite Eb. cbn [fst snd]. rewrite Ey in *. cbn [put_all]. destruct (IH (y :: seen) (put objs (nname n) ob) (put shapes y (shape_of (E y))) G' Nl O) as (objs' & shapes' & Er & C' & B & U).
  { apply covers_put; [exact C|exact Iy|reflexivity]. }
  exists objs', shapes'. split; [exact Er|]. split; [|split].
  - unfold results. cbn [flat_map]. rewrite Ey. cbn. rewrite <- app_assoc. exact C'.
  - intros m [<-|Hm]; [|apply B, Hm]. exists ob. split; [rewrite U by exact Nn; apply put_same|]. intros y' E'. rewrite Ey in E'. injection E' as <-. exact W.
  - intros q Hq. rewrite U by (intros Q; apply Hq; now right). apply put_other. intros ->. apply Hq. now left.
Qed.

Lemma present_ok env seen ins : covers value_is seen env -> incl ins seen -> Forall2 same (present env ins) (map values (map E (filter (fun i => negb (initial g i)) ins))).
Proof.
  intros [C0 C1]. induction ins as [|i ins IH]; intros Hi; cbn [present filter map]; [constructor|]. assert (Hi' : incl ins seen) by (intros j Hj; apply Hi; now right). destruct (initial g i) eqn:Q; cbn [negb].
  - rewrite (C1 i Q). apply IH, Hi'.
  - destruct (C0 i (Hi i (or_introl eq_refl)) Q) as (t & Et & St). rewrite Et. cbn [map]. constructor; [exact St|apply IH, Hi'].
Qed.
Lemma forward_ok l : forall seen objs env, Forall good l -> NoDup (map nname l) -> ordered seen l -> covers value_is seen env -> (forall n, In n l -> exists ob, objs (nname n) = Some ob /\ built n ob) ->
  exists objs' env', forward_nodes zero add mul opp positive l objs env = Ok (objs', env') /\ covers value_is (rev (results l) ++ seen) env' /\
  (forall n, In n l -> exists ob, objs' (nname n) = Some ob /\ ready n ob) /\ (forall q, ~ In q (map nname l) -> objs' q = objs q) /\ same_layers objs' objs.
Proof.
  induction l as [|n l IH]; intros seen objs env G N O C B; cbn [forward_nodes].
  { exists objs, env. split; [reflexivity|]. split; [exact C|]. split; [intros n []|]. split; [reflexivity|intros q; reflexivity]. }
  inversion G as [|? ? (y & Ey & Iy & S & M & F & T) G']; subst. cbn in N. inversion N as [|? ? Nn Nl]; subst. cbn in O. destruct O as (Hi & _ & O).
  destruct (B n (or_introl eq_refl)) as (ob & Eo & W). rewrite Eo. destruct (W y Ey) as (Ek & W'). destruct (W' (present env (nin n)) (present_ok env seen (nin n) C Hi)) as (z & sv & Ez & Sz & R). rewrite Ez. cbn [fst snd].
  rewrite Ey in *. cbn [put_all]. destruct (IH (y :: seen) (put objs (nname n) (Obj (okind ob) (weights ob) (shape_in ob) sv)) (put env y z) G' Nl O) as (objs' & env' & Er & C' & B' & U & SL).
  { apply covers_put; [exact C|exact Iy|exact Sz]. }
  { intros m Hm. rewrite put_other; [apply B; now right|]. intros Q. apply Nn. rewrite <- Q. apply in_map, Hm. }
  exists objs', env'. split; [exact Er|]. split; [|split; [|split]].
  - unfold results. cbn [flat_map]. rewrite Ey. cbn. rewrite <- app_assoc. exact C'.
  - intros m [<-|Hm]; [|apply B', Hm]. eexists. split; [rewrite U by exact Nn; apply put_same|]. intros t y' E'. rewrite Ey in E'. injection E' as <-. rewrite Ek. exact (R t).
  - intros q Hq. rewrite U by (intros Q; apply Hq; now right). apply put_other. intros ->. apply Hq. now left.
  - intros q. rewrite (SL q). destruct (Nat.eq_dec q (nname n)) as [->|Q]; [rewrite put_same, Eo|rewrite put_other by exact Q]; reflexivity.
Qed.

(** ** The backward pass *)
Notation lsum := (fun l => fold_right add zero l).
Definition total (F : list nat) (dys : dict (ten A)) : A := lsum (map (fun i => match dys i with Some d => pairing d (slopes (E i)) | None => zero end) F).
Lemma lsum_app a b : lsum (a ++ b) = add (lsum a) (lsum b).
Proof. induction a as [|x a IH]; cbn; [ring|]. rewrite IH. ring. Qed.
Lemma total_app a b dys : total (a ++ b) dys = add (total a dys) (total b dys).
Proof. unfold total. rewrite map_app. apply lsum_app. Qed.
Lemma total_perm a b dys : Permutation a b -> total a dys = total b dys.
Proof. unfold total. intros P. induction P; cbn; [reflexivity|rewrite IHP; reflexivity|ring|congruence]. Qed.
Lemma total_ext a d d' : (forall i, In i a -> d i = d' i) -> total a d = total a d'.
Proof. unfold total. intros H. f_equal. apply map_ext_in. intros i Hi. rewrite (H i Hi). reflexivity. Qed.
Lemma total_pairings ks ds dys : Forall2 (fun i d => dys i = Some d) ks ds -> total ks dys = pairings ds (map slopes (map E ks)).
Proof. unfold total, OnnxSpec.pairings. induction 1 as [|i d ks ds H _ IH]; cbn; [reflexivity|]. rewrite H, IH. reflexivity. Qed.
Lemma put_all_vals {X} ks : forall (d : dict X) vs, length vs = length ks -> NoDup ks -> exists d', put_all d ks vs = Ok d' /\ (forall i, ~ In i ks -> d' i = d i) /\ Forall2 (fun i v => d' i = Some v) ks vs.
Proof.
  induction ks as [|k ks IH]; intros d [|v vs] L N; try discriminate L; cbn [put_all]; [exists d; split; [reflexivity|]; split; [reflexivity|constructor]|].
  inversion N as [|? ? Nk Nks]; subst. destruct (IH (put d k v) vs) as (d' & Ed & O & G); [cbn in L; lia|exact Nks|]. exists d'. split; [exact Ed|]. split.
  - intros i Hi. rewrite O by (intros Q; apply Hi; now right). apply put_other. intros ->. apply Hi. now left.
  - constructor; [rewrite O by exact Nk; apply put_same|exact G].
Qed.
Lemma grads_all known (dys : dict (ten A)) ins (ds : list (ten A)) : (forall i, In i ins -> initial g i = true -> known i = None) -> (forall i, In i ins -> initial g i = false -> exists s : list Z, known i = Some s) ->
  length ds = length (filter (fun i => negb (initial g i)) ins) -> put_grads known dys ins ds = put_all dys (filter (fun i => negb (initial g i)) ins) ds.
Proof.
  revert dys ds. induction ins as [|i ins IH]; intros dys ds K0 K1 L; cbn [put_grads filter]; [destruct ds; reflexivity|]. cbn [filter] in L.
  assert (K0' : forall j, In j ins -> initial g j = true -> known j = None) by (intros j Hj; apply K0; now right).
  assert (K1' : forall j, In j ins -> initial g j = false -> exists s, known j = Some s) by (intros j Hj; apply K1; now right).
  destruct (initial g i) eqn:Q; cbn [negb] in *.
  - rewrite (K0 i (or_introl eq_refl) Q). apply IH; assumption.
  - destruct (K1 i (or_introl eq_refl) Q) as (s & ->). destruct ds as [|d ds]; [discriminate L|]. cbn [put_all]. apply IH; [assumption|assumption|]. cbn in L. lia.
Qed.
Lemma ordered_last l n : forall k, ordered k (l ++ [n]) -> ordered k l /\ incl (flat_map nin (l ++ [n])) (k ++ results l).
Proof.
  induction l as [|m l IH]; intros k; cbn [app ordered flat_map results].
  - intros (Hi & _). split; [exact Logic.I|]. intros i Hn. rewrite app_nil_r in *. apply Hi, Hn.
  - intros (Hi & L & O). destruct (IH _ O) as (O' & I'). split; [repeat split; assumption|]. intros i Hn. apply in_app_or in Hn as [Hn|Hn]; [apply in_or_app; left; apply Hi, Hn|].
    specialize (I' i Hn). apply in_app_or in I' as [J|J]; [|apply in_or_app; right; apply in_or_app; now right]. apply in_app_or in J as [J|J]; apply in_or_app; [right; apply in_or_app; now left|now left].
Qed.
(** The exact gradients of the weights, from what the program computes. *)
Fixpoint exacts (known : dict (list Z)) (objs : dict (obj A)) (nodes : list node) (dys : dict (ten A)) : nat -> list (ten A) :=
  match nodes with
  | [] => fun _ => []
  | n :: nodes =>
    match objs (nname n) with
    | None => fun _ => []
    | Some o =>
      match get_all dys (nout n) with
      | Ok (dy :: d) =>
        match backward_node o (dy :: d) with
        | Ok gr => match put_grads known dys (nin n) (snd gr) with Ok dys => fun q => if q =? nname n then exact_of zero add (nop n) dy (fst gr) else exacts known objs nodes dys q | Err _ => fun _ => [] end
        | Err _ => fun _ => []
        end
      | _ => fun _ => []
      end
    end
  end.

Lemma backward_ok_l known objs (HT : train) : forall l F dys,
  Forall good l -> NoDup (map nname l) -> ordered (map fst (ginit g) ++ gin g) l -> NoDup (map fst (ginit g) ++ gin g ++ results l) ->
  (forall n i, In n l -> In i (nin n) -> initial g i = true -> known i = None) -> (forall n i, In n l -> In i (nin n) -> initial g i = false -> exists s : list Z, known i = Some s) ->
  (forall n, In n l -> exists ob, objs (nname n) = Some ob /\ ready n ob) ->
  Permutation (F ++ flat_map (data g) l) (gin g ++ results l) -> (forall i, In i F -> exists d, dys i = Some d /\ dims d = dims (E i)) ->
  exists gl dys', backward_nodes zero add mul opp positive over known objs (rev l) dys = Ok (gl, dys') /\ (forall i, In i (gin g) -> exists d, dys' i = Some d /\ dims d = dims (E i)) /\
    map fst gl = map nname (rev l) /\
    (forall n, In n l -> exists gs, In (nname n, gs) gl /\ Forall2 (reported over (nop n) (batch E n)) gs (exacts known objs (rev l) dys (nname n)) /\ Forall2 (fun e w => dims e = dims w) (exacts known objs (rev l) dys (nname n)) (changes g E n)) /\
    total F dys = add (total (gin g) dys') (lsum (map (fun n => pairings (exacts known objs (rev l) dys (nname n)) (changes g E n)) (rev l))).
Proof.
  intros l. induction l as [|n l IH] using rev_ind; intros F dys G N O U K0 K1 B P HF.
  { cbn [rev backward_nodes flat_map results map app] in *. rewrite !app_nil_r in P. exists [], dys. split; [reflexivity|]. split; [|split; [reflexivity|split; [intros n []|]]].
    - intros i Hi. apply HF. apply (Permutation_in _ (Permutation_sym P)), Hi.
    - rewrite (total_perm _ _ dys P). cbn. ring. }
  rewrite rev_app_distr. cbn [rev app]. apply Forall_app in G as [G Gn]. inversion Gn as [|? ? (y & Ey & Iy & S & M & Fl & T) _]; subst. rewrite map_app in N. cbn [map] in N. destruct (ordered_last l n _ O) as (O' & Inc).
  assert (Rl : results (l ++ [n]) = results l ++ [y]). { unfold results. rewrite flat_map_app. cbn. rewrite Ey. reflexivity. } rewrite Rl in *.
  assert (Uy : ~ In y (map fst (ginit g) ++ gin g ++ results l) /\ NoDup (map fst (ginit g) ++ gin g ++ results l)).
  { assert (Q : map fst (ginit g) ++ gin g ++ results l ++ [y] = (map fst (ginit g) ++ gin g ++ results l) ++ [y]) by (rewrite <- !app_assoc; reflexivity). rewrite Q in U. split; [apply NoDup_remove_2 in U; rewrite app_nil_r in U; exact U|apply NoDup_remove_1 in U; rewrite app_nil_r in U; exact U]. }
  destruct Uy as (Uy & U').
  assert (Dd : incl (flat_map (data g) (l ++ [n])) (flat_map nin (l ++ [n]))). { intros i Hi. apply in_flat_map in Hi as (m & Hm & Hi). apply in_flat_map. exists m. split; [exact Hm|]. unfold data in Hi. apply filter_In in Hi. apply Hi. }
  assert (Hy : In y F). { assert (J : In y (F ++ flat_map (data g) (l ++ [n]))) by (apply (Permutation_in _ (Permutation_sym P)); apply in_or_app; right; apply in_or_app; right; now left). apply in_app_or in J as [J|J]; [exact J|]. exfalso. apply Uy. rewrite app_assoc. apply Inc, Dd, J. }
  assert (NF : NoDup (F ++ flat_map (data g) (l ++ [n]))). { apply (Permutation_NoDup (Permutation_sym P)). clear - U. revert U. generalize (gin g ++ results l ++ [y]). induction (map fst (ginit g)) as [|x a IHa]; intros b H; [exact H|]. cbn in H. inversion H; subst. apply IHa. assumption. }
  destruct (in_split y F Hy) as (F1 & F2 & ->). set (F0 := F1 ++ F2). assert (PF : Permutation (F1 ++ y :: F2) (y :: F0)) by (symmetry; apply Permutation_middle).
  rewrite flat_map_app in P, NF. cbn [flat_map] in P, NF. rewrite app_nil_r in P, NF.
  assert (P' : Permutation ((data g n ++ F0) ++ flat_map (data g) l) (gin g ++ results l)).
  { apply (Permutation_cons_inv (a := y)). transitivity (gin g ++ results l ++ [y]); [|rewrite app_assoc; symmetry; apply Permutation_cons_append]. etransitivity; [|exact P]. etransitivity; [|apply Permutation_app_tail, Permutation_sym, PF]. cbn [app]. apply perm_skip.
    rewrite <- app_assoc. rewrite (Permutation_app_comm (data g n)). rewrite <- app_assoc. reflexivity. }
  assert (ND : NoDup (data g n ++ F0)). { assert (Q : NoDup ((data g n ++ F0) ++ flat_map (data g) l)). { apply (Permutation_NoDup (Permutation_sym P')). clear - U'. revert U'. generalize (gin g ++ results l). induction (map fst (ginit g)) as [|x a IHa]; intros b H; [exact H|]. cbn in H. inversion H; subst. apply IHa. assumption. }
    clear - Q. revert Q. generalize (flat_map (data g) l). induction (data g n ++ F0) as [|x a IHa]; intros b H; [constructor|]. cbn in H. inversion H as [|? ? H1 H2]; subst. constructor; [intros J; apply H1, in_or_app; now left|apply (IHa b H2)]. }
  assert (NDn : NoDup (data g n)). { clear - ND. induction (data g n) as [|x a IHa]; [constructor|]. cbn in ND. inversion ND as [|? ? H1 H2]; subst. constructor; [intros J; apply H1, in_or_app; now left|apply IHa, H2]. }
  assert (DJ : forall i, In i F0 -> ~ In i (data g n)). { clear - ND. induction (data g n) as [|x a IHa]; [intros i _ []|]. cbn in ND. inversion ND as [|? ? H1 H2]; subst. intros i Hi [<-|Q]; [apply H1, in_or_app; now right|exact (IHa H2 i Hi Q)]. }
  destruct (HF y Hy) as (d & Ed & Dd'). destruct (B n) as (ob & Eo & R); [apply in_or_app; right; now left|].
  destruct (R HT y Ey d Dd') as (gs & dxs & exact & Eb & Ex & Fd & Fr & Fc & Pr).
  assert (Ld : length dxs = length (data g n)). { clear - Fd. revert Fd. generalize dxs. induction (data g n) as [|i a IHa]; intros xs H; inversion H; subst; cbn; [reflexivity|]. rewrite (IHa l); [reflexivity|assumption]. }
  destruct (put_all_vals (data g n) dys dxs Ld NDn) as (dys2 & E2 & Oth & Vals).
  assert (Pg : put_grads known dys (nin n) dxs = Ok dys2). { rewrite grads_all; [exact E2| | |exact Ld]; intros i Hi; [apply (K0 n); [apply in_or_app; right; now left|exact Hi]|apply (K1 n); [apply in_or_app; right; now left|exact Hi]]. }
  assert (Nm : NoDup (map nname l) /\ ~ In (nname n) (map nname l)). { split; [apply NoDup_remove_1 in N|apply NoDup_remove_2 in N]; rewrite app_nil_r in N; exact N. }
  destruct Nm as (Nl & Nn).
  assert (HF2 : forall i, In i (data g n ++ F0) -> exists d, dys2 i = Some d /\ dims d = dims (E i)).
  { intros i Hi. apply in_app_or in Hi as [Hi|Hi].
    - clear - Fd Vals Hi. revert dxs Fd Vals. induction (data g n) as [|j a IHa]; intros dxs Fd Vals; [destruct Hi|]. cbn [map] in Fd. inversion Fd; subst. inversion Vals; subst. destruct Hi as [<-|Hi]; [eexists; split; [eassumption|assumption]|]. eapply IHa; eassumption.
    - rewrite Oth by (apply DJ, Hi). apply HF. apply (Permutation_in _ (Permutation_sym PF)). now right. }
  destruct (IH (data g n ++ F0) dys2) as (gl & dys' & El & HG & Ef & HW & Tot); try assumption.
  { intros m i Hm. apply (K0 m). apply in_or_app. now left. } { intros m i Hm. apply (K1 m). apply in_or_app. now left. } { intros m Hm. apply B. apply in_or_app. now left. }
  assert (EX : forall q, exacts known objs (n :: rev l) dys q = if q =? nname n then exact else exacts known objs (rev l) dys2 q).
  { intros q. cbn [exacts]. rewrite Eo, Ey. cbn [get_all]. rewrite Ed, Eb. cbn [fst snd]. rewrite Pg, Ex. reflexivity. }
  cbn [backward_nodes]. rewrite Eo, Ey. cbn [get_all]. rewrite Ed, Eb. cbn [fst snd]. rewrite Pg, El. cbn [fst snd]. exists ((nname n, gs) :: gl), dys'. split; [reflexivity|]. split; [exact HG|]. split; [cbn; rewrite Ef; reflexivity|]. split.
  - intros m Hm. rewrite EX. apply in_app_or in Hm as [Hm|[<-|[]]].
    + assert (Q : nname m <> nname n). { intros Q. apply Nn. rewrite <- Q. apply in_map, Hm. } apply Nat.eqb_neq in Q. rewrite Q. destruct (HW m Hm) as (gm & I1 & I2). exists gm. split; [now right|exact I2].
    + rewrite Nat.eqb_refl. exists gs. split; [now left|]. split; [unfold batch; rewrite Ey; exact Fr|exact Fc].
  - rewrite (total_perm _ _ dys PF). cbn [map]. rewrite EX, Nat.eqb_refl. cbn [fold_right].
    assert (MX : map (fun m => pairings (exacts known objs (n :: rev l) dys (nname m)) (changes g E m)) (rev l) = map (fun m => pairings (exacts known objs (rev l) dys2 (nname m)) (changes g E m)) (rev l)).
    { apply map_ext_in. intros m Hm. rewrite EX. apply in_rev in Hm. assert (Q : nname m <> nname n). { intros Q. apply Nn. rewrite <- Q. apply in_map, Hm. } apply Nat.eqb_neq in Q. rewrite Q. reflexivity. }
    rewrite MX. transitivity (add (pairing d (slopes (E y))) (total F0 dys)); [unfold total; cbn; rewrite Ed; reflexivity|].
    rewrite total_app, (total_pairings _ _ _ Vals), (total_ext F0 dys2 dys) in Tot by (intros i Hi; apply Oth, DJ, Hi).
    rewrite Pr. transitivity (add (add (pairings dxs (map slopes (map E (data g n)))) (total F0 dys)) (pairings exact (changes g E n))); [unfold changes; ring|]. rewrite Tot. ring.
Qed.

(** ** Whole programs *)
(** What is kept for the backward pass does not matter for the next forward pass. *)
Lemma works_saved o (tr : Prop) dyn ini y (a b : obj A) : okind b = okind a -> weights b = weights a -> shape_in b = shape_in a -> works o tr dyn ini y a -> works o tr dyn ini y b.
Proof.
  destruct a as [k w s sv], b as [k' w' s' sv']. cbn [okind weights shape_in]. intros -> -> -> (E1 & W). split; [exact E1|]. intros xs H. destruct (W xs H) as (z & sv2 & Ez & R). exists z, sv2. split; [|exact R].
  rewrite <- Ez. unfold OnnxModel.forward_node. cbn [okind weights shape_in]. reflexivity.
Qed.
Definition exact_grads (known : dict (list Z)) (objs : dict (obj A)) (dys : list (ten A)) (q : nat) : list (ten A) :=
  match put_all nothing (gout g) dys with Ok d => exacts known objs (rev (gnodes g)) d q | Err _ => [] end.
Lemma unknown_ok ins shapes : (forall i, In i ins -> dims (E i) <> []) -> stated E ins shapes -> unknown_batch shapes = Ok (map (fun i => shape_of (E i)) ins).
Proof.
  intros N H. induction H as [|i s ins shapes (H1 & H2) _ IH]; cbn [unknown_batch map]; [reflexivity|]. destruct s as [|z s]; [congruence|]. cbn in H2. subst s. rewrite IH by (intros j Hj; apply N; now right). reflexivity.
Qed.
Lemma run_ok shapes xs : stated E (gin g) shapes -> Forall2 same xs (map values (map E (gin g))) ->
  exists objs known, convert g shapes = Ok (objs, known) /\ forall objs1, same_layers objs1 objs ->
  exists objs' ys, forward zero add mul opp positive g objs1 xs = Ok (objs', ys) /\ same_layers objs' objs /\ Forall2 same ys (map values (map E (gout g))) /\
  (train -> used_once g -> forall dys, Forall2 (fun i d => dims d = dims (E i)) (gout g) dys ->
    exists gl dxs, backward zero add mul opp positive over g known objs' dys = Ok (gl, dxs) /\ Forall2 (fun i d => dims d = dims (E i)) (gin g) dxs /\ map fst gl = map nname (rev (gnodes g)) /\
    (forall n, In n (gnodes g) -> exists gs, In (nname n, gs) gl /\ Forall2 (reported over (nop n) (batch E n)) gs (exact_grads known objs' dys (nname n)) /\ Forall2 (fun e w => dims e = dims w) (exact_grads known objs' dys (nname n)) (changes g E n)) /\
    pairings dys (map slopes (map E (gout g))) = add (pairings dxs (map slopes (map E (gin g)))) (lsum (map (fun n => pairings (exact_grads known objs' dys (nname n)) (changes g E n)) (rev (gnodes g))))).
Proof.
  intros St Sx. pose proof all_good as AG. pose proof (names _ _ _ _ _ _ _ SG) as NN. pose proof (before _ _ _ _ _ _ _ SG) as OO. pose proof (once _ _ _ _ _ _ _ SG) as UU.
  assert (Din : forall i, In i (gin g) -> initial g i = false) by (intros i Hi; apply disjoint, in_or_app; now left).
  assert (NI : NoDup (gin g ++ results (gnodes g))). { clear - UU. revert UU. generalize (gin g ++ results (gnodes g)). induction (map fst (ginit g)) as [|x a IHa]; intros b H; [exact H|]. cbn in H. inversion H; subst. apply IHa. assumption. }
  assert (Ng : NoDup (gin g)). { clear - NI. induction (gin g) as [|x a IHa]; [constructor|]. cbn in NI. inversion NI as [|? ? H1 H2]; subst. constructor; [intros J; apply H1, in_or_app; now left|apply IHa, H2]. }
  assert (First : forall X (P : nat -> X -> Prop) vs, Forall2 P (gin g) vs -> exists d, put_all nothing (gin g) vs = Ok d /\ covers P (map fst (ginit g) ++ gin g) d).
  { intros X P vs HP. assert (L : length vs = length (gin g)). { clear - HP. induction HP; cbn; congruence. } destruct (put_all_ok (gin g) nothing vs L Ng) as (d & Ed & O & V). exists d. split; [exact Ed|]. split.
    - intros i Hi Q. apply in_app_or in Hi as [Hi|Hi]; [apply initial_in in Hi; congruence|]. apply (V P HP i Hi).
    - intros i Hi. rewrite O; [reflexivity|]. intros J. apply Din in J. congruence. }
  destruct (First _ (fun i s => s = shape_of (E i)) (map (fun i => shape_of (E i)) (gin g))) as (k0 & Ek & Ck). { clear. induction (gin g); constructor; [reflexivity|assumption]. }
  destruct (First _ (fun i t => same t (values (E i))) xs) as (e0 & Ee & Ce). { clear - Sx. revert xs Sx. induction (gin g) as [|i a IHa]; intros xs H; cbn in H; inversion H; subst; constructor; [assumption|apply IHa; assumption]. }
  destruct (build_ok (gnodes g) _ nothing k0 AG NN OO Ck) as (objs & known & Eb & Cb & Bt & _).
  exists objs, known. split.
  { unfold convert. rewrite (unknown_ok (gin g) shapes); [|intros i Hi; apply (batched _ _ _ _ _ _ _ SG), in_or_app; now left|exact St]. rewrite Ek. exact Eb. }
  intros objs1 SL1. assert (Bt1 : forall n, In n (gnodes g) -> exists ob, objs1 (nname n) = Some ob /\ built n ob).
  { intros n Hn. destruct (Bt n Hn) as (ob & Eo & Hb). specialize (SL1 (nname n)). rewrite Eo in SL1. destruct (objs1 (nname n)) as [o1|]; [|discriminate SL1]. cbn in SL1. injection SL1 as S1 S2 S3. exists o1. split; [reflexivity|]. intros y Hy. apply (works_saved (nop n) train _ _ _ ob o1); [exact S1|exact S2|exact S3|apply Hb, Hy]. }
  destruct (forward_ok (gnodes g) _ objs1 e0 AG NN OO Ce Bt1) as (objs' & env & Ef & Cf & Rd & _ & SLf).
  assert (Seen : forall i, In i (gin g ++ results (gnodes g)) -> In i (rev (results (gnodes g)) ++ map fst (ginit g) ++ gin g)).
  { intros i Hi. apply in_app_or in Hi as [Hi|Hi]; apply in_or_app; [right; apply in_or_app; now right|left; apply in_rev; rewrite rev_involutive; exact Hi]. }
  destruct (get_all_ok env (fun i t => same t (values (E i))) (gout g)) as (ys & Ey & Fy & _). { intros i Hi. apply (found _ _ _ _ _ _ _ SG) in Hi. apply (proj1 Cf); [apply Seen, Hi|apply disjoint, Hi]. }
  exists objs', ys.
  split; [unfold forward; rewrite Ee, Ef; cbn [fst snd]; rewrite Ey; reflexivity|]. split; [intros q; rewrite (SLf q); apply SL1|]. split.
  { clear - Fy. induction Fy; cbn; constructor; assumption. }
  intros HT UO dys HD. assert (NO : NoDup (gout g)). { apply (Permutation_NoDup (Permutation_sym UO)) in NI. clear - NI. revert NI. induction (flat_map (data g) (gnodes g)) as [|x a IHa]; intros H; [exact H|]. cbn in H. inversion H; subst. apply IHa. assumption. }
  assert (L : length dys = length (gout g)). { clear - HD. induction HD; cbn; congruence. }
  destruct (put_all_vals (gout g) nothing dys L NO) as (d0 & Ed & _ & Vd).
  assert (HF : forall i, In i (gout g) -> exists d, d0 i = Some d /\ dims d = dims (E i)).
  { intros i Hi. clear - HD Vd Hi. revert Vd. induction HD as [|j d a b Hj _ IHa]; intros Vd; [destruct Hi|]. inversion Vd; subst. destruct Hi as [<-|Hi]; [exists d; split; assumption|apply IHa; assumption]. }
  assert (Nin : forall n i, In n (gnodes g) -> In i (nin n) -> In i (rev (results (gnodes g)) ++ map fst (ginit g) ++ gin g)).
  { intros n i Hn Hi. assert (Q : forall l k, ordered k l -> In n l -> In i (rev (results l) ++ k)).
    { clear - Hi. intros l. induction l as [|m l IHl]; intros k; [intros _ []|]. cbn [ordered results flat_map]. intros (O1 & _ & O2) [<-|J]; [apply in_or_app; right; apply O1, Hi|]. specialize (IHl _ O2 J). rewrite rev_app_distr, <- app_assoc. apply in_app_or in IHl as [Q|Q]; [apply in_or_app; now left|]. apply in_or_app. right. apply in_app_or in Q as [Q|Q]; apply in_or_app; [left; apply in_rev; rewrite rev_involutive; exact Q|now right]. }
    apply Q; assumption. }
  destruct (backward_ok_l known objs' HT (gnodes g) (gout g) d0) as (gl & dys' & El & HG & Ef' & HW & Tot); try assumption.
  { intros n i _ _. apply (proj2 Cb). }
  { intros n i Hn Hi Q. destruct (proj1 Cb i (Nin n i Hn Hi) Q) as (s & Es & _). exists s. exact Es. }
  { rewrite Permutation_app_comm. exact UO. }
  destruct (get_all_ok dys' (fun i d => dims d = dims (E i)) (gin g) HG) as (dxs & Ex & Fx & Mx).
  exists gl, dxs. split; [unfold backward; rewrite Ed, El; cbn [fst snd]; rewrite Ex; reflexivity|]. split; [exact Fx|]. split; [exact Ef'|]. unfold exact_grads. rewrite Ed. split; [exact HW|].
  rewrite <- (total_pairings (gout g) dys d0 Vd), Tot. f_equal. apply total_pairings. clear - Mx. revert dxs Mx. induction (gin g) as [|i a IHa]; intros [|d dxs] H; try discriminate H; constructor; cbn in H; injection H as H1 H2; [exact H1|apply IHa, H2].
Qed.
End G.
End OnnxM.
