(** Proofs about compiled functions and loops. *)
From Coq Require Import Lia.
From Verif Require Import Base TensorModel Aby3Model Aby3Spec Aby3Proofs LoopModel LoopSpec.

Lemma pv_home d a : vd a = d -> MkV d (vz a) = a.
Proof. destruct a as [d' z]. cbn. intros ->. reflexivity. Qed.
Lemma priv_home x : placed x ->
  MkPr (MkV S0 (vz (p00 x))) (MkV S0 (vz (p01 x))) (MkV S1 (vz (p10 x))) (MkV S1 (vz (p11 x))) (MkV S2 (vz (p20 x))) (MkV S2 (vz (p21 x))) (psc x) (pty x) (pfc x) = x.
Proof. destruct x. cbn. intros (A & B & C & D & E & F). cbn in *. rewrite !pv_home by assumption. reflexivity. Qed.
Lemma pub_home x : spread x -> MkPu (MkV S0 (vz (q0 x))) (MkV S1 (vz (q1 x))) (MkV S2 (vz (q2 x))) (qsc x) (qfc x) = x.
Proof. destruct x. cbn. intros (A & B & C). cbn in *. rewrite !pv_home by assumption. reflexivity. Qed.
Lemma y_mk_priv colo z00 z01 z10 z11 z20 z21 sc ty f {B} (k : priv -> M B) Q :
  yields (k (MkPr (MkV S0 z00) (MkV S0 z01) (MkV S1 z10) (MkV S1 z11) (MkV S2 z20) (MkV S2 z21) sc ty f)) Q ->
  yields (bind (mk_priv colo (MkV S0 z00) (MkV S0 z01) (MkV S1 z10) (MkV S1 z11) (MkV S2 z20) (MkV S2 z21) sc ty f) k) Q.
Proof. intro H. unfold mk_priv, on. cbn [vd dev_eqb]. rewrite !orb_true_r. cbn [andb]. apply y_retb, H. Qed.
Lemma y_mk_pub colo z0 z1 z2 sc f {B} (k : pub -> M B) Q :
  yields (k (MkPu (MkV S0 z0) (MkV S1 z1) (MkV S2 z2) sc f)) Q -> yields (bind (mk_pub colo (MkV S0 z0) (MkV S1 z1) (MkV S2 z2) sc f) k) Q.
Proof. intro H. unfold mk_pub, on. cbn [vd dev_eqb]. rewrite !orb_true_r. cbn [andb]. apply y_retb, H. Qed.

Lemma y_factory f {B} (k : fac -> M B) Q : usual f -> yields (k f) Q -> yields (bind (factory_of (fbits f)) k) Q.
Proof. intros [-> |[-> |[-> |[-> |[-> | ->]]]]] H; cbn; apply y_retb, H. Qed.

(** ** Functions *)
Lemma bone_back colo v : at_home v -> usual_size v -> yields (from_bone colo (to_bone v)) (fun w => w = v).
Proof.
  destruct v as [x|x|z]; cbn [at_home usual_size to_bone from_bone]; intros H U.
  - apply y_factory; [exact U|]. do 6 apply y_copy. apply y_mk_priv. rewrite (priv_home x H). apply y_ret. reflexivity.
  - apply y_factory; [exact U|]. do 3 apply y_copy. apply y_mk_pub. rewrite (pub_home x H). apply y_ret. reflexivity.
  - apply y_ret. reflexivity.
Qed.

Section TREE.
Context (P : arg lvar -> Prop) (HO : forall v, P (AOne _ v)) (HS : forall t l, Forall P l -> P (ASeq _ t l)).
Fixpoint arg_ind2 (a : arg lvar) : P a :=
  match a with
  | AOne _ v => HO v
  | ASeq _ t l => HS t l ((fix go (l : list (arg lvar)) : Forall P l := match l with [] => Forall_nil _ | a :: l => Forall_cons _ (arg_ind2 a) (go l) end) l)
  end.
End TREE.

Lemma tree_back colo (a : arg lvar) : all_of at_home a -> all_of usual_size a -> yields (wrap_func colo (unwrap_func a)) (fun b => b = listed a).
Proof.
  induction a as [v|t l IH] using arg_ind2; intros H U.
  - cbn. eapply y_bind; [exact (bone_back colo v H U)|]. intros w ->. apply y_ret. reflexivity.
  - cbn [unwrap_func wrap_func listed]. eapply y_bind with (P := fun r => r = map listed l); [|intros r ->; apply y_ret; reflexivity].
    cbn in H, U. induction IH as [|a l Ha _ IHl]; [apply y_ret; reflexivity|]. cbn [map]. destruct H as [H1 H2], U as [U1 U2].
    eapply y_bind; [exact (Ha H1 U1)|]. intros b ->. eapply y_bind; [exact (IHl H2 U2)|]. intros r ->. apply y_ret. reflexivity.
Qed.

Lemma y_exec {A} t (m : M A) P : yields m P -> yields (exec t m) P.
Proof. intros H s. unfold exec. destruct (H (MkSt (n0 t) (n1 t) (n2 t) (nb t) (nl s))) as (a & E & Ha). destruct (m _) as [[s' l] r]. cbn in *. exists a. split; assumption. Qed.
Lemma y_exec_bind {A B} t (m : M A) (k : A -> M B) P Q : yields m P -> (forall a, P a -> yields (k a) Q) -> yields (bind (exec t m) k) Q.
Proof. intros H K. eapply y_bind; [apply y_exec, H|exact K]. Qed.

Lemma function_same colo debug trace func args (P : arg lvar -> Prop) :
  Forall (all_of at_home) args -> Forall (all_of usual_size) args ->
  (debug = true -> yields (func args) (fun r => P (listed r))) ->
  yields (func (map listed args)) (fun r => P (listed r) /\ all_of at_home r /\ all_of usual_size r) ->
  yields (function colo debug trace func args) (fun r => if debug then P (listed r) else P r).
Proof.
  intros HA UA HD HF. unfold function. destruct debug; [apply HD; reflexivity|].
  assert (HA' : all_of at_home (ASeq _ true args)) by (clear -HA; induction HA; cbn; auto).
  assert (UA' : all_of usual_size (ASeq _ true args)) by (clear -UA; induction UA; cbn; auto).
  assert (G : yields (bind (wrap_func colo (unwrap_func (ASeq _ true args))) (fun a =>
      bind (func (match a with ASeq _ _ l => l | AOne _ _ => [a] end)) (fun r => ret (unwrap_func r))))
      (fun r => exists r', r = unwrap_func r' /\ P (listed r') /\ all_of at_home r' /\ all_of usual_size r')).
  { eapply y_bind; [exact (tree_back colo _ HA' UA')|]. intros a ->. cbn [listed]. eapply y_bind; [exact HF|].
    intros r H. apply y_ret. exists r. split; [reflexivity|exact H]. }
  apply y_bind with (P := fun r => exists r', r = unwrap_func r' /\ P (listed r') /\ all_of at_home r' /\ all_of usual_size r').
  - destruct trace; [apply y_exec|]; exact G.
  - intros r (r' & -> & Hr & H1 & H2). eapply y_weaken; [exact (tree_back colo r' H1 H2)|]. intros b ->. exact Hr.
Qed.

(** ** Loops *)
Lemma wrap_back colo vs : Forall at_home vs -> yields (wrap colo (map aux_of vs) (flat_map natives_of vs)) (fun ws => ws = vs).
Proof.
  induction 1 as [|v vs H _ IH]; [apply y_ret; reflexivity|]. destruct v as [x|x|z]; cbn [map flat_map aux_of natives_of app wrap nv].
  - do 6 apply y_copy. apply y_mk_priv. cbn [nv]. rewrite (priv_home x H). eapply y_bind; [exact IH|]. intros ws ->. apply y_ret. reflexivity.
  - do 3 apply y_copy. apply y_mk_pub. cbn [nv]. rewrite (pub_home x H). eapply y_bind; [exact IH|]. intros ws ->. apply y_ret. reflexivity.
  - eapply y_bind; [exact IH|]. intros ws ->. apply y_ret. reflexivity.
Qed.
Lemma kinds_aux vs ws : Forall2 same_kind vs ws -> map aux_of ws = map aux_of vs.
Proof.
  induction 1 as [|v w vs ws H _ IH]; [reflexivity|]. cbn. rewrite IH. f_equal.
  destruct v, w; cbn in H; try contradiction; cbn; [destruct H as (-> & -> & ->)|destruct H as (-> & ->)|]; reflexivity.
Qed.
Lemma fac_eqb_refl f : fac_eqb f f = true.
Proof. destruct f; [reflexivity|apply Z.eqb_refl]. Qed.
Lemma kinds_types vs us ws : Forall2 same_kind vs us -> Forall2 same_kind vs ws -> same_types (flat_map natives_of us) (flat_map natives_of ws) = true.
Proof.
  intro H. revert ws. induction H as [|v u vs us H _ IH]; intros ws K; inversion K as [|v' w vs' ws' K1 K2]; subst; [reflexivity|].
  destruct v, u, w; cbn in H, K1; try contradiction; cbn.
  - destruct H as (_ & _ & <-), K1 as (_ & _ & <-). rewrite fac_eqb_refl. apply IH, K2.
  - destruct H as (_ & <-), K1 as (_ & <-). rewrite fac_eqb_refl. apply IH, K2.
  - apply IH, K2.
Qed.
Lemma y_traced {A B} (m : M A) (k : unit -> M B) P Q : yields m P -> yields (k tt) Q -> yields (bind (traced m) k) Q.
Proof.
  intros H K s. unfold bind, traced. destruct (H s) as (a & E & _). destruct (m s) as [[s' l] r]. cbn in E. subst r.
  destruct (K (MkSt (n0 s') (n1 s') (n2 s') (nb s') (nl s))) as (b & E & Hb). destruct (k tt _) as [[s2 l2] r2]. cbn in *. exists b. split; assumption.
Qed.

Section SAME.
Context (colo : bool) (A : Type) (R : A -> list lvar -> Prop) (c : A -> bool) (f : A -> A) (cond : list lvar -> M bool) (body : list lvar -> M (list lvar)) (vs0 : list lvar).
Context (HR : forall a vs, R a vs -> Forall at_home vs /\ Forall2 same_kind vs0 vs).
Context (Hc : forall a vs, R a vs -> yields (cond vs) (fun b => b = c a)).
Context (Hb : forall a vs, R a vs -> c a = true -> yields (body vs) (R (f a))).
Lemma eager_same fuel : forall a vs, R a vs -> yields (while_eager fuel cond body vs) (ends_in R (after fuel c f a)).
Proof.
  induction fuel as [|fuel IH]; intros a vs Ra; cbn [while_eager after]; [apply y_ret; exact I|].
  eapply y_bind; [exact (Hc a vs Ra)|]. intros b ->. destruct (c a) eqn:E; [|apply y_ret; exact Ra].
  eapply y_bind; [exact (Hb a vs Ra E)|]. intros vs' R'. apply IH, R'.
Qed.
Lemma op_same fuel tc tb : forall a vs, R a vs ->
  yields (while_op colo fuel tc tb (map aux_of vs0) cond body (flat_map natives_of vs))
    (fun o => match after fuel c f a, o with Some a', Some ns => exists ws, ns = flat_map natives_of ws /\ R a' ws | None, None => True | _, _ => False end).
Proof.
  induction fuel as [|fuel IH]; intros a vs Ra; cbn [while_op after]; [apply y_ret; exact I|]. destruct (HR a vs Ra) as (Hh & Hk).
  eapply y_exec_bind.
  { unfold cond_wrapper. rewrite <- (kinds_aux vs0 vs Hk). eapply y_bind; [exact (wrap_back colo vs Hh)|]. intros ws ->. exact (Hc a vs Ra). }
  intros b ->. destruct (c a) eqn:E; [|apply y_ret; exists vs; split; [reflexivity|exact Ra]].
  eapply y_exec_bind with (P := fun ns => exists ws, ns = flat_map natives_of ws /\ R (f a) ws).
  { unfold body_wrapper. rewrite <- (kinds_aux vs0 vs Hk). eapply y_bind; [exact (wrap_back colo vs Hh)|]. intros ws ->.
    eapply y_bind; [exact (Hb a vs Ra E)|]. intros ws R'. cbn [unwrap snd]. rewrite (kinds_types vs0 vs ws Hk (proj2 (HR _ _ R'))).
    apply y_ret. exists ws. split; [reflexivity|exact R']. }
  intros ns (ws & -> & R'). apply IH, R'.
Qed.
Lemma graph_same fuel a : R a vs0 -> yields (body vs0) (fun vs => Forall2 same_kind vs0 vs) ->
  yields (while_graph colo fuel cond body vs0) (ends_in R (after fuel c f a)).
Proof.
  intros Ra T. destruct (HR a vs0 Ra) as (Hh & Hk). unfold while_graph. apply y_get. intro tb. cbn [unwrap fst snd].
  eapply y_traced with (P := fun _ => True).
  { unfold body_wrapper. eapply y_bind; [exact (wrap_back colo vs0 Hh)|]. intros ws ->. eapply y_bind; [exact T|]. intros ws K. cbn [unwrap snd].
    rewrite (kinds_types vs0 vs0 ws Hk K). apply y_ret. exact I. }
  apply y_get. intro tc. eapply y_traced with (P := fun _ => True).
  { unfold cond_wrapper. eapply y_bind; [exact (wrap_back colo vs0 Hh)|]. intros ws ->. eapply y_weaken; [exact (Hc a vs0 Ra)|]. intros; exact I. }
  eapply y_bind; [exact (op_same fuel tc tb a vs0 Ra)|]. intros o H. destruct (after fuel c f a) as [a'|], o as [ns|]; try contradiction.
  - destruct H as (ws & -> & R'). destruct (HR a' ws R') as (Hh' & Hk'). rewrite <- (kinds_aux vs0 ws Hk').
    eapply y_bind; [exact (wrap_back colo ws Hh')|]. intros us ->. apply y_ret. exact R'.
  - apply y_ret. exact I.
Qed.
End SAME.

(** Whatever the body does, what comes out of a graph has the kinds of what went in. *)
Lemma bind_ok {X Y} (m : M X) (k : X -> M Y) s y : snd (bind m k s) = Ok y -> exists x s', snd (m s) = Ok x /\ snd (k x s') = Ok y.
Proof.
  unfold bind. destruct (m s) as [[s1 l1] [x|e]]; [|discriminate]. destruct (k x s1) as [[s2 l2] r] eqn:E. cbn. intro H. exists x, s1. rewrite E. split; [reflexivity|exact H].
Qed.
Lemma mk_priv_kind colo a b c d e g sc ty f s x : snd (mk_priv colo a b c d e g sc ty f s) = Ok x -> psc x = sc /\ pty x = ty /\ pfc x = f.
Proof. unfold mk_priv. destruct (_ && _); cbn; intro H; [|discriminate]. injection H as <-. cbn. auto. Qed.
Lemma mk_pub_kind colo a b c sc f s x : snd (mk_pub colo a b c sc f s) = Ok x -> qsc x = sc /\ qfc x = f.
Proof. unfold mk_pub. destruct (_ && _); cbn; intro H; [|discriminate]. injection H as <-. cbn. auto. Qed.
Lemma wrap_kinds colo vs : forall ns s ws, snd (wrap colo (map aux_of vs) ns s) = Ok ws -> Forall2 same_kind vs ws.
Proof.
  induction vs as [|v vs IH]; intros ns s ws H; cbn [map wrap] in H; [injection H as <-; constructor|].
  destruct v as [x|x|z]; cbn [aux_of wrap] in H.
  - do 6 (destruct ns as [|? ns]; [discriminate|]). do 6 (apply bind_ok in H; destruct H as (? & ? & _ & H)).
    apply bind_ok in H. destruct H as (y & s1 & Hy & H). apply bind_ok in H. destruct H as (r & s2 & Hr & H). injection H as <-.
    destruct (mk_priv_kind _ _ _ _ _ _ _ _ _ _ _ _ Hy) as (E1 & E2 & E3). constructor; [cbn; auto|]. exact (IH _ _ _ Hr).
  - do 3 (destruct ns as [|? ns]; [discriminate|]). do 3 (apply bind_ok in H; destruct H as (? & ? & _ & H)).
    apply bind_ok in H. destruct H as (y & s1 & Hy & H). apply bind_ok in H. destruct H as (r & s2 & Hr & H). injection H as <-.
    destruct (mk_pub_kind _ _ _ _ _ _ _ _ Hy) as (E1 & E2). constructor; [cbn; auto|]. exact (IH _ _ _ Hr).
  - destruct ns as [|? ns]; [discriminate|]. apply bind_ok in H. destruct H as (r & s2 & Hr & H). injection H as <-. constructor; [exact I|exact (IH _ _ _ Hr)].
Qed.
Lemma graph_kinds colo fuel cond body vs s ws : snd (while_graph colo fuel cond body vs s) = Ok (Some ws) -> Forall2 same_kind vs ws.
Proof.
  intro H. unfold while_graph in H. cbn [unwrap fst snd] in H. do 4 (apply bind_ok in H; destruct H as (? & ? & _ & H)).
  apply bind_ok in H. destruct H as (o & so & _ & H). destruct o as [ns|]; [|discriminate]. apply bind_ok in H. destruct H as (us & s2 & Hu & H). injection H as <-. exact (wrap_kinds _ _ _ _ _ Hu).
Qed.
