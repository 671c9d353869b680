(** C82: computations at one player in Pond. *)
From Verif Require Import Base Factory TensorModel TensorProofs CrtModel PondModel PondSpec PondProofs PondProps PondLocalModel.

(** The tensor that stands for the given integers (specification). *)
Definition canon (F : factory) (n : nat) (v : nat -> Z) : list (felt F) := map (fun i => fof F (v i)) (seq 0 n).
(** An argument with its size and its values. *)
Definition stands (F : factory) (t : ptensor F) (p : nat * (nat -> Z)) : Prop := exists sc, denotes F (fst p) t sc (snd p).
(** The arguments in the clear. *)
Definition clear_args (F : factory) (ps : list (nat * (nat -> Z))) : list (list (felt F)) := map (fun p => canon F (fst p) (snd p)) ps.

Lemma bind_ok (F : factory) {A B} l (a : A) (k : A -> M F B) : bind (l, Ok a) k = (l ++ fst (k a), snd (k a)).
Proof. reflexivity. Qed.
Section PROOFS.
Context (F : factory) (L : lawful F).
Lemma canon_ok n v : okT F n (canon F n v).
Proof.
  split; [unfold canon; now rewrite map_length, seq_length|]. apply Forall_forall. intros x H. apply in_map_iff in H.
  destruct H as [i [<- _]]. apply (law_of_wf F L).
Qed.
Lemma canon_val n v i : (i < n)%nat -> eqm (fmod F) (tval F (canon F n v) i) (v i).
Proof.
  intros H. unfold tval, ent, canon. rewrite (nth_indep _ _ (fof F (v 0%nat))) by (rewrite map_length, seq_length; easy).
  rewrite (map_nth (fun i => fof F (v i))), seq_nth by easy. rewrite (law_of F L). unfold eqm. rewrite Nat.add_0_l. apply Z.mod_mod.
  pose proof (law_mod F L). lia.
Qed.
Lemma canon_unique n x v : okT F n x -> (forall i, (i < n)%nat -> eqm (fmod F) (tval F x i) (v i)) -> x = canon F n v.
Proof.
  intros H E. apply (ten_ext F L n); auto using canon_ok. intros i Hi. rewrite E by easy. symmetry. now apply canon_val.
Qed.
Lemma input_ok t p : stands F t p -> exists l, local_input F t = (l, Ok (MkPv Provider (canon F (fst p) (snd p)))) /\ Forall (fun e => fst e = Provider) l.
Proof.
  intros [sc D]. apply denotes_unmasked in D. unfold local_input. destruct (unmasked t) as [v0 v1 s|x0 x1 s|] eqn:E.
  - cbn [denotes] in D. destruct D as (_ & _ & _ & O & _ & V). unfold op1. rewrite (canon_unique (fst p) (pval v0) (snd p)); [|easy|intros i Hi; now apply V].
    eexists. split; [reflexivity|repeat constructor].
  - cbn [denotes] in D. destruct D as (_ & _ & _ & O & O' & V). unfold op2. rewrite (canon_unique (fst p) (vadd F (pval x0) (pval x1)) (snd p)); [|now apply okT_vadd|].
    + eexists. split; [reflexivity|repeat constructor].
    + intros i Hi. rewrite (tval_vadd F L (fst p)) by easy. now apply V.
  - destruct t; discriminate.
Qed.
Lemma inputs_ok args ps : Forall2 (stands F) args ps -> exists l vs, local_inputs F args = (l, Ok vs) /\ map pval vs = clear_args F ps /\
  Forall (fun e => fst e = Provider) l.
Proof.
  induction 1 as [|t p args ps H _ (l & vs & E & V & A)]; cbn [local_inputs].
  - exists [], []. repeat split; constructor.
  - destruct (input_ok t p H) as (k & -> & B). rewrite E. cbn [bind ret]. do 2 eexists. split; [reflexivity|]. split.
    + cbn [map clear_args pval]. now rewrite V.
    + apply Forall_app. split; [easy|]. cbn [fst ret bind]. rewrite bind_ok. cbn [fst ret]. now rewrite app_nil_r.
Qed.
Lemma view_other d l {A} (r : res A) : d <> Provider -> Forall (fun e => fst e = Provider) l -> view d (l, r) = ([] : list (list (felt F))).
Proof.
  intros D H. unfold view. cbn [fst]. induction H as [|e l E _ IH]; [reflexivity|]. cbn [filter]. rewrite E.
  destruct d; try easy; cbn [dev_eqb]; apply IH.
Qed.
End PROOFS.

(** The result reveals the function of the arguments. *)
Theorem C82_value F n g sc r swap args ps : lawful F -> Forall2 (stands F) args ps -> okT F n (g (clear_args F ps)) -> okT F n r ->
  yields F (local_computation F g sc false r swap args) (fun z => reveals F n z sc (tval F (g (clear_args F ps)))).
Proof.
  intros L H O R. destruct (inputs_ok F L args ps H) as (l & vs & E & V & _). unfold local_computation. rewrite E.
  destruct (C24_share_reveal F n (g (clear_args F ps)) r swap sc _ L O R (fun i _ => eq_refl)) as (s0 & s1 & S & Q).
  rewrite bind_ok, V. unfold fresh at 1 2. rewrite !bind_ok. cbn [pval snd].
  destruct (share_and_wrap F (g (clear_args F ps)) r swap sc) as [k res]. cbn [snd] in S. subst res.
  rewrite bind_ok. eexists. split; [reflexivity|exact Q].
Qed.
Print Assumptions C82_value.

(** Every machine but the player's sees what it sees when the result is shared, and nothing more. *)
Theorem C82_views F d g sc r swap args ps : lawful F -> Forall2 (stands F) args ps -> d <> Provider ->
  view d (local_computation F g sc false r swap args) = view d (share F (g (clear_args F ps)) r swap).
Proof.
  intros L H D. destruct (inputs_ok F L args ps H) as (l & vs & E & V & P). unfold local_computation. rewrite E.
  rewrite bind_ok, V. unfold fresh at 1. rewrite !bind_ok. unfold share_and_wrap, share.
  pose proof (view_other F d l (@Ok unit tt) D P) as W. unfold view in *. cbn [fst] in W.
  destruct swap; cbn [bind ret fresh op1 op2 fst snd pdev pval app]; unfold mk_priv; cbn [pdev pval dev_eqb andb];
  (destruct (Nat.eqb _ _); cbn [bind ret raise fst app]; rewrite filter_app, map_app, W; cbn [app filter fst];
   destruct d; try easy; reflexivity).
Qed.
Print Assumptions C82_views.

(** For another argument list and another function every view of a server arises from exactly one other draw. *)
Theorem C82_hidden F d n g g' sc r swap args args' ps ps' : lawful F -> (d = Srv0 \/ d = Srv1) -> Forall2 (stands F) args ps -> Forall2 (stands F) args' ps' ->
  okT F n (g (clear_args F ps)) -> okT F n (g' (clear_args F ps')) -> okT F n r ->
  exists! r', okT F n r' /\ view d (local_computation F g' sc false r' swap args') = view d (local_computation F g sc false r swap args).
Proof.
  intros L D H H' O O' R. assert (N : d <> Provider) by (destruct D; subst; discriminate).
  rewrite (C82_views F d g sc r swap args ps L H N).
  set (w := g (clear_args F ps)) in *. set (w' := g' (clear_args F ps')) in *.
  assert (S : forall s r, view d (share F s r swap) = match d, swap with
     | Srv0, true => [r] | Srv0, false => [vsub F s r; vsub F s r] | Srv1, true => [vsub F s r; vsub F s r] | Srv1, false => [r] | _, _ => view d (share F s r swap) end).
  { intros s q. destruct D; subst d; destruct swap; reflexivity. }
  assert (I : forall q t, okT F n q -> okT F n t -> vsub F w' q = vsub F w t -> q = vsub F w' (vsub F w t)).
  { intros q t Q T X. rewrite <- X. apply (ten_ext F L n); auto using okT_vsub. intros i Hi.
    rewrite !(tval_vsub F L n) by auto using okT_vsub. apply eqm_eq. ring. }
  assert (J : forall t, okT F n t -> vsub F w' (vsub F w' (vsub F w t)) = vsub F w t).
  { intros t T. apply (ten_ext F L n); auto using okT_vsub. intros i Hi.
    rewrite !(tval_vsub F L n) by auto using okT_vsub. apply eqm_eq. ring. }
  assert (K : forall q, view d (local_computation F g' sc false q swap args') = view d (share F w' q swap)).
  { intros q. now apply C82_views. }
  destruct D; subst d; destruct swap.
  - exists r. split; [rewrite K, !S; split; [easy|reflexivity]|]. intros q [Q X]. rewrite K, !S in X. congruence.
  - exists (vsub F w' (vsub F w r)). split.
    + rewrite K, !S, J by easy. split; [auto using okT_vsub|reflexivity].
    + intros q [Q X]. rewrite K, !S in X. symmetry. apply I; congruence.
  - exists (vsub F w' (vsub F w r)). split.
    + rewrite K, !S, J by easy. split; [auto using okT_vsub|reflexivity].
    + intros q [Q X]. rewrite K, !S in X. symmetry. apply I; congruence.
  - exists r. split; [rewrite K, !S; split; [easy|reflexivity]|]. intros q [Q X]. rewrite K, !S in X. congruence.
Qed.
Print Assumptions C82_hidden.

(** With masked=True the call raises TypeError on all arguments. *)
Theorem C82_masked_refuted F n g sc r swap args ps : lawful F -> Forall2 (stands F) args ps -> okT F n (g (clear_args F ps)) -> okT F n r ->
  snd (local_computation F g sc true r swap args) = Err TypeError.
Proof.
  intros L H O R. destruct (inputs_ok F L args ps H) as (l & vs & E & V & _). unfold local_computation. rewrite E.
  destruct (C24_share_reveal F n (g (clear_args F ps)) r swap sc _ L O R (fun i _ => eq_refl)) as (s0 & s1 & S & Q).
  rewrite bind_ok, V. unfold fresh at 1 2. rewrite !bind_ok. cbn [pval snd].
  destruct (share_and_wrap F (g (clear_args F ps)) r swap sc) as [k res]. cbn [snd] in S. now subst res.
Qed.
Print Assumptions C82_masked_refuted.

(** The sum of a private and a public vector, computed at a player. *)
Definition sum2 (xs : list (list Z)) : list Z := match xs with [x; y] => vadd F64 x y | _ => [] end.
Example C82_nonvacuous :
  Forall2 (stands F64) [Priv (@MkPv F64 Srv0 [10; -3]) (@MkPv F64 Srv1 [-4; 5]) true; Pub (@MkPv F64 Srv0 [1; 1]) (@MkPv F64 Srv1 [1; 1]) false]
    [(2%nat, fun i => nth i [6; 2] 0); (2%nat, fun i => 1)] /\
  match snd (local_computation F64 sum2 true false [100; 7] true [Priv (@MkPv F64 Srv0 [10; -3]) (@MkPv F64 Srv1 [-4; 5]) true; Pub (@MkPv F64 Srv0 [1; 1]) (@MkPv F64 Srv1 [1; 1]) false]) with
  | Ok (Priv a b fx) => (pval a : list Z) = [100; 7] /\ (pval b : list Z) = [-93; -4] /\ fx = true
  | _ => False
  end.
Proof.
  split; [|split; [|split]; vm_compute; reflexivity].
  constructor; [exists true|constructor; [exists false|constructor]]; cbn [denotes fst snd pdev pval].
  - split; [easy|]. split; [easy|]. split; [easy|]. split; [split; [reflexivity|repeat constructor; vm_compute; congruence]|]. split; [split; [reflexivity|repeat constructor; vm_compute; congruence]|].
    intros i Hi. destruct i as [|[|i]]; [vm_compute; reflexivity|vm_compute; reflexivity|lia].
  - split; [easy|]. split; [easy|]. split; [easy|]. split; [split; [reflexivity|repeat constructor; vm_compute; congruence]|]. split; [split; [reflexivity|repeat constructor; vm_compute; congruence]|].
    intros i Hi. destruct i as [|[|i]]; [vm_compute; split; reflexivity|vm_compute; split; reflexivity|lia].
Qed.
