(** C103: setting weights copies values and touches nothing else, and where this fails. *)
From Coq Require Import List Arith Bool Lia.
From Verif Require Import AliasModel AliasSpec AliasProofs.
Import ListNotations.

Section Props.
Context {V : Type}.

(** One list for the whole model: no list of the caller, of this model or of another one changes. *)
Theorem C103_flat (ls : list (layer V)) r (h : heap V) ess more :
  sound ls h -> list_at h r = concat ess ++ more -> list_at h r <> [] ->
  Forall2 (fun l es => uniform (public l) h es /\ length es = length (attrs l)) ls ess -> ordered ls ess ->
  exists h', set_flat ls r h = (h', None) /\ copied h h' ls ess /\ others_kept h h' ls /\ lists_kept h h' [] /\ sound ls h'.
Proof. apply set_flat_ok. Qed.

(** One list for each layer, other lists than the layers' own: only the given lists change, to tensors of the values they stood for. *)
Theorem C103_nested (ls : list (layer V)) rs (h : heap V) :
  sound ls h -> ls <> [] -> NoDup rs -> (forall r, In r rs -> r < length (lists h) /\ ~ In r (weights ls)) ->
  Forall2 (fun l r => uniform (public l) h (list_at h r) /\ length (attrs l) <= length (list_at h r)) ls rs -> ordered ls (map (list_at h) rs) ->
  exists h', set_nested ls rs h = (h', None) /\ copied h h' ls (map (list_at h) rs) /\ others_kept h h' ls /\ lists_kept h h' rs /\ sound ls h' /\
    Forall2 (fun l r => exists vs, map (meant h) (list_at h r) = map Some vs /\ list_at h' r = map (Tsr (public l)) vs) ls rs.
Proof. apply set_nested_ok. Qed.

(** Copying the weights of a model into another one, as in the examples of the repository, works and leaves the values of the first
    model, but the first model cannot be trained any more. *)
Theorem C103_source_refuted (ls1 ls2 : list (layer V)) (h : heap V) :
  sound ls1 h -> sound ls2 h -> (forall r, In r (weights ls1) -> ~ In r (weights ls2)) ->
  (forall n, In n (concat (map attrs ls1)) -> ~ In n (concat (map attrs ls2))) ->
  Forall2 (fun l1 l2 => public l1 = public l2 /\ length (attrs l1) = length (attrs l2)) ls1 ls2 -> (exists l, In l ls1 /\ attrs l <> []) ->
  exists h', set_nested ls2 (weights ls1) h = (h', None) /\ copied h h' ls2 (map (list_at h) (weights ls1)) /\
    (forall n, In n (concat (map attrs ls1)) -> now h' n = now h n) /\
    forall update, snd (train update ls1 h') = Some AttributeError.
Proof.
  intros S1 S2 DW DA F [l0 [I0 A0]]. destruct S1 as [S1 [NW NA]].
  assert (U : forall l, In l ls1 -> uniform (public l) h (list_at h (own l))).
  { intros l I. right. right. destruct (S1 l I) as [_ [E B]]. rewrite E. intros e J. apply in_map_iff in J. destruct J as [n [<- J]]. exists n. split; [reflexivity|exact (B n J)]. }
  assert (F2 : Forall2 (fun l2 r => uniform (public l2) h (list_at h r) /\ length (attrs l2) <= length (list_at h r)) ls2 (weights ls1)).
  { assert (H : forall l, In l ls1 -> uniform (public l) h (list_at h (own l)) /\ length (list_at h (own l)) = length (attrs l)).
    { intros l I. split; [apply U; exact I|]. destruct (S1 l I) as [_ [E _]]. rewrite E. apply map_length. }
    clear - F H. induction F as [|a b ls1 ls2 [P L] _ IH]; [constructor|]. constructor; [|apply IH; intros; apply H; right; assumption].
    destruct (H a (or_introl eq_refl)) as [X Y]. rewrite <- P, Y, L. split; [exact X|lia]. }
  assert (O : ordered ls2 (map (list_at h) (weights ls1))).
  { assert (G : forall es p n, In es (map (list_at h) (weights ls1)) -> In (Var p n) es -> ~ In n (concat (map attrs ls2))).
    { intros es p n I J. apply in_map_iff in I. destruct I as [r [<- I]]. apply in_map_iff in I. destruct I as [l [<- I]].
      destruct (S1 l I) as [_ [E _]]. rewrite E in J. apply in_map_iff in J. destruct J as [m [X J]]. injection X as _ ->.
      apply DA. apply in_concat. exists (attrs l). split; [apply in_map; exact I|exact J]. }
    clear - G. revert G. generalize (map (list_at h) (weights ls1)) as ess. induction ls2 as [|l ls2 IH]; intros ess G; [exact I|].
    destruct ess as [|es ess]; [exact I|]. cbn [ordered]. split.
    - intros es' p n I J K. apply (G es' p n (or_intror I) J). cbn [map concat]. apply in_or_app. left. exact K.
    - apply IH. intros es' p n I J K. apply (G es' p n (or_intror I) J). cbn [map concat]. apply in_or_app. right. exact K. }
  destruct (C103_nested ls2 (weights ls1) h) as [h' [Q [CP [OK [LK [_ TU]]]]]]; auto.
  - intros ->. inversion F; subst. destruct I0.
  - intros r I. split; [|apply DW; exact I]. apply in_map_iff in I. destruct I as [l [<- I]]. apply S1. exact I.
  - exists h'. split; [exact Q|]. split; [exact CP|]. split.
    + intros n I. unfold now. rewrite OK; [reflexivity| |exact (DA n I)]. apply in_concat in I. destruct I as [ns [I J]]. apply in_map_iff in I.
      destruct I as [l [<- I]]. destruct (S1 l I) as [_ [_ B]]. exact (B n J).
    + intros update. rewrite train_tensors.
      * cbn [snd]. destruct (forallb _ ls1) eqn:X; [|reflexivity]. rewrite forallb_forall in X. specialize (X l0 I0). cbn beta in X. destruct (attrs l0); [contradiction|discriminate].
      * assert (T : forall l, In l ls1 -> exists (l2 : layer V) vs, map (meant h) (list_at h (own l)) = map Some vs /\ list_at h' (own l) = map (Tsr (public l2)) vs).
        { clear - TU F. revert TU. induction F as [|a b ls1 ls2 _ _ IH]; intros TU l I; [destruct I|]. inversion TU as [|? ? ? ? [vs T] TU']; subst.
          destruct I as [<-|I]; [exists b, vs; exact T|exact (IH TU' l I)]. }
        intros l I. destruct (T l I) as [l2 [vs [X Y]]]. exists (public l2), vs. split; [exact Y|]. apply (f_equal (@length _)) in X.
        rewrite !map_length in X. destruct (S1 l I) as [_ [E _]]. rewrite E, map_length in X. congruence.
Qed.

(** [model.set_weights(model.weights)] raises TypeError in every model with weights, and a list of a layer has lost its variables. *)
Theorem C103_own_refuted (ls : list (layer V)) (h : heap V) : sound ls h -> (exists l, In l ls /\ attrs l <> []) ->
  exists h', set_nested ls (weights ls) h = (h', Some TypeError) /\ (forall n, now h' n = now h n) /\ ~ sound ls h'.
Proof.
  intros S E. destruct (set_own ls h S E) as [h' [l [I [Q [C D]]]]]. exists h'. split; [|split].
  - unfold set_nested. destruct (weights ls) eqn:W; [destruct ls; [destruct I|discriminate]|exact Q].
  - intros n. unfold now. rewrite C. reflexivity.
  - intros [S' _]. apply D. apply S'. exact I.
Qed.
End Props.
Print Assumptions C103_flat.
Print Assumptions C103_nested.
Print Assumptions C103_source_refuted.
Print Assumptions C103_own_refuted.

(** A list that starts with a tensor: a later variable in it stands for the value it was created with, not for what it holds. *)
Theorem C103_mixed_refuted : exists (ls : list (layer nat)) (h h' : heap nat),
  sound ls h /\ set_nested ls [1] h = (h', None) /\ list_at h 1 = [Tsr false 5; Var false 2] /\ now h 2 = Some 9 /\ map (now h') [0; 1] = [Some 5; Some 8].
Proof.
  exists [Layer false 0 [0; 1] (fun _ v => v)], (Heap [[Var false 0; Var false 1]; [Tsr false 5; Var false 2]] [(0, 0); (0, 1); (8, 9)]).
  eexists. split; [|repeat split; vm_compute; reflexivity].
  split; [|split; cbn; repeat constructor; cbn; intuition lia].
  intros l [<-|[]]. cbn. repeat split; [lia|]. intros n [<-|[<-|[]]]; lia.
Qed.
Print Assumptions C103_mixed_refuted.

(** Exchanging the weights of two layers: the second layer gets its own weights back. *)
Theorem C103_exchange_refuted : exists (ls : list (layer nat)) (h h' : heap nat),
  sound ls h /\ set_nested ls [2; 3] h = (h', None) /\ map (list_at h) [2; 3] = [[Var false 1]; [Var false 0]] /\
  map (now h) [0; 1] = [Some 5; Some 6] /\ map (now h') [0; 1] = [Some 6; Some 6].
Proof.
  exists [Layer false 0 [0] (fun _ v => v); Layer false 1 [1] (fun _ v => v)],
    (Heap [[Var false 0]; [Var false 1]; [Var false 1]; [Var false 0]] [(5, 5); (6, 6)]).
  eexists. split; [|repeat split; vm_compute; reflexivity].
  split; [|split; cbn; repeat constructor; cbn; intuition lia].
  intros l [<-|[<-|[]]]; cbn; (repeat split; [lia|]; intros n [<-|[]]; lia).
Qed.
Print Assumptions C103_exchange_refuted.

(** A dense layer with two weights and a normalization, with one list of variables and arrays for the layers: the hypotheses of
    [C103_flat] and [C103_nested] hold. *)
Example C103_network : let ls := [Layer false 0 [0; 1] (fun _ v => v); Layer true 1 [2] (fun i v => i + v)] in
  let h := Heap [[Var false 0; Var false 1]; [Var true 2]; [Var false 3; Var false 0; Arr 7]; [Arr 4; Arr 5]; [Tsr true 6]] [(0, 1); (0, 2); (0, 3); (0, 4)] in
  sound ls h /\ list_at h 2 = concat [[Var false 3; Var false 0]; [Arr 7]] ++ [] /\
  Forall2 (fun l es => uniform (public l) h es /\ length es = length (attrs l)) ls [[Var false 3; Var false 0]; [Arr 7]] /\
  ordered ls [[Var false 3; Var false 0]; [Arr 7]] /\
  Forall2 (fun l r => uniform (public l) h (list_at h r) /\ length (attrs l) <= length (list_at h r)) ls [3; 4] /\ ordered ls (map (list_at h) [3; 4]) /\
  map (now (fst (set_flat ls 2 h))) [0; 1; 2; 3] = [Some 4; Some 1; Some 7; Some 4] /\
  map (now (fst (set_nested ls [3; 4] h))) [0; 1; 2; 3] = [Some 4; Some 5; Some 6; Some 4].
Proof.
  cbv zeta. split.
  { split; [|split; cbn; repeat constructor; cbn; intuition lia].
    intros l [<-|[<-|[]]]; cbn; (repeat split; [lia|]); intros n; [intros [<-|[<-|[]]]|intros [<-|[]]]; lia. }
  split; [reflexivity|]. split.
  { constructor; [split; [|reflexivity]|constructor; [split; [|reflexivity]|constructor]].
    - right. right. intros e [<-|[<-|[]]]; eexists; split; try reflexivity; cbn; lia.
    - left. intros e [<-|[]]. eexists. reflexivity. }
  split. { cbn. intuition (subst; cbn in *; intuition congruence). }
  split.
  { constructor; [split; [|cbn; lia]|constructor; [split; [|cbn; lia]|constructor]].
    - left. intros e [<-|[<-|[]]]; eexists; reflexivity.
    - right. left. intros e [<-|[]]. eexists. reflexivity. }
  split. { cbn. intuition (subst; cbn in *; intuition congruence). }
  split; vm_compute; reflexivity.
Qed.
(** Two dense layers of two models: the hypotheses of [C103_source_refuted] and [C103_own_refuted] hold. *)
Example C103_two_models : let l1 := [Layer false 0 [0] (fun _ v => v)] in let l2 := [Layer false 1 [1] (fun _ v => v)] in
  let h := Heap [[Var false 0]; [Var false 1]] [(5, 5); (6, 6)] in
  sound l1 h /\ sound l2 h /\ (forall r, In r (weights l1) -> ~ In r (weights l2)) /\
  (forall n, In n (concat (map attrs l1)) -> ~ In n (concat (map attrs l2))) /\
  Forall2 (fun l1 l2 => public l1 = public l2 /\ length (attrs l1) = length (attrs l2)) l1 l2 /\ (exists l, In l l1 /\ attrs l <> []) /\
  now (fst (set_nested l2 (weights l1) h)) 1 = Some 5.
Proof.
  cbv zeta. repeat split; try (cbn; repeat constructor; cbn; intuition lia).
  all: try (intros; cbn in *; intuition (subst; cbn in *; intuition lia)).
  exists (Layer false 0 [0] (fun _ v => v)). split; [left; reflexivity|discriminate].
Qed.
