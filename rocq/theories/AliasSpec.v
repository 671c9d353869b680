(** What it means that setting weights copies values and touches nothing else. *)
From Coq Require Import List Arith Bool.
From Verif Require Import AliasModel.
Import ListNotations.

Section Spec.
Context {V : Type}.
Notation heap := (heap V).
Notation layer := (layer V).

(** The value that a variable holds. *)
Definition now (h : heap) (n : nat) : option V := option_map snd (nth_error (cells h) n).
(** The value that a caller means by an entry of a list: a variable stands for what it holds. *)
Definition meant (h : heap) (e : entry V) : option V := match e with Arr v | Tsr _ v => Some v | Var _ n => now h n end.
(** A model as it is after it has been built: every layer has a list of its own with its own variables. *)
Definition sound (ls : list layer) (h : heap) : Prop :=
  (forall l, In l ls -> own l < length (lists h) /\ list_at h (own l) = map (Var (public l)) (attrs l)
    /\ (forall n, In n (attrs l) -> n < length (cells h))) /\
  NoDup (weights ls) /\ NoDup (concat (map attrs ls)).
(** A list of weights of one kind that a layer takes: arrays, tensors, or variables that exist. *)
Definition uniform (p : bool) (h : heap) (es : list (entry V)) : Prop :=
  (forall e, In e es -> exists v, e = Arr v) \/ (forall e, In e es -> exists v, e = Tsr p v) \/
  (forall e, In e es -> exists n, e = Var p n /\ n < length (cells h)).
(** No list for a later layer names a variable of an earlier layer. *)
Fixpoint ordered (ls : list layer) (ess : list (list (entry V))) : Prop :=
  match ls, ess with
  | l :: ls, _ :: ess => (forall es p n, In es ess -> In (Var p n) es -> ~ In n (attrs l)) /\ ordered ls ess
  | _, _ => True
  end.
(** After a step from [h] to [h'], the variable of every weight of every layer holds what was meant for it. *)
Definition copied (h h' : heap) (ls : list layer) (ess : list (list (entry V))) : Prop :=
  Forall2 (fun l es => forall i n, nth_error (attrs l) i = Some n ->
    exists e v, nth_error es i = Some e /\ meant h e = Some v /\ now h' n = Some (put l i v)) ls ess.
(** The variables of [h] that are not the layers' own are as they were. *)
Definition others_kept (h h' : heap) (ls : list layer) : Prop :=
  forall n, n < length (cells h) -> ~ In n (concat (map attrs ls)) -> nth_error (cells h') n = nth_error (cells h) n.
(** The lists of [h] other than [rs] are as they were. *)
Definition lists_kept (h h' : heap) (rs : list nat) : Prop :=
  forall r, r < length (lists h) -> ~ In r rs -> nth_error (lists h') r = nth_error (lists h) r.
End Spec.
