(** What queues and servers should deliver. *)
From Coq Require Import List Arith.
From Verif Require Import QueueModel.
Import ListNotations.

Definition prefix {A} (a b : list A) : Prop := exists c, b = a ++ c.
(** The inputs a client sends, in order. *)
Fixpoint sends {A} (l : list (option A)) : list A :=
  match l with [] => [] | Some x :: l => x :: sends l | None :: l => sends l end.
(** The results of serving these inputs in order, from computation [k] on. *)
Fixpoint results {A B} (compute : nat -> A -> B) (k : nat) (l : list A) : list B :=
  match l with [] => [] | x :: l => compute k x :: results compute (S k) l end.
