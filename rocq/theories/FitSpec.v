(** Vocabulary for the theorems on training, prediction and evaluation. *)
From Coq Require Import List Arith.
From Verif Require Import FitModel.
Import ListNotations.

(** Consecutive batches of [b] samples, the last one possibly shorter. *)
Definition consecutive {X} (b : nat) (l : list X) (cs : list (list X)) : Prop :=
  concat cs = l /\ forall i c, nth_error cs i = Some c -> 0 < length c <= b /\ (S i < length cs -> length c = b).
(** A training step that records what it is given. *)
Definition record {A B} (seen : list (xbatch A * list B)) (b : xbatch A * list B) : res (list (xbatch A * list B)) := Ok (seen ++ [b]).
(** All samples of the first input, all labels, in the order of training. *)
Definition samples {A B} (seen : list (xbatch A * list B)) : list A :=
  concat (map (fun b => match fst b with One x => x | Many xs => hd [] xs end) seen).
Definition labels {A B} (seen : list (xbatch A * list B)) : list B := concat (map snd seen).
