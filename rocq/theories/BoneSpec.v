(** Vocabulary of the theorems about compiled functions under Pond. *)
From Verif Require Import Base BoneModel.

(** The factory of a tensor. *)
Definition backed (t : ptn) (f : pfac) : Prop :=
  match t with TPub g _ _ _ => g = f | TPriv g _ _ _ => g = f | TMask g _ _ _ _ _ _ _ _ _ => g = f end.
(** Backed by the words TensorFlow itself has. *)
Definition plain (t : ptn) : Prop := exists n, In n [8; 16; 32; 64] /\ backed t (PN n).
(** The number two shares stand for: their sum as a word, or modulo [m]. *)
Definition opened (t : ptn) : option Z :=
  match t with
  | TPriv (PN n) _ [a] [b] => Some (swrap n (a + b))
  | TPriv (PMod _ m) _ [a] [b] => Some ((a + b) mod m)
  | _ => None
  end.
