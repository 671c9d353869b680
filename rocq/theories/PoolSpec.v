(** Vocabulary of the theorems about pooling, independent of the programs. *)
From Coq Require Import List Arith Bool.
From Verif Require Import ConvModel ConvSpec.
Import ListNotations.

Section PoolSpec.
Context {A : Type} (zero : A) (add mul : A -> A -> A).
(** [arg] finds a position of a greatest entry. *)
Definition finds_greatest (le : A -> A -> Prop) (arg : nat -> (nat -> A) -> nat) : Prop :=
  forall n f, 0 < n -> arg n f < n /\ forall q, q < n -> le (f q) (f (arg n f)).
(** The entry at row [u] and column [v] of the window at [i], [j] of an image extended by zeros. *)
Definition in_window (img : nat -> nat -> nat -> nat -> A) (h w top left s0 s1 b ch i j u v : nat) : A :=
  extended zero img h w top left b ch (i * s0 + u) (j * s1 + v).
(** One number for every image and channel: tensors of shape [[n, c]] or, with [keep], [[n, c, 1, 1]]. *)
Definition flat_shape (keep : bool) (n c : nat) : list nat := if keep then [n; c; 1; 1] else [n; c].
Definition flat (keep : bool) (t : ten A) (b ch : nat) : A := if keep then val t [b; ch; 0; 0] else val t [b; ch].
Definition flat_inner (keep : bool) (n c : nat) (x y : ten A) : A :=
  sigma zero add n (fun b => sigma zero add c (fun ch => mul (flat keep x b ch) (flat keep y b ch))).
End PoolSpec.
