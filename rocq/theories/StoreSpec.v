(** Vocabulary of the theorems about tensors on disk, independent of the programs. *)
From Coq Require Import String.
From Verif Require Import Base TensorModel Aby3Model Aby3Spec StoreModel.
Local Open Scope Z_scope.

(** Entry [e] of a tensor: its six shares on the machines that hold them. *)
Definition entry (x : tens) (e : nat) : priv :=
  MkPr (MkV S0 (nth e (t00 x) 0)) (MkV S0 (nth e (t01 x) 0)) (MkV S1 (nth e (t10 x) 0)) (MkV S1 (nth e (t11 x) 0))
       (MkV S2 (nth e (t20 x) 0)) (MkV S2 (nth e (t21 x) 0)) (tsc x) (tty x) (tfc x).
(** The tensor has this shape and is a well-formed scaled arithmetic sharing, over [n]-bit words, of these numbers. *)
Definition holds (n : Z) (dims : list nat) (x : tens) (vs : list Z) : Prop :=
  tdims x = dims /\ tsc x = true /\ tfc x = FI n /\ List.length vs = fold_right Nat.mul 1%nat dims /\
  Forall (fun l => List.length l = List.length vs) [t00 x; t01 x; t10 x; t11 x; t20 x; t21 x] /\
  forall e, (e < List.length vs)%nat -> arith n (entry x e) (nth e vs 0).

(** One call of [write]: the prefix, the flag and the tensor. *)
Definition wcall : Type := string * bool * tens.
(** The disk after these calls. *)
Fixpoint written (ops : list wcall) (d : disk) : disk :=
  match ops with [] => d | (p, a, x) :: ops' => written ops' (write x p a d) end.
(** The tensors that these calls leave under a prefix: a call without append forgets the earlier ones. *)
Definition stored (ops : list wcall) (p : string) : list tens :=
  fold_left (fun (l : list tens) (o : wcall) => let '(p', a, x) := o in if String.eqb p' p then (if a then l else []) ++ [x] else l) ops [].
(** Nothing from before the calls is left under the prefix. *)
Definition clean (ops : list wcall) (d : disk) (p : string) : Prop :=
  (exists x, In (p, false, x) ops) \/ forall i j, d (file p i j) = None.
(** The [q] items from number [b * q] on. *)
Definition part {A} (q b : nat) (l : list A) : list A := firstn q (skipn (b * q) l).
