(** Vocabulary for the theorems on training steps. *)
From Coq Require Import Reals List Arith.
From Verif Require Import GradModel.
Import ListNotations.
Local Open Scope R_scope.

(** A curve of tensors of [n] entries that has a velocity at time zero. *)
Definition moves (n : nat) (c : R -> vec) (c' : vec) : Prop := forall i, (i < n)%nat -> derivable_pt_lim (fun t => c t i) 0 (c' i).
(** The same for the weights of a layer. *)
Definition wmoves (l : layer) (w : R -> nat -> vec) (w' : nat -> vec) : Prop := forall q, (q < nweights l)%nat -> moves (wsize l q) (fun t => w t q) (w' q).
(** Inner products of tensors and of weights. *)
Definition dot (n : nat) (a b : vec) : R := sum n (fun i => a i * b i).
Definition wdot (l : layer) (a b : nat -> vec) : R := sum (nweights l) (fun q => dot (wsize l q) (a q) (b q)).
(** Activations that can be trained through. *)
Definition trainable (a : act) : Prop := a = ALinear \/ a = ARelu \/ a = ASigmoid.
(** The layer can be trained at this input: its activation has a derivative there, i.e. no relu gets exactly zero; a
    Flatten layer keeps its channels last. *)
Definition smooth (l : layer) (w : nat -> vec) (n : nat) (x : vec) : Prop :=
  match l with
  | Dense m u b a _ => a = ANone \/ trainable a /\ (a = ARelu -> forall p, (p < n * u)%nat -> affine m u b w x p <> 0)
  | Activation m a => trainable a /\ (a = ARelu -> forall p, (p < n * m)%nat -> x p <> 0)
  | ReLU m => forall p, (p < n * m)%nat -> x p <> 0
  | Flatten first _ _ => first = false
  | Reshape _ => True
  end.
(** All layers of a model are smooth at what they get. *)
Fixpoint all_smooth (h : heap) (ids : list nat) (n : nat) (x : vec) : Prop :=
  match ids with
  | [] => True
  | id :: ids => smooth (kind (h id)) (weights (h id)) n x /\ all_smooth h ids n (layer_call (kind (h id)) (weights (h id)) x)
  end.
(** The layers fit together: [m] entries per sample go in, [u] come out. *)
Fixpoint fits (h : heap) (ids : list nat) (m u : nat) : Prop :=
  match ids with [] => m = u | id :: ids => fin (kind (h id)) = m /\ fits h ids (fout (kind (h id))) u end.
(** Whether a layer or a loss leaves the division by the batch size to the other. *)
Definition layer_lazy (l : layer) : option bool := match l with Dense _ _ _ _ z => Some z | _ => None end.
Definition loss_lazy (l : loss) : bool := match l with MSE => false | BCE _ z => z | CCE _ z => z end.
(** One weight entry changed by [t]. *)
Definition bump (h : heap) (id q i : nat) (t : R) : heap :=
  set h id (MkObj (kind (h id)) (fun q' i' => if (Nat.eqb q' q && Nat.eqb i' i)%bool then weights (h id) q' i' + t else weights (h id) q' i') (cached (h id)) (velocity (h id))).
(** [g] is the partial derivative of [L] by a weight entry. *)
Definition partial (L : heap -> R) (h : heap) (id q i : nat) (g : R) : Prop := derivable_pt_lim (fun t => L (bump h id q i t)) 0 g.
(** The loss as function of the output can be differentiated: [d] is its gradient. *)
Definition gradient (n : nat) (L : vec -> R) (p d : vec) : Prop :=
  forall (c : R -> vec) c', c 0 = p -> moves n c c' -> derivable_pt_lim (fun t => L (c t)) 0 (dot n d c').
(** Losses whose gradient is right, at these labels. *)
Definition sound_loss (l : loss) (n u : nat) (y : vec) : Prop :=
  match l with
  | MSE => True
  | BCE from_logits _ => from_logits = true
  | CCE from_logits _ => from_logits = true /\ forall i, (i < n)%nat -> sum u (fun j => y (i * u + j)%nat) = 1
  end.
(** How many times too large the gradient of a layer is: the batch size if nobody divides by it, its inverse if both do. *)
Definition excess (l : loss) (k : layer) (n : nat) : R :=
  (if loss_lazy l then INR n else 1) / (match layer_lazy k with Some true => INR n | _ => 1 end).
(** Layers whose activation has no derivative in the library. *)
Definition untrainable (l : layer) : Prop :=
  match l with
  | Dense _ _ _ a _ => match a with ATanh | ASoftmax | ACallable _ => True | _ => False end
  | Activation _ a => match a with ANone | ATanh | ASoftmax | ACallable _ => True | _ => False end
  | _ => False
  end.
(** [dx] is the gradient by the input of the inner product of the output with [dy]. *)
Definition pulls_back (l : layer) (w : nat -> vec) (n : nat) (x0 dy dx : vec) : Prop :=
  gradient (n * fin l) (fun x => dot (n * fout l) dy (layer_call l w x)) x0 dx.
