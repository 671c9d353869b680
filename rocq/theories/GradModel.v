(** Training steps of tfe.keras Sequential models (/repo/tf_encrypted/keras: models/sequential.py, layers, losses.py,
    optimizers.py).  Tensors hold real numbers: sharing, fixed-point truncation and the approximations of exp, log and
    sigmoid are not modelled here. *)
From Coq Require Import Reals List Arith.
Import ListNotations.
Local Open Scope R_scope.

(** Exceptions of the backward pass (activations.py 62-83), of calling [linear] with two arguments (activation.py 38) and
    of reading a missing attribute (dense.py 121). *)
Inductive exn := NotImplementedError | TypeError | AttributeError.
(** Result of a statement (sequential.py 125-130). *)
Inductive res (X : Type) := Ok (x : X) | Err (e : exn).
Arguments Ok {X} _. Arguments Err {X} _.

(** Entries of a tensor in row-major order; the shape is known from the layer and the batch size (dense.py 103, flatten.py 31-49). *)
Definition vec := nat -> R.
(** Finite sums, as in matmul and reduce_sum (dense.py 107, 138; losses.py 65). *)
Fixpoint sum (n : nat) (f : nat -> R) : R := match n with O => 0 | S n => sum n f + f n end.

(** ** Activations *)

(** What may be given as activation (activations.py 39-56). *)
Inductive act := ANone | ALinear | ARelu | ASigmoid | ATanh | ASoftmax | ACallable (f : nat -> vec -> vec).
(** The function that [tfe.sigmoid] approximates (activations.py 15-17). *)
Definition sigmoid (x : R) : R := / (1 + exp (- x)).
(** The function that [tfe.softmax] approximates, along rows of length [u] (activations.py 35-36). *)
Definition softmax (u : nat) (x : vec) : vec := fun p => exp (x p) / sum u (fun j => exp (x ((p / u) * u + j)%nat)).
(** activations.py 6-8, 15-17, 25-56 [get] and the functions; [u] is the length of the last axis. *)
Definition activate (a : act) (u : nat) (x : vec) : vec :=
  match a with
  | ANone | ALinear => x
  | ARelu => fun p => Rmax (x p) 0
  | ASigmoid => fun p => sigmoid (x p)
  | ATanh => fun p => tanh (x p)
  | ASoftmax => softmax u x
  | ACallable f => f u x
  end.
(** [tfe.select(c, x, y)] is [y] where [c], [x] elsewhere (aby3.py 1782-1800). *)
Definition select (c : bool) (x y : R) : R := if c then y else x.
(** activations.py 59-83 [get_deriv], and 11-12, 20-22, 31-32 applied to the output and the gradient.  For [None] it
    returns the function of one argument [linear], so the call raises. *)
Definition activate_deriv (a : act) (y dy : vec) : res vec :=
  match a with
  | ANone => Err TypeError
  | ALinear => Ok dy
  | ARelu => Ok (fun p => select (if Rle_dec (y p) 0 then true else false) (dy p) 0)
  | ASigmoid => Ok (fun p => dy p * y p * (- y p + 1))
  | ATanh | ASoftmax | ACallable _ => Err NotImplementedError
  end.

(** ** Layers *)

(** Layers with the sizes of one sample: Dense of [m] inputs and [u] units (dense.py), Activation (activation.py), ReLU
    (relu.py), Flatten of [c] channels of [s] positions (flatten.py), Reshape (reshape.py). *)
Inductive layer :=
| Dense (m u : nat) (use_bias : bool) (a : act) (lazy : bool)
| Activation (m : nat) (a : act)
| ReLU (m : nat)
| Flatten (channels_first : bool) (c s : nat)
| Reshape (m : nat).
(** Entries per sample of the input (dense.py 86, flatten.py 31-47). *)
Definition fin (l : layer) : nat := match l with Dense m _ _ _ _ => m | Activation m _ | ReLU m | Reshape m => m | Flatten _ c s => (c * s)%nat end.
(** Entries per sample of the output (dense.py 75, flatten.py 60-68). *)
Definition fout (l : layer) : nat := match l with Dense _ u _ _ _ => u | l => fin l end.
(** Number of weights and entries of each (dense.py 87-96). *)
Definition nweights (l : layer) : nat := match l with Dense _ _ b _ _ => if b then 2 else 1 | _ => 0 end.
(** See [nweights] (dense.py 87-96). *)
Definition wsize (l : layer) (q : nat) : nat := match l, q with Dense m u _ _ _, O => (m * u)%nat | Dense _ u _ _ _, _ => u | _, _ => O end.
(** [matmul(inputs, kernel) + bias] for a batch of [n] (dense.py 105-110). *)
Definition affine (m u : nat) (use_bias : bool) (w : nat -> vec) (x : vec) : vec := fun p =>
  sum m (fun k => x ((p / u) * m + k)%nat * w 0%nat (k * u + p mod u)%nat) + (if use_bias then w 1%nat (p mod u) else 0).
(** Transposition with [perm = [0, 2, ..., rank-1, 1]] of a tensor of shape batch, [c], and [s] positions in all
    (flatten.py 36-40): entry [(i, pos, ch)] of the result is entry [(i, ch, pos)]. *)
Definition channels_last (c s : nat) (x : vec) : vec := fun p =>
  let i := (p / (c * s))%nat in let r := (p mod (c * s))%nat in x (i * (c * s) + (r mod c) * s + r / c)%nat.
(** The [call] methods on a batch: dense.py 101-117, activation.py 27-30, relu.py 37-41, flatten.py 31-49, reshape.py 90-92. *)
Definition layer_call (l : layer) (w : nat -> vec) (x : vec) : vec :=
  match l with
  | Dense m u b a _ => match a with ANone => affine m u b w x | a => activate a u (affine m u b w x) end
  | Activation m a => activate a m x
  | ReLU _ => fun p => Rmax (x p) 0
  | Flatten true c s => channels_last c s x
  | Flatten false _ _ => x
  | Reshape _ => x
  end.
(** The [backward] methods on a batch of [n]: from the cached input [x] and output [y] and the current weights, the
    gradients of the weights and of the input (dense.py 119-143, activation.py 35-40, relu.py 43-48 where the cached
    comparison is [x > 0] of aby3.py 4250; that of securenn.py 356 is [x >= 0]; flatten.py 51-58, reshape.py 94-97). *)
Definition layer_backward (l : layer) (w : nat -> vec) (n : nat) (x y dy : vec) : res ((nat -> vec) * vec) :=
  match l with
  | Dense m u b a lazy =>
    match (match a with ANone => Ok dy | a => activate_deriv a y dy end) with
    | Err e => Err e
    | Ok dy =>
      let dx := fun p => sum u (fun j => dy ((p / m) * u + j)%nat * w 0%nat ((p mod m) * u + j)%nat) in
      let norm := fun v => if lazy then v / INR n else v in
      let dw := fun p => norm (sum n (fun i => x (i * m + p / u)%nat * dy (i * u + p mod u)%nat)) in
      let db := fun j => norm (sum n (fun i => dy (i * u + j)%nat)) in
      Ok (fun q => match q with O => dw | _ => db end, dx)
    end
  | Activation _ a => match activate_deriv a y dy with Err e => Err e | Ok dx => Ok (fun _ _ => 0, dx) end
  | ReLU _ => Ok (fun _ _ => 0, fun p => select (if Rlt_dec 0 (x p) then true else false) 0 (dy p))
  | Flatten _ _ _ => Ok (fun _ _ => 0, dy)
  | Reshape _ => Ok (fun _ _ => 0, dy)
  end.

(** ** Models *)

(** A layer object: its kind, its weights, what the last [call] cached (batch size, input, output), and the velocities
    that SGD keeps for its weights (dense.py 103, 115; optimizers.py 22-33). *)
Record obj := MkObj { kind : layer; weights : nat -> vec; cached : option (nat * vec * vec); velocity : nat -> vec }.
(** Objects by identity; a model is the list of its layers (sequential.py 77-92). *)
Definition heap := nat -> obj.
(** Replacing one object (dense.py 103, 115; optimizers.py 41-44). *)
Definition set (h : heap) (id : nat) (o : obj) : heap := fun k => if Nat.eqb k id then o else h k.
(** sequential.py 94-113 [call] on a batch of [n]. *)
Fixpoint call (h : heap) (ids : list nat) (n : nat) (x : vec) : heap * vec :=
  match ids with
  | [] => (h, x)
  | id :: ids =>
    let o := h id in let y := layer_call (kind o) (weights o) x in
    call (set h id (MkObj (kind o) (weights o) (Some (n, x, y)) (velocity o))) ids n y
  end.
(** optimizers.py 35-44 [SGD.apply_gradients]. *)
Definition sgd (lr momentum : R) (o : obj) (g : nat -> vec) : obj :=
  let diff := fun q i => momentum * velocity o q i in
  MkObj (kind o) (fun q i => weights o q i - (diff q i + lr * g q i)) (cached o) (fun q i => diff q i + lr * g q i).
(** The body of the loop of sequential.py 127-130. *)
Definition back_layer (lr momentum : R) (h : heap) (id : nat) (dy : vec) : res (heap * vec) :=
  let o := h id in
  match cached o with
  | None => Err AttributeError
  | Some (n, x, y) =>
    match layer_backward (kind o) (weights o) n x y dy with
    | Err e => Err e
    | Ok (g, dx) => Ok (set h id (sgd lr momentum o g), dx)
    end
  end.
(** sequential.py 125-130 [backward]; [ids] is given from the last layer to the first. *)
Fixpoint back_loop (lr momentum : R) (h : heap) (ids : list nat) (dy : vec) : res (heap * vec) :=
  match ids with
  | [] => Ok (h, dy)
  | id :: ids => match back_layer lr momentum h id dy with Err e => Err e | Ok (h, dy) => back_loop lr momentum h ids dy end
  end.
(** See [back_loop] (sequential.py 125-130). *)
Definition backward (lr momentum : R) (h : heap) (ids : list nat) (dy : vec) : res (heap * vec) := back_loop lr momentum h (rev ids) dy.

(** ** Losses *)

(** Losses with their options (losses.py 33-48, 76-80, 97-110). *)
Inductive loss := MSE | BCE (from_logits lazy : bool) | CCE (from_logits lazy : bool).
(** losses.py 82-85, 50-58, 112-124 [grad] for [n] samples of [u] outputs. *)
Definition loss_grad (l : loss) (n u : nat) (y p : vec) : vec :=
  let normalized := fun (lazy : bool) v => if lazy then v else v * (1 / INR n) in
  match l with
  | MSE => fun i => 2 * (p i - y i) * (1 / INR n)
  | BCE from_logits lazy => let p := if from_logits then fun i => sigmoid (p i) else p in fun i => normalized lazy (p i - y i)
  | CCE from_logits lazy => let p := if from_logits then softmax u p else p in fun i => normalized lazy (p i - y i)
  end.
(** losses.py 61-68 [binary_crossentropy]: one value per output. *)
Definition bce (n u : nat) (y p : vec) : vec := fun j =>
  sum n (fun i => - (y (i * u + j)%nat * ln (p (i * u + j)%nat) + (1 - y (i * u + j)%nat) * ln (1 - p (i * u + j)%nat))) * (1 / INR n).
(** losses.py 88-94 [mean_squared_error]: one value per output. *)
Definition mse (n u : nat) (y p : vec) : vec := fun j => sum n (fun i => (y (i * u + j)%nat - p (i * u + j)%nat) * (y (i * u + j)%nat - p (i * u + j)%nat)) * (1 / INR n).
(** losses.py 127-132 [categorical_crossentropy]: one value. *)
Definition cce (n u : nat) (y p : vec) : R := sum (n * u) (fun i => - y i * ln (p i)) * (1 / INR n).
(** The sum of the values that the loss returns (losses.py 61-73, 88-94, 127-137). *)
Definition total_loss (l : loss) (n u : nat) (y p : vec) : R :=
  match l with
  | MSE => sum u (mse n u y p)
  | BCE from_logits _ => sum u (bce n u y (if from_logits then fun i => sigmoid (p i) else p))
  | CCE from_logits _ => cce n u y (if from_logits then softmax u p else p)
  end.
(** base_model.py 54-67 [fit_batch] on [n] samples with [u] outputs: the trained model and the loss. *)
Definition fit_batch (lr momentum : R) (l : loss) (h : heap) (ids : list nat) (n u : nat) (x y : vec) : res (heap * R) :=
  let (h1, p) := call h ids n x in
  match backward lr momentum h1 ids (loss_grad l n u y p) with
  | Err e => Err e
  | Ok (h2, _) => Ok (h2, total_loss l n u y p)
  end.
