(** Model of the lists that hold the weights of tfe.keras models, as objects that several owners share: what set_weights does to
    the list it is given, and what that does to other models (tf_encrypted/keras: models/sequential.py, engine/base_layer.py,
    layers/convolutional.py, layers/normalization.py, optimizers.py). Values of weights are of any type [V]; shapes are the subject
    of CloneModel.v. *)
From Coq Require Import List Arith Bool.
Import ListNotations.

(** The exceptions that occur (base_layer.py 132; aby3.py 1123, 1164-1169; indexing and attributes of Python). *)
Inductive exn := AssertionError | TypeError | IndexError | AttributeError.
(** [l[i] = x] (base_layer.py 136, 139). *)
Fixpoint replace {X} (i : nat) (x : X) (l : list X) : list X :=
  match l, i with [], _ => [] | _ :: l, O => x :: l | y :: l, S i => y :: replace i x l end.

Section Alias.
Context {V : Type}.

(** What stands in a list of weights: a numpy array, a tensor that is public or private, or such a variable, by its number
    (base_layer.py 131-139; normalization.py 227-234). *)
Inductive entry := Arr (v : V) | Tsr (public : bool) (v : V) | Var (public : bool) (n : nat).
(** All lists and all variables of the process. A variable has the value it was created with, which is what its tensor part is, and
    the value it holds now, which [read_value] returns (native.py 606-616; aby3_tensors.py 536-545, 634-650). *)
Record heap := Heap { lists : list (list entry); cells : list (V * V) }.
(** A layer: whether its weights are public, the list [self.weights], the variables that it also keeps in attributes such as
    [self.kernel] (base_layer.py 66-67, 114-122; dense.py 91-97), and what [set_weights] makes of the value of weight [i]: the reshaped
    value, or the rearranged kernel (base_layer.py 142; convolutional.py 626-631). *)
Record layer := Layer { public : bool; own : nat; attrs : list nat; put : nat -> V -> V }.

(** Some statements, with the exception that ended them, if any (base_layer.py 124-142). *)
Definition outcome := (heap * option exn)%type.
(** One statement after another (base_layer.py 134-142). *)
Definition andthen (o : outcome) (k : heap -> outcome) : outcome := match o with (h, None) => k h | _ => o end.
(** The list with the number [r] (base_layer.py 124, 140). *)
Definition list_at (h : heap) (r : nat) : list entry := nth r (lists h) [].
(** [weights[i] = e] (base_layer.py 136, 139). *)
Definition write (r i : nat) (e : entry) (h : heap) : heap := Heap (replace r (replace i e (list_at h r)) (lists h)) (cells h).
(** The tensor behind an entry, where a variable is used as a tensor (base_layer.py 142; aby3.py 437; native.py 606-612). *)
Definition content (h : heap) (e : entry) : option V :=
  match e with Arr v | Tsr _ v => Some v | Var _ n => option_map fst (nth_error (cells h) n) end.

(** [tfe.define_private_variable(weight)] and [tfe.define_public_variable(weight)] (aby3.py 330-395, 418-462): a new variable. *)
Definition define (p : bool) (h : heap) (e : entry) : heap * (entry + exn) :=
  match e, content h e with
  | Tsr q _, Some v | Var q _, Some v =>
    if Bool.eqb p q then (Heap (lists h) (cells h ++ [(v, v)]), inl (Var p (length (cells h)))) else (h, inr AssertionError)
  | Arr _, Some v => (Heap (lists h) (cells h ++ [(v, v)]), inl (Var p (length (cells h))))
  | _, None => (h, inr AttributeError)
  end.
(** [weights[index].read_value()] (base_layer.py 139; normalization.py 234); arrays and tensors have no such method. *)
Definition read (h : heap) (e : entry) : heap * (entry + exn) :=
  match e with
  | Var q n => match nth_error (cells h) n with Some (_, v) => (h, inl (Tsr q v)) | None => (h, inr AttributeError) end
  | _ => (h, inr AttributeError)
  end.
(** [for index, weight in enumerate(weights): weights[index] = f(weight)] over the indices [is] (base_layer.py 135-136, 138-139). *)
Fixpoint each (f : heap -> entry -> heap * (entry + exn)) (r : nat) (is : list nat) (h : heap) : outcome :=
  match is with
  | [] => (h, None)
  | i :: is =>
    match nth_error (list_at h r) i with
    | None => (h, None)
    | Some e => match f h e with (h, inl e) => each f r is (write r i e h) | (h, inr x) => (h, Some x) end
    end
  end.
(** [tfe.assign(w, new)] for a new value of the class of [e] (aby3.py 1118-1169). *)
Definition assign (w : entry) (e : entry) (v : V) (h : heap) : outcome :=
  match w with
  | Var p n =>
    match e with
    | Tsr q _ | Var q _ =>
      if Bool.eqb p q then
        match nth_error (cells h) n with
        | Some (c, _) => (Heap (lists h) (replace n (c, v) (cells h)), None)
        | None => (h, Some AttributeError)
        end
      else (h, Some AssertionError)
    | Arr _ => (h, Some AssertionError)
    end
  | _ => (h, Some TypeError)
  end.
(** [for i, w in enumerate(self.weights): ...] over the indices [is] (base_layer.py 140-142, convolutional.py 623-633,
    normalization.py 235-237). *)
Fixpoint assign_each (l : layer) (r : nat) (is : list nat) (h : heap) : outcome :=
  match is with
  | [] => (h, None)
  | i :: is =>
    match nth_error (list_at h (own l)) i with
    | None => (h, None)
    | Some w =>
      match nth_error (list_at h r) i with
      | None => (h, Some IndexError)
      | Some e =>
        match content h e with
        | Some v => andthen (assign w e (put l i v) h) (assign_each l r is)
        | None => (h, Some AttributeError)
        end
      end
    end
  end.
(** [isinstance(weights[0], weights_types)] (base_layer.py 131-132; normalization.py 227-228). *)
Definition accepted (p : bool) (e : entry) : bool :=
  match e with Arr _ => true | Tsr q _ | Var q _ => Bool.eqb p q end.
(** [set_weights] of layers (base_layer.py 124-142, convolutional.py 601-633, normalization.py 218-245) with the list number [r]. The
    denominator that BatchNormalization computes at the end is left to CloneModel.v. *)
Definition set_layer (l : layer) (r : nat) (h : heap) : outcome :=
  match list_at h r with
  | [] => (h, Some IndexError)
  | e :: _ =>
    if accepted (public l) e then
      let all h := seq 0 (length (list_at h r)) in
      andthen (match e with Arr _ => each (define (public l)) r (all h) h | _ => (h, None) end) (fun h =>
      andthen (match list_at h r with Var _ _ :: _ => each read r (all h) h | _ => (h, None) end) (fun h =>
      assign_each l r (seq 0 (length (list_at h (own l)))) h))
    else (h, Some AssertionError)
  end.
(** The loop over the lists (sequential.py 160-164). *)
Fixpoint set_all (ls : list layer) (rs : list nat) (h : heap) : outcome :=
  match rs with
  | [] => (h, None)
  | r :: rs =>
    match list_at h r, ls with
    | [], _ => set_all (tl ls) rs h
    | _ :: _, [] => (h, Some IndexError)
    | _ :: _, l :: ls => andthen (set_layer l r h) (set_all ls rs)
    end
  end.
(** [weights[: len(layer.weights)]] for each layer (sequential.py 154-158): these are new lists. *)
Fixpoint slices (h : heap) (ls : list layer) (es : list entry) : list (list entry) :=
  match ls with
  | [] => []
  | l :: ls => let n := length (list_at h (own l)) in firstn n es :: slices h ls (skipn n es)
  end.
(** [set_weights] of a model with a list of weights, the list number [r] (sequential.py 146-164). *)
Definition set_flat (ls : list layer) (r : nat) (h : heap) : outcome :=
  match list_at h r with
  | [] => (h, Some IndexError)
  | es => set_all ls (seq (length (lists h)) (length ls)) (Heap (lists h ++ slices h ls es) (cells h))
  end.
(** [set_weights] of a model with a list of lists, those with the numbers [rs] (sequential.py 146-164). *)
Definition set_nested (ls : list layer) (rs : list nat) (h : heap) : outcome :=
  match rs with [] => (h, Some IndexError) | _ => set_all ls rs h end.
(** [model.weights]: the lists of the layers themselves (sequential.py 92). *)
Definition weights (ls : list layer) : list nat := map own ls.

(** A step of training: [apply_gradients(layer.weights, grads)] of SGD (optimizers.py 35-44) for the layers from the last to the
    first (sequential.py 125-130), where [update i] makes the new value of weight [i] from its value. *)
Fixpoint descend (update : nat -> V -> V) (r : nat) (is : list nat) (h : heap) : outcome :=
  match is with
  | [] => (h, None)
  | i :: is =>
    match nth_error (list_at h r) i with
    | None => (h, None)
    | Some w =>
      match read h w with
      | (_, inl (Tsr q v)) => andthen (assign w (Tsr q v) (update i v) h) (descend update r is)
      | (_, inl _) => (h, Some AttributeError)
      | (_, inr x) => (h, Some x)
      end
    end
  end.
(** See [descend] (sequential.py 125-130). *)
Fixpoint train (update : nat -> nat -> V -> V) (ls : list layer) (h : heap) : outcome :=
  match ls with
  | [] => (h, None)
  | l :: ls => andthen (train (fun k => update (S k)) ls h) (fun h => descend (update 0) (own l) (seq 0 (length (list_at h (own l)))) h)
  end.
End Alias.
Arguments entry : clear implicits.
Arguments heap : clear implicits.
Arguments layer : clear implicits.
