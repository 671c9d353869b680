(** Model of the weights of tfe.keras models and of clone_model (tf_encrypted/keras: models/sequential.py, engine/base_layer.py,
    layers/dense.py, layers/convolutional.py, layers/normalization.py). Entries are taken from any ring; sharing, truncation and
    wrap-around are not modelled here. *)
From Coq Require Import List Arith Bool.
From Verif Require Import ConvModel.
Import ListNotations.
Local Notation "'do' x <- m ; k" := (match m with Ok x => k | Err e => Err e end) (at level 200, x name, m at level 100, k at level 200).

(** What stands in a list of weights (base_layer.py 131-139, normalization.py 227-234): a numpy array, a private or public tensor, a
    private or public variable. *)
Inductive kind := Arr | Priv | PrivVar | Pub | PubVar.

(** The shape of the result of an operation on two tensors (tf.multiply and np.multiply in convolutional.py 520, 530; additions and
    products of native.py 342-356), for shapes written from the last axis on. *)
Fixpoint broadcast_rev (d e : list nat) : res (list nat) :=
  match d, e with
  | [], _ => Ok e
  | _, [] => Ok d
  | a :: d, b :: e =>
    do r <- broadcast_rev d e;
    if Nat.eqb a b then Ok (a :: r) else if Nat.eqb a 1 then Ok (b :: r) else if Nat.eqb b 1 then Ok (a :: r) else Err ValueError
  end.
(** See [broadcast_rev] (convolutional.py 520, 530; native.py 342-356). *)
Definition broadcast (d e : list nat) : res (list nat) := do r <- broadcast_rev (rev d) (rev e); Ok (rev r).
(** The index of an operand of shape [d] for an index of the result: axes of length one are repeated (convolutional.py 520, 530;
    native.py 342-356). *)
Definition stretch (d idx : list nat) : list nat :=
  map (fun '(a, i) => if Nat.eqb a 1 then 0 else i) (combine d (skipn (length idx - length d) idx)).

Section Clone.
Context {A : Type} (zero one : A) (add mul sub : A -> A -> A) (sqrt recip : A -> A) (epsilon : A).

(** An operation on two tensors, with broadcasting (convolutional.py 520, 530; native.py 342-356). *)
Definition broadcasted (f : A -> A -> A) (x y : ten A) : res (ten A) :=
  do d <- broadcast (dims x) (dims y);
  Ok (Ten d (fun idx => f (val x (stretch (dims x) idx)) (val y (stretch (dims y) idx)))).

(** A layer as its constructor makes it, with the arguments that matter here: Dense (dense.py 44-74), Conv2D
    (convolutional.py 87-142), DepthwiseConv2D (convolutional.py 380-463), BatchNormalization (normalization.py 89-153). Conv2D and
    DepthwiseConv2D have a kernel size. [PlainC] is any layer without weights (for instance flatten.py, relu.py, pooling.py). *)
Inductive config :=
| DenseC (units : nat) (use_bias : bool) (act : option (ten A -> ten A))
| ConvC (k0 k1 filters : nat) (L : conv) (use_bias : bool) (act : option (ten A -> ten A))
| DepthC (k0 k1 m : nat) (L : conv) (use_bias : bool) (act : option (ten A -> ten A))
| NormC (axis : nat) (scale center : bool)
| PlainC (f : ten A -> res (ten A)).
(** What the constructors reject (convolutional.py 115-120, 417-422; normalization.py 146-147). *)
Definition instantiate (c : config) : res config :=
  match c with
  | ConvC k0 k1 _ _ _ _ | DepthC k0 k1 _ _ _ _ => if Nat.eqb k0 k1 then Ok c else Err NotImplementedError
  | NormC axis _ _ => if Nat.eqb axis 1 || Nat.eqb axis 3 then Ok c else Err ValueError
  | _ => Ok c
  end.

(** convolutional.py 587-599 [get_mask]: zeros, and then ones at the entries that the two loops visit. *)
Definition get_mask (k0 k1 c m : nat) : ten A :=
  fold_left (fun t d => fold_left (fun t i =>
      Ten (dims t) (fun idx => match idx with [_; _; i'; j] => if Nat.eqb i' i && Nat.eqb j (d + i * m) then one else val t idx | _ => val t idx end))
    (seq 0 c) t) (seq 0 m) (Ten [k0; k1; c; c * m] (fun _ => zero)).
(** convolutional.py 493-545 [rearrange_kernel]. *)
Definition rearrange (k0 k1 c m : nat) (kernel : ten A) : res (ten A) :=
  do kernel <- (if 1 <? m then reshape [k0; k1; 1; c * m] kernel else Ok kernel);
  broadcasted mul kernel (get_mask k0 k1 c m).

(** A layer of a model: its arguments, whether it is built, the values of [self.weights], and [self.denom] of BatchNormalization
    (base_layer.py 66-67; normalization.py 155-188). *)
Record layer := Layer { cfg : config; built : bool; kept : list (ten A); denom : option (ten A) }.
(** The list of an optional weight (dense.py 93-97, convolutional.py 160-167, 482-489; normalization.py 164-174). *)
Definition when (b : bool) (w : ten A) : list (ten A) := if b then [w] else [].
(** [1.0 / tf.sqrt(moving_variance_init + self.epsilon)], and what [set_weights] computes from the moving variance
    (normalization.py 182, 240-242). *)
Definition denominator (v : ten A) : ten A := Ten (dims v) (fun idx => recip (sqrt (add (val v idx) epsilon))).
(** [input_shape[channel_axis]] (convolutional.py 145-154, 466-475). *)
Definition channels (first : bool) (d : list nat) : res nat :=
  match (if first then nth_error d 1 else nth_error d (length d - 1)) with Some c => Ok c | None => Err IndexError end.
(** The [build] methods (dense.py 79-99, convolutional.py 144-169, 465-491, normalization.py 155-188; base_layer.py 69-80); [init i]
    are the entries that the initializer of weight [i] makes for a shape. BatchNormalization of tensors of rank other than 2 and 4
    raises UnboundLocalError or IndexError, which is [ValueError] here. *)
Definition build (init : nat -> list nat -> list nat -> A) (c : config) (d : list nat) : res layer :=
  let new i s := Ten s (init i s) in
  match c with
  | DenseC units use_bias _ =>
    match d with
    | _ :: _ :: _ :: _ => Err NotImplementedError
    | [_; q] => Ok (Layer c true (new 0 [q; units] :: when use_bias (new 1 [units])) None)
    | _ => Err IndexError
    end
  | ConvC k0 k1 filters L use_bias _ =>
    do q <- channels (channels_first L) d;
    Ok (Layer c true (new 0 [k0; k1; q; filters] :: when use_bias (new 1 [filters; 1; 1])) None)
  | DepthC k0 k1 m L use_bias _ =>
    do q <- channels (channels_first L) d;
    do kernel <- rearrange k0 k1 q m (new 0 [k0; k1; q; m]);
    Ok (Layer c true (kernel :: when use_bias (new 1 [q * m; 1; 1])) None)
  | NormC axis scale center =>
    if Nat.eqb (length d) 2 || Nat.eqb (length d) 4 then
      match nth_error d axis with
      | Some q =>
        let s := set_nth axis q (repeat 1 (length d)) in
        Ok (Layer c true (when scale (new 0 s) ++ when center (new 1 s) ++ [new 2 s; new 3 s]) (Some (denominator (new 3 s))))
      | None => Err IndexError
      end
    else Err ValueError
  | PlainC _ => Ok (Layer c true [] None)
  end.

(** [self.activation(outputs)] (dense.py 112-113, convolutional.py 187-188, 562-564). *)
Definition activated (act : option (ten A -> ten A)) (t : ten A) : ten A := match act with Some f => f t | None => t end.
(** The [call] methods of Conv2D and DepthwiseConv2D (convolutional.py 171-191, 547-564). *)
Definition convolve (L : conv) (kernel : ten A) (bias : option (ten A)) (act : option (ten A -> ten A)) (x : ten A) : res (ten A) :=
  let x := if channels_first L then x else transpose [0; 3; 1; 2] x in
  do out <- conv2d zero add mul x kernel (stride0 L) (stride1 L) (pad L);
  do out <- (match bias with Some b => broadcasted add out b | None => Ok out end);
  Ok (activated act (if channels_first L then out else transpose [0; 2; 3; 1] out)).
(** [self.bias], when it exists (dense.py 93-97, convolutional.py 160-167, 482-489). *)
Definition bias_of (use_bias : bool) (ws : list (ten A)) : res (option (ten A)) :=
  if use_bias then match ws with b :: _ => Ok (Some b) | [] => Err AttributeError end else Ok None.
(** The [call] methods (dense.py 101-117, convolutional.py 171-191, 547-564, normalization.py 190-210; base_layer.py 82-89). *)
Definition call (l : layer) (x : ten A) : res (ten A) :=
  match cfg l, kept l with
  | DenseC _ use_bias act, kernel :: ws =>
    do b <- bias_of use_bias ws;
    do out <- matmul zero add mul x kernel;
    do out <- (match b with Some b => broadcasted add out b | None => Ok out end);
    Ok (activated act out)
  | ConvC _ _ _ L use_bias act, kernel :: ws => do b <- bias_of use_bias ws; convolve L kernel b act x
  | DepthC _ _ _ L use_bias act, kernel :: ws => do b <- bias_of use_bias ws; convolve L kernel b act x
  | NormC _ scale center, ws =>
    match scale, center, ws, denom l with
    | false, false, [mean; _], Some dn => do t <- broadcasted sub x mean; broadcasted mul t dn
    | false, true, [beta; mean; _], Some dn => do t <- broadcasted sub x mean; do t <- broadcasted mul t dn; broadcasted add t beta
    | true, false, [gamma; mean; _], Some dn => do t <- broadcasted sub x mean; do t <- broadcasted mul gamma t; broadcasted mul t dn
    | true, true, [gamma; beta; mean; _], Some dn =>
      do t <- broadcasted sub x mean; do t <- broadcasted mul gamma t; do t <- broadcasted mul t dn; broadcasted add t beta
    | _, _, _, _ => Err AttributeError
    end
  | PlainC f, _ => f x
  | _, _ => Err AttributeError
  end.
(** base_layer.py 94-112 [__call__]: the layer is built first if it is not. *)
Definition apply (init : nat -> list nat -> list nat -> A) (l : layer) (x : ten A) : res (layer * ten A) :=
  do l <- (if built l then Ok l else build init (cfg l) (dims x));
  do y <- call l x;
  Ok (l, y).

(** A Sequential model: its layers and [self.outputs] (sequential.py 16-92). *)
Record model := Model { layers : list layer; outputs : option (ten A) }.
(** sequential.py 26-92 [add]; [input] is the placeholder made from [batch_input_shape] of the layer, if it has one. *)
Definition add_layer (init : nat -> list nat -> list nat -> A) (input : option (ten A)) (M : model) (c : config) : res model :=
  match layers M, input, outputs M with
  | [], None, _ => Err AttributeError
  | [], Some x, _ | _ :: _, _, Some x => do r <- apply init (Layer c false [] None) x; Ok (Model (layers M ++ [fst r]) (Some (snd r)))
  | _ :: _, _, None => Ok (Model (layers M ++ [Layer c false [] None]) None)
  end.
(** sequential.py 182-201 [model_from_config], where the initializers of the layers make the entries [init 0], [init 1], ... *)
Fixpoint from_config (init : nat -> nat -> list nat -> list nat -> A) (input : option (ten A)) (i : nat) (M : model) (cs : list config) : res model :=
  match cs with
  | [] => Ok M
  | c :: cs => do c <- instantiate c; do M <- add_layer (init i) input M c; from_config init input (S i) M cs
  end.
(** sequential.py 94-113 [call] of a model whose layers are built. *)
Fixpoint run (ls : list layer) (x : ten A) : res (ten A) :=
  match ls with [] => Ok x | l :: ls => do y <- call l x; run ls y end.

(** [tfe.assign(w, new)] (aby3.py 1118-1169): TensorFlow checks the shape. *)
Definition assign (old new : ten A) : res (ten A) := if same_shape (dims old) (dims new) then Ok new else Err ValueError.
(** The checks and conversions of the list of weights (base_layer.py 131-139; convolutional.py 611-621; normalization.py 227-234), for
    weights that are all of the kind of the first: private layers take arrays and private tensors, BatchNormalization takes arrays
    and public tensors. *)
Definition values (public : bool) (ws : list (kind * ten A)) : res (list (ten A)) :=
  match ws with
  | [] => Err IndexError
  | (k, _) :: _ =>
    match k, public with
    | Arr, _ | Priv, false | PrivVar, false | Pub, true | PubVar, true => Ok (map snd ws)
    | _, _ => Err AssertionError
    end
  end.
(** [for i, w in enumerate(self.weights): tfe.assign(w, weights[i].reshape(shape))] (base_layer.py 140-142, convolutional.py 623-633,
    normalization.py 235-237); [first] is what is done to the first weight. *)
Fixpoint assign_all (first : ten A -> ten A -> res (ten A)) (old new : list (ten A)) : res (list (ten A)) :=
  match old, new with
  | [], _ => Ok []
  | _ :: _, [] => Err IndexError
  | w :: old, v :: new =>
    do v <- first w v; do v <- assign w v; do r <- assign_all (fun w v => reshape (dims w) v) old new; Ok (v :: r)
  end.
(** The [set_weights] methods of layers (base_layer.py 124-142, convolutional.py 601-633, normalization.py 218-245). *)
Definition set_layer (l : layer) (ws : list (kind * ten A)) : res layer :=
  match cfg l with
  | DepthC k0 k1 m _ _ _ =>
    do vs <- values false ws;
    do r <- assign_all (fun w v => rearrange k0 k1 (nth 2 (dims w) 0) m v) (kept l) vs;
    Ok (Layer (cfg l) (built l) r (denom l))
  | NormC _ _ _ =>
    do vs <- values true ws;
    do r <- assign_all (fun w v => reshape (dims w) v) (kept l) vs;
    match rev r, denom l with
    | v :: _, Some dn => do dn <- assign dn (denominator v); Ok (Layer (cfg l) (built l) r (Some dn))
    | _, _ => Err AttributeError
    end
  | _ =>
    do vs <- values false ws;
    do r <- assign_all (fun w v => reshape (dims w) v) (kept l) vs;
    Ok (Layer (cfg l) (built l) r (denom l))
  end.
(** The argument of [set_weights] of a model: a list of weights, or a list of lists (sequential.py 146-158). *)
Inductive given := Flat (ws : list (kind * ten A)) | Nested (wss : list (list (kind * ten A))).
(** [weights[: len(layer.weights)]] for each layer (sequential.py 154-158). *)
Fixpoint split (ls : list layer) (ws : list (kind * ten A)) : list (list (kind * ten A)) :=
  match ls with
  | [] => []
  | l :: ls => firstn (length (kept l)) ws :: split ls (skipn (length (kept l)) ws)
  end.
(** The loop over the layers (sequential.py 160-164). *)
Fixpoint set_all (ls : list layer) (wss : list (list (kind * ten A))) : res (list layer) :=
  match wss, ls with
  | [], _ => Ok ls
  | [] :: wss, l :: ls => do r <- set_all ls wss; Ok (l :: r)
  | ws :: wss, l :: ls => do l <- set_layer l ws; do r <- set_all ls wss; Ok (l :: r)
  | wss, [] => if forallb (fun ws => match ws with [] => true | _ => false end) wss then Ok [] else Err IndexError
  end.
(** sequential.py 146-164 [set_weights]. The state after an exception is not modelled. *)
Definition set_weights (M : model) (g : given) : res model :=
  match g with
  | Flat [] | Nested [] => Err IndexError
  | Flat ws => do ls <- set_all (layers M) (split (layers M) ws); Ok (Model ls (outputs M))
  | Nested wss => do ls <- set_all (layers M) wss; Ok (Model ls (outputs M))
  end.
(** sequential.py 204-221 [clone_model] of a model with the configuration [cs] and the weights [ws]. *)
Definition clone_model (init : nat -> nat -> list nat -> list nat -> A) (input : option (ten A)) (cs : list config) (ws : list (ten A)) : res model :=
  do M <- from_config init input 0 (Model [] None) cs;
  set_weights M (Flat (map (pair Arr) ws)).
End Clone.
