(** Vocabulary of the theorems about cloned models, independent of the programs: what the layers of tf.keras compute. *)
From Coq Require Import List Arith Bool.
From Verif Require Import ConvModel ConvSpec CloneModel.
Import ListNotations.

Section CloneSpec.
Context {A : Type} (zero one : A) (add mul sub : A -> A -> A) (sqrt recip : A -> A) (epsilon : A).

(** The value at place [g], to which the entry of the bias is added if there is one. *)
Definition shifted (bias : list (ten A)) (g : nat) (v : A) : A := match bias with b :: _ => add v (val b [g]) | [] => v end.
(** [z] is [y] after the activation, if there is one. *)
Definition acted (act : option (ten A -> ten A)) (y z : ten A) : Prop := match act with Some a => z = a y | None => z = y end.
(** [idx] is an index of a tensor of shape [d]. *)
Definition within (idx d : list nat) : Prop := Forall2 lt idx d.
(** The weights of a normalization: the scale and the offset are left out if the layer has none. *)
Definition normed (axis : nat) (gamma beta : option (ten A)) (mean var x z : ten A) : Prop :=
  dims z = dims x /\ forall idx, within idx (dims x) ->
    let at_channel (t : ten A) := val t [nth axis idx 0] in
    let v := mul (sub (val x idx) (at_channel mean)) (recip (sqrt (add (at_channel var) epsilon))) in
    let v := match gamma with Some g => mul (at_channel g) v | None => v end in
    val z idx = match beta with Some b => add v (at_channel b) | None => v end.

(** [z] is what a layer of tf.keras with the arguments [c] and the weights [ws] makes of [x]. *)
Definition keras (c : config (A:=A)) (ws : list (ten A)) (x z : ten A) : Prop :=
  match c, ws with
  | DenseC units _ act, K :: bias =>
    exists n q y, dims x = [n; q] /\ dims y = [n; units] /\ acted act y z /\
    forall i j, i < n -> j < units -> val y [i; j] = shifted bias j (sigma zero add q (fun k => mul (val x [i; k]) (val K [k; j])))
  | ConvC k0 k1 f L _ act, K :: bias =>
    exists n c h w ho wo top left y, let first := channels_first L in
    dims x = shape first n c h w /\ dims y = shape first n f ho wo /\ acted act y z /\
    windows (pad L) h k0 (stride0 L) ho /\ windows (pad L) w k1 (stride1 L) wo /\
    placed (pad L) h k0 (stride0 L) ho top /\ placed (pad L) w k1 (stride1 L) wo left /\
    forall b g i j, b < n -> g < f -> i < ho -> j < wo ->
      nchw first y b g i j = shifted bias g (correlation zero add mul (extended zero (nchw first x) h w top left) (at4 K) c k0 k1 (stride0 L) (stride1 L) b g i j)
  | DepthC k0 k1 m L _ act, K :: bias =>
    exists n c h w ho wo top left y, let first := channels_first L in
    dims x = shape first n c h w /\ dims y = shape first n (c * m) ho wo /\ acted act y z /\
    windows (pad L) h k0 (stride0 L) ho /\ windows (pad L) w k1 (stride1 L) wo /\
    placed (pad L) h k0 (stride0 L) ho top /\ placed (pad L) w k1 (stride1 L) wo left /\
    forall b ch d i j, b < n -> ch < c -> d < m -> i < ho -> j < wo ->
      nchw first y b (ch * m + d) i j = shifted bias (ch * m + d)
        (sigma zero add k0 (fun u => sigma zero add k1 (fun v =>
          mul (extended zero (nchw first x) h w top left b ch (i * stride0 L + u) (j * stride1 L + v)) (at4 K u v ch d))))
  | NormC axis true true, [gamma; beta; mean; var] => normed axis (Some gamma) (Some beta) mean var x z
  | NormC axis true false, [gamma; mean; var] => normed axis (Some gamma) None mean var x z
  | NormC axis false true, [beta; mean; var] => normed axis None (Some beta) mean var x z
  | NormC axis false false, [mean; var] => normed axis None None mean var x z
  | PlainC f, [] => f x = Ok z
  | _, _ => False
  end.
(** One layer after the other, each with its weights. *)
Fixpoint keras_net (cs : list (config (A:=A))) (wss : list (list (ten A))) (x z : ten A) : Prop :=
  match cs, wss with
  | [], [] => z = x
  | c :: cs, ws :: wss => exists y, keras c ws x y /\ keras_net cs wss y z
  | _, _ => False
  end.

(** The activation keeps the shape. *)
Definition keeps (act : option (ten A -> ten A)) : Prop := match act with Some a => forall t, dims (a t) = dims t | None => True end.
(** The shape of one image. *)
Definition image (first : bool) (c h w : nat) : list nat := if first then [c; h; w] else [h; w; c].
(** A layer that tf-encrypted supports, for samples of shape [d]; it makes samples of shape [d']. *)
Definition supported (c : config (A:=A)) (d d' : list nat) : Prop :=
  match c with
  | DenseC units _ act => length d = 1 /\ d' = [units] /\ keeps act
  | ConvC k0 k1 f L _ act => exists c h w ho wo, d = image (channels_first L) c h w /\ d' = image (channels_first L) f ho wo /\
    k0 = k1 /\ 0 < k0 /\ 0 < c /\ 0 < f /\ 0 < stride0 L /\ 0 < stride1 L /\
    windows (pad L) h k0 (stride0 L) ho /\ windows (pad L) w k1 (stride1 L) wo /\ keeps act
  | DepthC k0 k1 m L _ act => exists c h w ho wo, d = image (channels_first L) c h w /\ d' = image (channels_first L) (c * m) ho wo /\
    k0 = k1 /\ 0 < k0 /\ 0 < c /\ 0 < m /\ 0 < stride0 L /\ 0 < stride1 L /\
    windows (pad L) h k0 (stride0 L) ho /\ windows (pad L) w k1 (stride1 L) wo /\ keeps act
  | NormC axis _ _ => d' = d /\ (axis = 1 /\ length d = 1 \/ axis = 1 /\ length d = 3 \/ axis = 3 /\ length d = 3)
  | PlainC f => forall n x, dims x = n :: d -> exists z, f x = Ok z /\ dims z = n :: d'
  end.
(** The number of channels of an image. *)
Definition depth (first : bool) (d : list nat) : nat := nth (if first then 0 else 2) d 0.
(** The shapes of the weights of a layer of tf.keras for samples of shape [d]. *)
Definition keras_shapes (c : config (A:=A)) (d : list nat) : list (list nat) :=
  match c with
  | DenseC units b _ => [nth 0 d 0; units] :: (if b then [[units]] else [])
  | ConvC k0 k1 f L b _ => [k0; k1; depth (channels_first L) d; f] :: (if b then [[f]] else [])
  | DepthC k0 k1 m L b _ => [k0; k1; depth (channels_first L) d; m] :: (if b then [[depth (channels_first L) d * m]] else [])
  | NormC axis scale center => repeat [nth (axis - 1) d 0] (2 + (if scale then 1 else 0) + (if center then 1 else 0))
  | PlainC _ => []
  end.
(** A network of supported layers, from samples of shape [d] to samples of shape [d']. *)
Fixpoint supported_net (cs : list (config (A:=A))) (d d' : list nat) : Prop :=
  match cs with [] => d' = d | c :: cs => exists e, supported c d e /\ supported_net cs e d' end.
(** The weights have the shapes that tf.keras gives them. *)
Fixpoint weighted (cs : list (config (A:=A))) (wss : list (list (ten A))) (d : list nat) : Prop :=
  match cs, wss with
  | [], [] => True
  | c :: cs, ws :: wss => map dims ws = keras_shapes c d /\ exists e, supported c d e /\ weighted cs wss e
  | _, _ => False
  end.

(** The kinds of weights that a layer takes: arrays, and tensors or variables that are public for a normalization and private for
    other layers. *)
Definition takes (c : config (A:=A)) (k : kind) : bool :=
  match k, c with Arr, _ | Pub, NormC _ _ _ | PubVar, NormC _ _ _ => true | _, NormC _ _ _ => false | Priv, _ | PrivVar, _ => true | _, _ => false end.
(** The weights of each layer, as weights of one kind for each layer. *)
Definition tagged (ks : list kind) (wss : list (list (ten A))) : list (list (kind * ten A)) :=
  map (fun '(k, ws) => map (pair k) ws) (combine ks wss).
(** The two ways to write down the weights of a network: one after the other, or in a list for each layer. *)
Definition written (ks : list kind) (wss : list (list (ten A))) (g : given (A:=A)) : Prop :=
  length ks = length wss /\ (g = Nested (tagged ks wss) \/ concat wss <> [] /\ g = Flat (concat (tagged ks wss))).
(** Models made from a configuration, whose weights may have been set any number of times. *)
Inductive made (init : nat -> nat -> list nat -> list nat -> A) (input : ten A) (cs : list (config (A:=A))) : model (A:=A) -> Prop :=
| made_new M : from_config zero one add mul sub sqrt recip epsilon init (Some input) 0 (Model [] None) cs = Ok M -> made init input cs M
| made_set M g M' : made init input cs M -> set_weights zero one add mul sqrt recip epsilon M g = Ok M' -> made init input cs M'.
(** The same shape and the same entries. *)
Definition same (s t : ten A) : Prop := dims s = dims t /\ forall idx, within idx (dims s) -> val s idx = val t idx.
(** A layer whose depth multiplier, if it has one, is one. *)
Definition one_each (c : config (A:=A)) : Prop := match c with DepthC _ _ m _ _ _ => m = 1 | _ => True end.
(** Copies of the weights of a model: a list for each layer, of variables. *)
Definition own (M : model (A:=A)) : given (A:=A) :=
  Nested (map (fun l => map (pair (match cfg l with NormC _ _ _ => PubVar | _ => PrivVar end)) (kept l)) (layers M)).
(** Two layers with the same arguments and the same values of all their variables. *)
Definition same_layer (l l' : layer (A:=A)) : Prop :=
  cfg l = cfg l' /\ built l = built l' /\ Forall2 same (kept l) (kept l') /\
  match denom l, denom l' with Some t, Some t' => same t t' | None, None => True | _, _ => False end.
End CloneSpec.
