(** Model of the converter of ONNX models (tf_encrypted/convert/convert.py, convert/nodes.py). Entries are taken from any
    ring; sharing, truncation and wrap-around are not modelled here. *)
From Coq Require Import List Arith Bool ZArith.
From Verif Require Import ConvModel.
Import ListNotations.
Local Notation "'do' x <- m ; k" := (match m with Ok x => k | Err e => Err e end) (at level 200, x name, m at level 100, k at level 200).

(** The names of the attributes of a Gemm node (nodes.py 231, 238 read them by position). *)
Inductive attr := Alpha | Beta | TransA | TransB.
(** The kinds of nodes modelled here, with their attributes (nodes.py 895-925): Gemm has a list of integer attributes, Conv has strides, the
    optional attribute pads (top, left, bottom, right) and group 1, Transpose has a permutation. *)
Inductive op :=
| AddOp | SubOp | MulOp | NegOp | MatMulOp
| GemmOp (attrs : list (attr * nat))
| ConvOp (s0 s1 : nat) (pads : option (nat * nat * nat * nat))
| ReluOp | FlattenOp
| TransposeOp (perm : list nat).
(** A node of the graph of the model: its name, its kind, the names of its inputs and outputs (convert.py 192-206). Names are numbers. *)
Record node := Node { nname : nat; nop : op; nin : list nat; nout : list nat }.
(** The graph of a model: initializers, inputs, nodes, outputs (convert.py 171-182, 189-192, 226-228). *)
Record graph (A : Type) := Graph { ginit : list (nat * ten A); gin : list nat; gnodes : list node; gout : list nat }.
Arguments Graph {A}. Arguments ginit {A}. Arguments gin {A}. Arguments gnodes {A}. Arguments gout {A}.
(** A Python dictionary, as a function (convert.py 187-188, 214, 238). *)
Definition dict (X : Type) := nat -> option X.
(** The empty dictionary (convert.py 187-188, 214, 238). *)
Definition nothing {X} : dict X := fun _ => None.
(** An assignment to an entry of a dictionary (convert.py 190, 204, 206, 216, 225, 240, 254). *)
Definition put {X} (d : dict X) (k : nat) (v : X) : dict X := fun q => if Nat.eqb q k then Some v else d q.
(** [for index, k in enumerate(ks): d[k] = vs[index]] (convert.py 189-190, 205-206, 215-216, 224-225, 239-240). *)
Fixpoint put_all {X} (d : dict X) (ks : list nat) (vs : list X) : res (dict X) :=
  match ks, vs with
  | [], _ => Ok d
  | k :: ks, v :: vs => put_all (put d k v) ks vs
  | _ :: _, [] => Err IndexError
  end.
(** Reads the entries of a dictionary (convert.py 226-228, 244-245, 257-259). *)
Fixpoint get_all {X} (d : dict X) (ks : list nat) : res (list X) :=
  match ks with
  | [] => Ok []
  | k :: ks => match d k with Some v => do vs <- get_all d ks; Ok (v :: vs) | None => Err KeyError end
  end.

(** An input of a node as [build_node] gets it: an initializer, or the shape of another tensor (convert.py 193-202). *)
Inductive arg (A : Type) := Init (t : ten A) | Shape (s : list Z).
Arguments Init {A}. Arguments Shape {A}.
(** An object of a subclass of [BaseNode] (nodes.py 40-50): its kind, its weights, the shape of its first input, and the tensor or
    tensors that the last call of [forward] kept for [backward] (nodes.py 155-157, dense.py 103, convolutional.py 172). *)
Record obj (A : Type) := Obj { okind : op; weights : list (ten A); shape_in : list Z; saved : list (ten A) }.
Arguments Obj {A}. Arguments okind {A}. Arguments weights {A}. Arguments shape_in {A}. Arguments saved {A}.

(** [int(np.ceil(float(a) / float(b)))] (convolutional.py 306-307). *)
Definition zceil (a : Z) (b : nat) : Z := (- ((- a) / Z.of_nat b))%Z.
(** The product of the entries of a list (nodes.py 781 [reduce]; also tf.reshape in native.py 464-465). *)
Definition zprod (d : list Z) : Z := fold_right Z.mul 1%Z d.
(** native.py 464-465 [reshape] to a shape that may have one unknown entry. *)
Definition zreshape {A} (d : list Z) (t : ten A) : res (ten A) :=
  let known := filter (fun z => negb (z =? -1)%Z) d in
  let p := Z.to_nat (zprod known) in
  if forallb (Z.leb 0) known then
    match length d - length known with
    | O => reshape (map Z.to_nat d) t
    | S O => if (0 <? p) then reshape (map (fun z => if (z =? -1)%Z then psize (dims t) / p else Z.to_nat z) d) t else Err ValueError
    | _ => Err ValueError
    end
  else Err ValueError.
(** The transposition of a matrix (nodes.py 232, 251, 259; dense.py 131-132); the code reverses the axes of any tensor. *)
Definition flip {A} (t : ten A) : ten A := transpose (rev (seq 0 (length (dims t)))) t.
(** np.argsort of a permutation (nodes.py 802): the positions of 0, 1, ... *)
Definition argsort (perm : list nat) : list nat := map (fun q => pos q perm) (seq 0 (length perm)).

Section Onnx.
Context {A : Type} (zero : A) (add mul : A -> A -> A) (opp : A -> A) (positive : A -> bool) (over : A -> nat -> A).

(** [tfe.add], [tfe.sub] and [tfe.mul] of tensors of the same shape (nodes.py 105-107, 136, 157). *)
Definition entrywise (f : A -> A -> A) (x y : ten A) : res (ten A) :=
  if same_shape (dims x) (dims y) then Ok (Ten (dims x) (fun idx => f (val x idx) (val y idx))) else Err ValueError.
(** [tfe.add(x, b)] where [b] has no batch axis (nodes.py 107-109, dense.py 106-108). *)
Definition add_row (x b : ten A) : res (ten A) :=
  if same_shape (tl (dims x)) (dims b) then Ok (Ten (dims x) (fun idx => add (val x idx) (val b (tl idx)))) else Err ValueError.
(** [tfe.add(x, b)] for a tensor [b] of the same shape or without batch axis (nodes.py 107-109). Other ways of broadcasting are not modelled. *)
Definition add_to (x b : ten A) : res (ten A) := if same_shape (dims x) (dims b) then entrywise add x b else add_row x b.
(** [d_y.reduce_sum(axis=0)] (nodes.py 118, dense.py 138). *)
Definition sum_rows (t : ten A) : ten A := Ten (tl (dims t)) (fun idx => sum zero add (hd 0 (dims t)) (fun b => val t (b :: idx))).

(** dense.py 78-99 [build], 75-76 [compute_output_shape] and base_layer.py 124-142 [set_weights]: the weights and the output shape. *)
Definition dense_build (s : list Z) (kernel : ten A) (bias : option (ten A)) : res (list (ten A) * list Z) :=
  match dims kernel with
  | _ :: u :: _ =>
    match s with
    | [b; m] =>
      do k <- reshape [Z.to_nat m; u] kernel;
      match bias with
      | None => Ok ([k], [b; Z.of_nat u])
      | Some c => do c <- reshape [u] c; Ok ([k; c], [b; Z.of_nat u])
      end
    | [] | [_] => Err IndexError
    | _ => Err NotImplementedError
    end
  | _ => Err IndexError
  end.
(** dense.py 101-117 [call] without activation. *)
Definition dense_call (ws : list (ten A)) (x : ten A) : res (ten A) :=
  match ws with
  | [k] => matmul zero add mul x k
  | [k; b] => do y <- matmul zero add mul x k; add_row y b
  | _ => Err AttributeError
  end.
(** dense.py 119-143 [backward] without activation and lazy normalization. *)
Definition dense_backward (ws : list (ten A)) (x dy : ten A) : res (list (ten A) * ten A) :=
  match ws with
  | k :: r =>
    do dx <- matmul zero add mul dy (flip k);
    do dk <- matmul zero add mul (flip x) dy;
    Ok (dk :: match r with [] => [] | _ => [sum_rows dy] end, dx)
  | _ => Err AttributeError
  end.
(** The padding of nodes.py 326-335: the third entry of pads comes before the rows, the first one after. *)
Definition conv_pad (pads : option (nat * nat * nat * nat)) (x : ten A) : ten A :=
  match pads with
  | None => x
  | Some (p0, p1, p2, p3) => pad_axis zero 3 p1 p3 (pad_axis zero 2 p2 p0 x)
  end.
(** The slice of nodes.py 342-348. *)
Definition conv_crop (pads : option (nat * nat * nat * nat)) (x : ten A) : ten A :=
  match pads with
  | None => x
  | Some (p0, p1, p2, p3) => crop_axis 3 p1 p3 (crop_axis 2 p2 p0 x)
  end.
(** nodes.py 264-322 [Conv2dNode.__init__] for group 1, with convolutional.py 111-117 (square kernels), 143-169 [build], 294-313
    [compute_output_shape] and base_layer.py 124-142 [set_weights]: the weights and the output shape. *)
Definition conv_build (s0 : nat) (pads : option (nat * nat * nat * nat)) (s : list Z) (kernel : ten A) (bias : option (ten A)) : res (list (ten A) * list Z) :=
  match s with
  | [b; c; h; w] =>
    let kernel := transpose [2; 3; 1; 0] kernel in
    let h := match pads with Some (p0, _, p2, _) => (h + Z.of_nat (p0 + p2))%Z | None => h end in
    let w := match pads with Some (_, p1, _, p3) => (w + Z.of_nat (p1 + p3))%Z | None => w end in
    match dims kernel with
    | [k0; k1; _; f] =>
      if Nat.eqb k0 k1 then
        let out := [b; Z.of_nat f; zceil (h - Z.of_nat k0 + 1) s0; zceil (w - Z.of_nat k1 + 1) s0] in
        do k <- reshape [k0; k1; Z.to_nat c; f] kernel;
        match bias with
        | None => Ok ([k], out)
        | Some v => do v <- reshape [f; 1; 1] v; Ok ([k; v], out)
        end
      else Err NotImplementedError
    | _ => Err ValueError
    end
  | _ => Err ValueError
  end.
(** The Conv2D layer of nodes.py 301-309. *)
Definition conv_layer (s0 s1 : nat) : conv := Conv s0 s1 VALID true false.

(** nodes.py 928-932 [build_node] and the constructors 87-103, 126-133, 144-153, 167-173, 183-209, 220-247, 264-322, 462-473, 774-782,
    794-803: the object and the shape of its output. *)
Definition build_node (o : op) (args : list (arg A)) : res (obj A * list Z) :=
  match args with
  | [] => Err IndexError
  | Init _ :: _ => Err AssertionError
  | Shape s :: r =>
    match o with
    | AddOp =>
      match r with
      | [] => Err IndexError
      | Init b :: _ => Ok (Obj o [b] s [], s)
      | Shape _ :: _ => Ok (Obj o [] s [], s)
      end
    | SubOp | MulOp =>
      match r with
      | [] => Err IndexError
      | Init _ :: _ => Err AssertionError
      | Shape _ :: _ => Ok (Obj o [] s [], s)
      end
    | NegOp | ReluOp => Ok (Obj o [] s [], s)
    | MatMulOp =>
      match r with
      | [] => Err IndexError
      | Shape _ :: _ => Err AssertionError
      | Init k :: [Init b] => do ws <- dense_build s k (Some b); Ok (Obj o (fst ws) s [], snd ws)
      | Init _ :: [Shape _] => Err AssertionError
      | Init k :: _ => do ws <- dense_build s k None; Ok (Obj o (fst ws) s [], snd ws)
      end
    | GemmOp attrs =>
      match r with
      | Init k :: Init b :: _ =>
        match attrs with
        | _ :: (_, i) :: _ => do ws <- dense_build s (if Nat.eqb i 0 then k else flip k) (Some b); Ok (Obj o (fst ws) s [], snd ws)
        | _ => Err IndexError
        end
      | Shape _ :: _ | Init _ :: Shape _ :: _ => Err AssertionError
      | _ => Err IndexError
      end
    | ConvOp s0 s1 pads =>
      match r with
      | [] => Err IndexError
      | Shape _ :: _ => Err AssertionError
      | Init k :: [Init b] => do ws <- conv_build s0 pads s k (Some b); Ok (Obj o (fst ws) s [], snd ws)
      | Init _ :: [Shape _] => Err AssertionError
      | Init k :: _ => do ws <- conv_build s0 pads s k None; Ok (Obj o (fst ws) s [], snd ws)
      end
    | FlattenOp => match tl s with [] => Err TypeError | d => Ok (Obj o [] s [], [(-1)%Z; zprod d]) end
    | TransposeOp perm =>
      if forallb (fun p => p <? length s) perm then Ok (Obj o [] s [], map (fun p => nth p s 0%Z) perm) else Err IndexError
    end
  end.

(** The [forward] methods (nodes.py 105-109, 135-136, 155-157, 175-176, 211-212, 249-254, 324-336, 475-476, 784-786, 805-806): the
    output, and what the object keeps. *)
Definition forward_node (o : obj A) (xs : list (ten A)) : res (ten A * list (ten A)) :=
  match xs with
  | [] => Err IndexError
  | x :: r =>
    match okind o with
    | AddOp =>
      match weights o, r with
      | b :: _, _ => do y <- add_to x b; Ok (y, [])
      | [], z :: _ => do y <- add_to x z; Ok (y, [])
      | [], [] => Err IndexError
      end
    | SubOp => match r with z :: _ => do y <- entrywise (fun a b => add a (opp b)) x z; Ok (y, []) | [] => Err IndexError end
    | MulOp => match r with z :: _ => do y <- entrywise mul x z; Ok (y, [x; z]) | [] => Err IndexError end
    | NegOp => Ok (Ten (dims x) (fun idx => opp (val x idx)), [])
    | MatMulOp => do y <- dense_call (weights o) x; Ok (y, [x])
    | GemmOp attrs =>
      let x := match attrs with (_, i) :: _ => if Nat.eqb i 0 then x else flip x | [] => x end in
      do y <- dense_call (weights o) x; Ok (y, [x])
    | ConvOp s0 s1 pads =>
      let x := conv_pad pads x in
      match weights o with
      | k :: b => do y <- conv_call zero add mul (conv_layer s0 s1) k (hd_error b) x; Ok (y, [x])
      | [] => Err AttributeError
      end
    | ReluOp => Ok (Ten (dims x) (fun idx => if positive (val x idx) then val x idx else zero), [x])
    | FlattenOp => do y <- zreshape [(-1)%Z; zprod (tl (shape_in o))] x; Ok (y, [])
    | TransposeOp perm => Ok (transpose perm x, [])
    end
  end.

(** The [backward] methods (nodes.py 111-122, 138-140, 159-163, 178-179, 214-216, 256-260, 338-350, 478-480, 788-790, 808-809): the
    gradients of the weights and of the inputs. *)
Definition backward_node (o : obj A) (dys : list (ten A)) : res (list (ten A) * list (ten A)) :=
  match dys with
  | [] => Err IndexError
  | dy :: _ =>
    match okind o with
    | AddOp =>
      match weights o with
      | [] => Ok ([], [dy; dy])
      | _ => let g := sum_rows dy in Ok ([Ten (dims g) (fun idx => over (val g idx) (hd 0 (dims dy)))], [dy])
      end
    | SubOp => Ok ([], [dy; Ten (dims dy) (fun idx => opp (val dy idx))])
    | MulOp =>
      match saved o with
      | a :: b :: _ => do da <- entrywise mul b dy; do db <- entrywise mul a dy; Ok ([], [da; db])
      | _ => Err TypeError
      end
    | NegOp => Ok ([], [Ten (dims dy) (fun idx => opp (val dy idx))])
    | MatMulOp =>
      match saved o with x :: _ => do g <- dense_backward (weights o) x dy; Ok (fst g, [snd g]) | [] => Err AttributeError end
    | GemmOp attrs =>
      match saved o with
      | x :: _ =>
        do g <- dense_backward (weights o) x dy;
        Ok (fst g, [match attrs with (_, i) :: _ => if Nat.eqb i 0 then snd g else flip (snd g) | [] => snd g end])
      | [] => Err AttributeError
      end
    | ConvOp s0 s1 pads =>
      match saved o, weights o with
      | x :: _, k :: b =>
        do g <- conv_backward zero add mul over (conv_layer s0 s1) k (hd_error b) x dy;
        Ok (fst (fst g) :: match snd (fst g) with Some v => [v] | None => [] end, [conv_crop pads (snd g)])
      | _, _ => Err AttributeError
      end
    | ReluOp =>
      match saved o with
      | x :: _ => do d <- entrywise (fun a d => if positive a then d else zero) x dy; Ok ([], [d])
      | [] => Err AttributeError
      end
    | FlattenOp => do d <- zreshape (shape_in o) dy; Ok ([], [d])
    | TransposeOp perm => Ok ([], [transpose (argsort perm) dy])
    end
  end.

(** convert.py 171-182 [_build_initializer]; a later initializer of the same name replaces an earlier one. *)
Definition initializers (g : graph A) : dict (ten A) := fold_left (fun d p => put d (fst p) (snd p)) (ginit g) nothing.
(** The inputs that a node is built with (convert.py 193-202). *)
Fixpoint arguments (ini : dict (ten A)) (shapes : dict (list Z)) (names : list nat) : res (list (arg A)) :=
  match names with
  | [] => Ok []
  | i :: names =>
    do a <- match ini i with Some t => Ok (Init t) | None => match shapes i with Some s => Ok (Shape s) | None => Err KeyError end end;
    do r <- arguments ini shapes names; Ok (a :: r)
  end.
(** The loop of convert.py 192-206: the objects by the names of their nodes, and the shapes of tensors. *)
Fixpoint build_nodes (ini : dict (ten A)) (nodes : list node) (objs : dict (obj A)) (shapes : dict (list Z)) : res (dict (obj A) * dict (list Z)) :=
  match nodes with
  | [] => Ok (objs, shapes)
  | n :: nodes =>
    do args <- arguments ini shapes (nin n);
    do b <- build_node (nop n) args;
    do shapes <- put_all shapes (nout n) [snd b];
    build_nodes ini nodes (put objs (nname n) (fst b)) shapes
  end.
(** [input_shape[0] = -1] (convert.py 155-156). *)
Fixpoint unknown_batch (shapes : list (list Z)) : res (list (list Z)) :=
  match shapes with
  | [] => Ok []
  | [] :: _ => Err IndexError
  | (_ :: s) :: shapes => do r <- unknown_batch shapes; Ok (((-1)%Z :: s) :: r)
  end.
(** convert.py 155-160 and 184-208 [_build_node]: the objects, and the shapes of all tensors that are no initializers. *)
Definition convert (g : graph A) (shapes : list (list Z)) : res (dict (obj A) * dict (list Z)) :=
  do shapes <- unknown_batch shapes;
  do known <- put_all nothing (gin g) shapes;
  build_nodes (initializers g) (gnodes g) nothing known.

(** The inputs of a node that have been computed; the others are skipped (convert.py 218-221). *)
Fixpoint present {X} (d : dict X) (names : list nat) : list X :=
  match names with [] => [] | i :: names => match d i with Some v => v :: present d names | None => present d names end end.
(** The loop of convert.py 217-225: the objects, with what they keep, and the tensors by name. *)
Fixpoint forward_nodes (nodes : list node) (objs : dict (obj A)) (env : dict (ten A)) : res (dict (obj A) * dict (ten A)) :=
  match nodes with
  | [] => Ok (objs, env)
  | n :: nodes =>
    match objs (nname n) with
    | None => Err KeyError
    | Some o =>
      do y <- forward_node o (present env (nin n));
      do env <- put_all env (nout n) [fst y];
      forward_nodes nodes (put objs (nname n) (Obj (okind o) (weights o) (shape_in o) (snd y))) env
    end
  end.
(** convert.py 210-231 [_build_forward]: the objects afterwards, and the outputs of the model. *)
Definition forward (g : graph A) (objs : dict (obj A)) (xs : list (ten A)) : res (dict (obj A) * list (ten A)) :=
  do env <- put_all nothing (gin g) xs;
  do r <- forward_nodes (gnodes g) objs env;
  do ys <- get_all (snd r) (gout g); Ok (fst r, ys).

(** [dy_dict[input] = d_y[index]] for the inputs of a node that are no initializers (convert.py 251-255). *)
Fixpoint put_grads (known : dict (list Z)) (dys : dict (ten A)) (names : list nat) (ds : list (ten A)) : res (dict (ten A)) :=
  match names with
  | [] => Ok dys
  | i :: names =>
    match known i with
    | None => put_grads known dys names ds
    | Some _ => match ds with d :: ds => put_grads known (put dys i d) names ds | [] => Err IndexError end
    end
  end.
(** The loop of convert.py 241-255 over the reversed list of nodes: the gradients that the optimizer gets, by node, and the gradients of
    tensors. The optimizer changes the weights of a node after its backward step; as nodes have different names, and [backward] reads
    the weights of its own node only, this is left out. *)
Fixpoint backward_nodes (known : dict (list Z)) (objs : dict (obj A)) (nodes : list node) (dys : dict (ten A)) : res (list (nat * list (ten A)) * dict (ten A)) :=
  match nodes with
  | [] => Ok ([], dys)
  | n :: nodes =>
    match objs (nname n) with
    | None => Err KeyError
    | Some o =>
      do d <- get_all dys (nout n);
      do g <- backward_node o d;
      do dys <- put_grads known dys (nin n) (snd g);
      do r <- backward_nodes known objs nodes dys; Ok ((nname n, fst g) :: fst r, snd r)
    end
  end.
(** convert.py 233-262 [_build_backward]: the gradients of the weights by node, from the last node to the first, and those of the inputs. *)
Definition backward (g : graph A) (known : dict (list Z)) (objs : dict (obj A)) (dys : list (ten A)) : res (list (nat * list (ten A)) * list (ten A)) :=
  do d <- put_all nothing (gout g) dys;
  do r <- backward_nodes known objs (rev (gnodes g)) d;
  do dxs <- get_all (snd r) (gin g); Ok (fst r, dxs).
End Onnx.
