(** Vocabulary of the theorems about converted ONNX models, independent of the programs: the meaning of the operators, as in the
    specification of ONNX, and derivatives of that meaning by dual numbers. *)
From Coq Require Import List Arith Bool ZArith Permutation.
From Verif Require Import ConvModel ConvSpec OnnxModel.
Import ListNotations.

(** The indices of the entries of a tensor of shape [d]. *)
Definition inside (idx d : list nat) : Prop := Forall2 lt idx d.
(** All of them, in row-major order. *)
Fixpoint indices (d : list nat) : list (list nat) :=
  match d with [] => [[]] | n :: d => flat_map (fun i => map (cons i) (indices d)) (seq 0 n) end.
(** The number of entries before [idx] in row-major order, by Horner's rule. *)
Definition place (d idx : list nat) : nat := fold_left (fun a p => a * fst p + snd p) (combine d idx) 0.
(** Two tensors have the same shape and the same entries. *)
Definition same {A} (t u : ten A) : Prop := dims t = dims u /\ forall idx, inside idx (dims t) -> val t idx = val u idx.
(** The integer of the attribute [a], zero if there is none. *)
Definition attribute (a : attr) (attrs : list (attr * nat)) : nat :=
  match find (fun p => match a, fst p with Alpha, Alpha | Beta, Beta | TransA, TransA | TransB, TransB => true | _, _ => false end) attrs with
  | Some p => snd p
  | None => 0
  end.
(** What pads says: the rows to add at the top, left, bottom and right. *)
Definition borders (pads : option (nat * nat * nat * nat)) : nat * nat * nat * nat := match pads with Some p => p | None => (0, 0, 0, 0) end.

Section Meaning.
Context {A : Type} (zero : A) (add mul : A -> A -> A) (opp : A -> A) (positive : A -> bool).
(** [y] is the product of [x] and [w], each of them transposed or not, plus the row [c]. *)
Definition affine (ta tb : bool) (x w : ten A) (c : nat -> A) (y : ten A) : Prop :=
  exists n m u, dims x = (if ta then [m; n] else [n; m]) /\ dims w = (if tb then [u; m] else [m; u]) /\ dims y = [n; u] /\
  forall i j, i < n -> j < u ->
    val y [i; j] = add (sigma zero add m (fun q => mul (val x (if ta then [q; i] else [i; q])) (val w (if tb then [j; q] else [q; j])))) (c j).
(** [y] is the cross-correlation of [x], extended by zeros, with the filters [w], plus [c]. *)
Definition convolved (s0 s1 : nat) (pads : option (nat * nat * nat * nat)) (x w : ten A) (c : nat -> A) (y : ten A) : Prop :=
  let '(top, lft, bottom, rgt) := borders pads in
  exists n ch h v k0 k1 f ho wo, dims x = [n; ch; h; v] /\ dims w = [f; ch; k0; k1] /\ dims y = [n; f; ho; wo] /\
  windows VALID (top + h + bottom) k0 s0 ho /\ windows VALID (lft + v + rgt) k1 s1 wo /\
  forall b g i j, b < n -> g < f -> i < ho -> j < wo ->
    val y [b; g; i; j] = add (correlation zero add mul (extended zero (at4 x) h v top lft) (fun p q e g => val w [g; e; p; q]) ch k0 k1 s0 s1 b g i j) (c g).
(** [y] is what the operator [o] yields for [ins]. The attributes alpha and beta of Gemm are 1. *)
Definition means (o : op) (ins : list (ten A)) (y : ten A) : Prop :=
  match o, ins with
  | AddOp, [x; z] =>
    dims y = dims x /\
    (dims z = dims x /\ (forall idx, inside idx (dims x) -> val y idx = add (val x idx) (val z idx)) \/
     dims z = tl (dims x) /\ dims x <> [] /\ (forall b idx, inside (b :: idx) (dims x) -> val y (b :: idx) = add (val x (b :: idx)) (val z idx)))
  | SubOp, [x; z] => dims y = dims x /\ dims z = dims x /\ forall idx, inside idx (dims x) -> val y idx = add (val x idx) (opp (val z idx))
  | MulOp, [x; z] => dims y = dims x /\ dims z = dims x /\ forall idx, inside idx (dims x) -> val y idx = mul (val x idx) (val z idx)
  | NegOp, [x] => dims y = dims x /\ forall idx, inside idx (dims x) -> val y idx = opp (val x idx)
  | ReluOp, [x] => dims y = dims x /\ forall idx, inside idx (dims x) -> val y idx = if positive (val x idx) then val x idx else zero
  | MatMulOp, [x; w] => affine false false x w (fun _ => zero) y
  | GemmOp attrs, [x; w; c] =>
    affine (negb (attribute TransA attrs =? 0)) (negb (attribute TransB attrs =? 0)) x w (fun j => val c [j]) y /\ dims c = [nth 1 (dims y) 0]
  | ConvOp s0 s1 pads, [x; w] => convolved s0 s1 pads x w (fun _ => zero) y
  | ConvOp s0 s1 pads, [x; w; c] => convolved s0 s1 pads x w (fun g => val c [g]) y /\ dims c = [nth 1 (dims y) 0]
  | FlattenOp, [x] =>
    exists n d, dims x = n :: d /\ dims y = [n; fold_right Nat.mul 1 d] /\ forall b idx, inside (b :: idx) (n :: d) -> val y [b; place d idx] = val x (b :: idx)
  | TransposeOp perm, [x] =>
    Permutation perm (seq 0 (length (dims x))) /\ dims y = map (fun p => nth p (dims x) 0) perm /\
    forall idx, inside idx (dims x) -> val y (map (fun p => nth p idx 0) perm) = val x idx
  | _, _ => False
  end.

(** The inner product of two tensors of the same shape. *)
Definition pairing (x y : ten A) : A := fold_right add zero (map (fun idx => mul (val x idx) (val y idx)) (indices (dims x))).
(** The sum of the inner products of corresponding tensors. *)
Definition pairings (xs ys : list (ten A)) : A := fold_right add zero (map (fun p => pairing (fst p) (snd p)) (combine xs ys)).
End Meaning.

(** ** Graphs *)

(** The name is that of an initializer. *)
Definition initial {A} (g : graph A) (i : nat) : bool := existsb (Nat.eqb i) (map fst (ginit g)).
(** The inputs of a node that are no initializers, and those that are. *)
Definition data {A} (g : graph A) (n : node) : list nat := filter (fun i => negb (initial g i)) (nin n).
Definition params {A} (g : graph A) (n : node) : list nat := filter (initial g) (nin n).
(** The outputs of nodes. *)
Definition results (l : list node) : list nat := flat_map nout l.
(** Every node reads names that are known before, and has one output. *)
Fixpoint ordered (known : list nat) (l : list node) : Prop :=
  match l with [] => True | n :: l => incl (nin n) known /\ length (nout n) = 1 /\ ordered (nout n ++ known) l end.
(** The operator is one that the converter handles as ONNX does: [kinds] says which inputs are initializers, [shapes] are the shapes of
    the inputs. The first two attributes of Gemm are transA, which is zero, and transB; kernels are square, strides equal, and as many
    rows are added at the top as at the bottom; a transposition keeps the batch axis first. *)
Definition supported (o : op) (kinds : list bool) (shapes : list (list nat)) : Prop :=
  match o, kinds with
  | AddOp, [false; _] => True
  | SubOp, [false; false] | MulOp, [false; false] => True
  | NegOp, [false] | ReluOp, [false] => True
  | FlattenOp, [false] => 2 <= length (nth 0 shapes [])
  | MatMulOp, [false; true] => True
  | GemmOp attrs, [false; true; true] => exists t r, attrs = (TransA, 0) :: (TransB, t) :: r
  | ConvOp s0 s1 pads, [false; true] | ConvOp s0 s1 pads, [false; true; true] =>
    let '(top, _, bottom, _) := borders pads in
    0 < s0 /\ s1 = s0 /\ top = bottom /\ nth 2 (nth 1 shapes []) 0 = nth 3 (nth 1 shapes []) 0
  | TransposeOp perm, [false] => hd_error perm = Some 0
  | _, _ => False
  end.
(** The same for training: one cannot add a bias with a batch axis, or data without one, and windows reach the last row and column. *)
Definition trainable (o : op) (kinds : list bool) (shapes : list (list nat)) : Prop :=
  match o with
  | AddOp => (nth 1 kinds false = true <-> nth 1 shapes [] <> nth 0 shapes [])
  | ConvOp s0 s1 pads =>
    let '(top, lft, bottom, rgt) := borders pads in
    let h := top + nth 2 (nth 0 shapes []) 0 + bottom in
    let w := lft + nth 3 (nth 0 shapes []) 0 + rgt in
    let k := nth 2 (nth 1 shapes []) 0 in
    k <= h /\ k <= w /\ (h - k) mod s0 = 0 /\ (w - k) mod s0 = 0
  | _ => True
  end.
(** A graph in which the tensors [E], by name, satisfy the equations of all nodes. All tensors have entries, and all but the initializers
    have a batch axis. *)
Record sound {A} (zero : A) (add mul : A -> A -> A) (opp : A -> A) (positive : A -> bool) {B} (g : graph B) (E : nat -> ten A) : Prop := Sound {
  once : NoDup (map fst (ginit g) ++ gin g ++ results (gnodes g));
  names : NoDup (map nname (gnodes g));
  before : ordered (map fst (ginit g) ++ gin g) (gnodes g);
  found : incl (gout g) (gin g ++ results (gnodes g));
  filled : forall i, In i (map fst (ginit g) ++ gin g ++ results (gnodes g)) -> Forall (lt 0) (dims (E i));
  batched : forall i, In i (gin g ++ results (gnodes g)) -> dims (E i) <> [];
  nodes_supported : Forall (fun n => supported (nop n) (map (initial g) (nin n)) (map (fun i => dims (E i)) (nin n))) (gnodes g);
  nodes_mean : Forall (fun n => Forall (fun o => means zero add mul opp positive (nop n) (map E (nin n)) (E o)) (nout n)) (gnodes g)
}.
(** The shapes that the caller states: the first entry of each may be anything. *)
Definition stated {A} (E : nat -> ten A) (ins : list nat) (shapes : list (list Z)) : Prop :=
  Forall2 (fun i s => s <> [] /\ tl s = map Z.of_nat (tl (dims (E i)))) ins shapes.

(** Two sets of objects that differ in the tensors kept for the backward pass only. *)
Definition same_layers {A} (a b : dict (obj A)) : Prop :=
  forall q, option_map (fun o => (okind o, weights o, shape_in o)) (a q) = option_map (fun o => (okind o, weights o, shape_in o)) (b q).

(** ** Derivatives *)

Section Dual.
Context {A : Type} (zero : A) (add mul : A -> A -> A) (opp : A -> A) (positive : A -> bool).
(** Dual numbers [a + a' eps] with [eps * eps = 0]: a value and its derivative. *)
Definition dual : Type := A * A.
Definition dzero : dual := (zero, zero).
Definition dadd (x y : dual) : dual := (add (fst x) (fst y), add (snd x) (snd y)).
Definition dmul (x y : dual) : dual := (mul (fst x) (fst y), add (mul (fst x) (snd y)) (mul (snd x) (fst y))).
Definition dopp (x : dual) : dual := (opp (fst x), opp (snd x)).
Definition dpositive (x : dual) : bool := positive (fst x).
(** The values, and the derivatives. *)
Definition values (t : ten dual) : ten A := Ten (dims t) (fun idx => fst (val t idx)).
Definition slopes (t : ten dual) : ten A := Ten (dims t) (fun idx => snd (val t idx)).
End Dual.

(** The weights of a layer from initializers: transposed for Gemm if transB says so; filters come last for Conv, and its bias has two
    more axes. *)
Definition laid_out {A} (o : op) (ws : list (ten A)) : list (ten A) :=
  match o, ws with
  | GemmOp attrs, w :: r =>
    (if attribute TransB attrs =? 0 then w else Ten (rev (dims w)) (fun idx => val w (rev idx))) :: r
  | ConvOp _ _ _, w :: r =>
    Ten [nth 2 (dims w) 0; nth 3 (dims w) 0; nth 1 (dims w) 0; nth 0 (dims w) 0]
        (fun idx => val w [nth 3 idx 0; nth 2 idx 0; nth 0 idx 0; nth 1 idx 0]) ::
    map (fun b => Ten (dims b ++ [1; 1]) (fun idx => val b (firstn 1 idx))) r
  | _, _ => ws
  end.
(** The gradient [r] given to the optimizer for the exact gradient [t]: that of a bias that is added on its own is divided by the batch size. *)
Definition reported {A} (over : A -> nat -> A) (o : op) (n : nat) (r t : ten A) : Prop :=
  dims r = dims t /\ forall idx, val r idx = match o with AddOp => over (val t idx) n | _ => val t idx end.
(** Every tensor is used once: by one node or as an output. *)
Definition used_once {A} (g : graph A) : Prop := Permutation (flat_map (data g) (gnodes g) ++ gout g) (gin g ++ results (gnodes g)).
(** The derivatives of the weights of a node, laid out as in its layer. *)
Definition changes {A B} (g : graph B) (E : nat -> ten (@dual A)) (n : node) : list (ten A) := laid_out (nop n) (map slopes (map E (params g n))).
(** The batch size of the output of a node. *)
Definition batch {A} (E : nat -> ten A) (n : node) : nat := hd 0 (dims (E (hd 0 (nout n)))).
(** The tensor of shape [d] with the entries [l] in row-major order. *)
Definition of_list {A} (zero : A) (d : list nat) (l : list A) : ten A := Ten d (fun idx => nth (place d idx) l zero).
(** The shape and the entries of a tensor in row-major order. *)
Definition to_list {A} (t : ten A) : list nat * list A := (dims t, map (val t) (indices (dims t))).
