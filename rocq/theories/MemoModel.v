(** The process-wide cache of tensor operations: keys, cached and uncached runs, the cached
    zero tensors of ABY3, and Pond's own cache keys. *)
From Coq Require Import ZArith QArith Qreduction List Bool String NArith.
From Verif Require Import Base.
Import ListNotations.

(** ** Arguments and keys *)

(** Python values that are passed to memoised operations (protocol.py 71-91).  Floats are finite;
    [PObj] is any object hashed by identity (protocol tensors, factories, players); [PArr] an
    integer array at an address.  Dictionaries inside arguments are not modelled (no memoised
    operation takes one). *)
Inductive pyval :=
| PNone | PBool (b : bool) | PInt (z : Z) | PFloat (q : Q) | PStr (s : string)
| PTuple (l : list pyval) | PList (l : list pyval) | PShape (dims : list (option Z))
| PObj (id : N) | PArr (address : N) (entries : list Z).

(** What a key is made of, up to Python's equality: numbers of all types are compared by value
    (reduced fractions).  [KText] is [str(id(x)) + str(x)] (protocol.py 90): the address and the
    entries that are printed; beyond 1000 entries NumPy prints the first and last three around dots. *)
Inductive key :=
| KNone | KNum (q : Q) | KStr (s : string) | KTup (l : list key) | KObj (id : N)
| KText (address : N) (dots : bool) (printed : list Z).

(** [str(x)] of an integer array (called in protocol.py 90); the digits are represented by the entries. *)
Definition text (address : N) (l : list Z) : key :=
  if Nat.leb (List.length l) 1000 then KText address false l
  else KText address true (firstn 3 l ++ skipn (List.length l - 3) l).

(** protocol.py 71-91 [make_hashable]. *)
Fixpoint make_hashable (x : pyval) : key :=
  match x with
  | PNone => KNone
  | PBool b => KNum (if b then 1 else 0)
  | PInt z => KNum (inject_Z z)
  | PFloat q => KNum (Qred q)
  | PStr s => KStr s
  | PTuple l | PList l => KTup (map make_hashable l)
  | PShape dims => KTup (map (fun d => match d with Some z => KNum (inject_Z z) | None => KNone end) dims)
  | PObj id => KObj id
  | PArr a l => text a l
  end.

(** A call of a memoised operation: the protocol object, the function's name, positional and keyword
    arguments (protocol.py 105). *)
Record call := Call { self : N; fname : string; args : list pyval; kwargs : list (string * pyval) }.

(** [sorted] on the items of the keyword dictionary (protocol.py 74-79): the names differ, so
    the order is theirs. *)
Definition before (a b : string) : bool := match String.compare a b with Gt => false | _ => true end.
(** One insertion of that sort (protocol.py 75). *)
Fixpoint insert {A} (p : string * A) (l : list (string * A)) : list (string * A) :=
  match l with
  | [] => [p]
  | q :: l => if before (fst p) (fst q) then p :: q :: l else q :: insert p l
  end.
(** The sort (protocol.py 75). *)
Fixpoint sorted {A} (l : list (string * A)) : list (string * A) :=
  match l with [] => [] | p :: l => insert p (sorted l) end.

(** protocol.py 109-111; the protocol object is not part of the key. *)
Definition node_key (c : call) : string * key * key :=
  (fname c, KTup (map make_hashable (args c)),
   KTup (map (fun p => KTup [KStr (fst p); make_hashable (snd p)]) (sorted (kwargs c)))).

(** Equality of dictionary keys (protocol.py 113). *)
Fixpoint key_eqb (a b : key) : bool :=
  match a, b with
  | KNone, KNone => true
  | KNum q, KNum r => Z.eqb (Qnum q) (Qnum r) && Pos.eqb (Qden q) (Qden r)
  | KStr s, KStr t => String.eqb s t
  | KTup l, KTup m =>
    (fix go l m := match l, m with
                   | [], [] => true
                   | x :: l, y :: m => key_eqb x y && go l m
                   | _, _ => false
                   end) l m
  | KObj i, KObj j => N.eqb i j
  | KText i d l, KText j e m => N.eqb i j && Bool.eqb d e && if list_eq_dec Z.eq_dec l m then true else false
  | _, _ => false
  end.
(** The same for whole node keys (protocol.py 111). *)
Definition node_eqb (a b : string * key * key) : bool :=
  let '(f, x, y) := a in let '(g, u, v) := b in String.eqb f g && key_eqb x u && key_eqb y v.

(** ** Running operations, with and without the cache *)

Section Run.
  Variables W V : Type.

  (** The body of an operation: it may look at and change the world (variables, random state), call
      other memoised operations and return an object or [None].  Stands for the Python bodies under
      the decorated functions (protocol.py 107, 117). *)
  Inductive prog :=
  | Ret (r : option V)
  | Step (f : W -> W * prog)
  | Sub (c : call) (k : option V -> prog).

  Variable body : call -> prog.

  (** Debug mode (protocol.py 106-107): no cache.  [fuel] bounds the depth of the recursion. *)
  Fixpoint run (fuel : nat) (w : W) (p : prog) : option (W * option V) :=
    match fuel with
    | O => None
    | S fuel =>
      match p with
      | Ret r => Some (w, r)
      | Step f => let '(w, p) := f w in run fuel w p
      | Sub c k =>
        match run fuel w (body c) with
        | Some (w, r) => run fuel w (k r)
        | None => None
        end
      end
    end.

  (** protocol.py 16 [nodes], newest entry first. *)
  Definition cache := list ((string * key * key) * option V).
  (** protocol.py 113 [nodes.get(node_key, None)]. *)
  Fixpoint get (k : string * key * key) (t : cache) : option V :=
    match t with [] => None | (k', r) :: t => if node_eqb k k' then r else get k t end.

  (** protocol.py 105-121 [cache_nodes] around every call, nested ones included. *)
  Fixpoint mrun (fuel : nat) (w : W) (t : cache) (p : prog) : option (W * cache * option V) :=
    match fuel with
    | O => None
    | S fuel =>
      match p with
      | Ret r => Some (w, t, r)
      | Step f => let '(w, p) := f w in mrun fuel w t p
      | Sub c k =>
        match get (node_key c) t with
        | Some v => mrun fuel w t (k (Some v))
        | None =>
          match mrun fuel w t (body c) with
          | Some (w, t, r) => mrun fuel w ((node_key c, r) :: t) (k r)
          | None => None
          end
        end
      end
    end.

  (** A session: calls from the top level, each in debug mode or not (protocol.py 106, config.py 69-82). *)
  Fixpoint session (fuel : nat) (w : W) (t : cache) (l : list (bool * call)) : option (W * list (option V)) :=
    match l with
    | [] => Some (w, [])
    | (debug, c) :: l =>
      match (if debug : bool
             then match run fuel w (body c) with Some (w, r) => Some (w, t, r) | None => None end
             else mrun fuel w t (Sub c Ret)) with
      | Some (w, t, r) =>
        match session fuel w t l with Some (w, rs) => Some (w, r :: rs) | None => None end
      | None => None
      end
    end.
End Run.
Arguments Ret {W V} _.
Arguments Step {W V} _.
Arguments Sub {W V} _ _.

(** ** Cached zero tensors (ABY3) *)

(** Share types (aby3.py 1994-1997, aby3_tensors.py 21-27); public ones are not modelled. *)
Inductive sharing := Arithmetic | Boolean.
(** A private tensor as an object that can be changed: the six flat shares and the scaling flag
    (aby3_tensors.py 551-575). *)
Record tensor := Tensor { t00 : list Z; t01 : list Z; t10 : list Z; t11 : list Z; t20 : list Z; t21 : list Z;
                          scaled : bool; kind : sharing }.
(** The objects created so far and the entries of the cache that belong to [zeros]: arguments
    (number of elements standing for the shape, scaling, share type, factory) and object number
    (aby3.py 1990-1993). *)
Record heap := Heap { objects : list tensor; zero_nodes : list ((nat * bool * sharing * Z) * nat) }.
(** aby3.py 5394-5415 [_zeros_private]. *)
Definition zero_tensor (n : nat) (sc : bool) (k : sharing) : tensor :=
  let z := repeat 0%Z n in Tensor z z z z z z sc k.
(** Equality of the argument tuples (protocol.py 113 on the arguments of aby3.py 1991-1993). *)
Definition same_args (a b : nat * bool * sharing * Z) : bool :=
  let '(n, s, k, f) := a in let '(n', s', k', f') := b in
  Nat.eqb n n' && Bool.eqb s s' && (match k, k' with Arithmetic, Arithmetic | Boolean, Boolean => true | _, _ => false end)
  && Z.eqb f f'.
(** The entry of the cache, if any (protocol.py 113). *)
Fixpoint find_zero (a : nat * bool * sharing * Z) (l : list ((nat * bool * sharing * Z) * nat)) : option nat :=
  match l with [] => None | (b, o) :: l => if same_args a b then Some o else find_zero a l end.
(** aby3.py 1990-2001 [zeros], memoised; returns the number of the object. *)
Definition zeros (h : heap) (n : nat) (sc : bool) (k : sharing) (factory : Z) : heap * nat :=
  match find_zero (n, sc, k, factory) (zero_nodes h) with
  | Some o => (h, o)
  | None => let o := List.length (objects h) in
            (Heap (objects h ++ [zero_tensor n sc k]) (((n, sc, k, factory), o) :: zero_nodes h), o)
  end.
(** The object with a number (what aby3_tensors.py 490 returns a reference to). *)
Definition object (h : heap) (o : nat) : tensor := nth o (objects h) (zero_tensor 0 false Arithmetic).
(** Changing an object (the item assignments of aby3_tensors.py 491-492). *)
Fixpoint replace {A} (l : list A) (o : nat) (x : A) : list A :=
  match l, o with [], _ => [] | _ :: l, O => x :: l | y :: l, S o => y :: replace l o x end.
(** aby3_tensors.py 488-493 [to_private] of a public tensor holding [values] on every server. *)
Definition to_private (h : heap) (values : list Z) (sc : bool) (k : sharing) (factory : Z) : heap * nat :=
  let '(h, o) := zeros h (List.length values) sc k factory in
  let t := object h o in
  (Heap (replace (objects h) o
           (Tensor values (t01 t) (t10 t) (t11 t) (t20 t) values (scaled t) (kind t))) (zero_nodes h), o).
(** aby3.py 5852-5862: the padding built by [sort] ([pad] values, not scaled), with its scaling flag set to
    that of the sorted tensor. *)
Definition sort_padding (h : heap) (n : nat) (bound : Z) (k : sharing) (factory : Z) (sc : bool) : heap * nat :=
  let '(h, o) := to_private h (repeat bound n) false k factory in
  let t := object h o in
  (Heap (replace (objects h) o (Tensor (t00 t) (t01 t) (t10 t) (t11 t) (t20 t) (t21 t) sc (kind t))) (zero_nodes h), o).
(** aby3.py 911-933 [_reconstruct] at the three servers and at another player. *)
Definition combine3 (m : Z) (k : sharing) (a b c : list Z) : list Z :=
  map (fun p => let '(x, (y, z)) := p in
                match k with Arithmetic => swrap m (x + y + z) | Boolean => Z.lxor (Z.lxor x y) z end)
      (List.combine a (List.combine b c)).
(** The four reconstructions (aby3.py 923-933). *)
Definition readings (m : Z) (t : tensor) : list (list Z) :=
  [combine3 m (kind t) (t00 t) (t01 t) (t20 t); combine3 m (kind t) (t10 t) (t11 t) (t00 t);
   combine3 m (kind t) (t20 t) (t21 t) (t10 t); combine3 m (kind t) (t00 t) (t10 t) (t20 t)].

(** ** Pond's own cache keys *)

(** The operations of Pond that read and write [nodes] with a key of their own (pond.py 1073-1435); the arguments
    besides the tensors are kept apart. *)
Inductive pond_op :=
| Transpose (x : N) (perm : pyval)          (* pond.py 1073-1102 *)
| StridedSlice (x : N) (rest : list pyval)  (* pond.py 1168-1196 *)
| Stack (xs : list N) (axis : Z)            (* pond.py 1208-1230 *)
| Avgpool (x : N) (pool strides : list Z) (padding : string).  (* pond.py 1413-1435 *)
(** The keys of pond.py 1083, 1176, 1211, 1415. *)
Definition pond_key (o : pond_op) : string * key :=
  match o with
  | Transpose x _ => ("transpose"%string, KObj x)
  | StridedSlice x _ => ("strided_slice"%string, KObj x)
  | Stack xs _ => ("stack"%string, KTup (map KObj xs))
  | Avgpool x p s d =>
    ("avgpool2d"%string, KTup [KObj x; KTup (map (fun z => KNum (inject_Z z)) p); KTup (map (fun z => KNum (inject_Z z)) s); KStr d])
  end.
(** The common shape of pond.py 1084-1102, 1177-1196, 1212-1230 and 1416-1435: look up, else compute and store. *)
Fixpoint pond_get {V} (k : string * key) (t : list ((string * key) * V)) : option V :=
  match t with
  | [] => None
  | (k', v) :: t => if String.eqb (fst k) (fst k') && key_eqb (snd k) (snd k') then Some v else pond_get k t
  end.
(** One call (pond.py 1084-1102, and alike in the others). *)
Definition pond_call {V} (compute : pond_op -> V) (t : list ((string * key) * V)) (o : pond_op)
  : list ((string * key) * V) * V :=
  match pond_get (pond_key o) t with
  | Some v => (t, v)
  | None => ((pond_key o, compute o) :: t, compute o)
  end.
(** A history of calls on one process-wide table (protocol.py 16). *)
Fixpoint pond_session {V} (compute : pond_op -> V) (t : list ((string * key) * V)) (l : list pond_op) : list V :=
  match l with [] => [] | o :: l => let '(t, v) := pond_call compute t o in v :: pond_session compute t l end.
