(** When two calls are the same call, and what the cached objects should hold. *)
From Coq Require Import ZArith QArith List Bool String NArith.
From Verif Require Import Base MemoModel.
Import ListNotations.

(** The number a value is, for Python's [==]. *)
Definition number_of (v : pyval) : option Q :=
  match v with
  | PBool true => Some 1%Q | PBool false => Some 0%Q
  | PInt z => Some (inject_Z z) | PFloat q => Some q | _ => None
  end.
(** Tuples, lists and shapes are sequences. *)
Definition sequence_of (v : pyval) : option (list pyval) :=
  match v with
  | PTuple l | PList l => Some l
  | PShape dims => Some (map (fun d => match d with Some z => PInt z | None => PNone end) dims)
  | _ => None
  end.
(** Arrays print alike: equal, or long with equal ends. *)
Definition prints_alike (l m : list Z) : Prop :=
  ((List.length l <= 1000)%nat /\ l = m) \/
  ((1000 < List.length l)%nat /\ (1000 < List.length m)%nat /\
   firstn 3 l = firstn 3 m /\ skipn (List.length l - 3) l = skipn (List.length m - 3) m).

(** Two arguments are the same to the cache. *)
Inductive same_value : pyval -> pyval -> Prop :=
| same_none : same_value PNone PNone
| same_number a b p q : number_of a = Some p -> number_of b = Some q -> (p == q)%Q -> same_value a b
| same_string s : same_value (PStr s) (PStr s)
| same_sequence a b l m : sequence_of a = Some l -> sequence_of b = Some m -> Forall2 same_value l m -> same_value a b
| same_object i : same_value (PObj i) (PObj i)
| same_array a l m : prints_alike l m -> same_value (PArr a l) (PArr a m).

(** What a keyword is bound to. *)
Fixpoint bound {A} (k : string) (l : list (string * A)) : option A :=
  match l with [] => None | (k', v) :: l => if String.eqb k k' then Some v else bound k l end.
(** Two calls are the same to the cache: whatever the protocol objects. *)
Definition same_call (c d : call) : Prop :=
  fname c = fname d /\ Forall2 same_value (args c) (args d) /\
  forall k, match bound k (kwargs c), bound k (kwargs d) with
            | Some v, Some u => same_value v u | None, None => True | _, _ => False end.
(** Python never passes a keyword twice. *)
Definition proper (c : call) : Prop := NoDup (map fst (kwargs c)).

(** Operations whose calls respect this sameness: a call that returns an object leaves the world as it
    was, and every call that is the same returns that object too. *)
Definition respectful {W V} (body : call -> prog W V) : Prop :=
  forall c d w1 w2 f1 f2 w1' w2' v r, proper c -> proper d -> same_call c d ->
    run W V body f1 w1 (body c) = Some (w1', Some v) -> run W V body f2 w2 (body d) = Some (w2', r) ->
    w1' = w1 /\ w2' = w2 /\ r = Some v.
(** All calls inside operations are proper too. *)
Inductive calls_proper {W V} : prog W V -> Prop :=
| cp_ret r : calls_proper (Ret r)
| cp_step f : (forall w, calls_proper (snd (f w))) -> calls_proper (Step f)
| cp_sub c k : proper c -> (forall r, calls_proper (k r)) -> calls_proper (Sub c k).

(** Running a list of calls without any cache. *)
Fixpoint plain {W V} (body : call -> prog W V) (fuel : nat) (w : W) (l : list call) : option (W * list (option V)) :=
  match l with
  | [] => Some (w, [])
  | c :: l => match run W V body fuel w (body c) with
              | Some (w, r) => match plain body fuel w l with Some (w, rs) => Some (w, r :: rs) | None => None end
              | None => None
              end
  end.

(** A private tensor whose every reconstruction is [v]. *)
Definition holds (m : Z) (t : tensor) (v : list Z) : Prop := Forall (fun r => r = v) (readings m t).

(** Operations on the heap: [zeros], conversion of a public tensor, padding for [sort]. *)
Inductive heap_op :=
| Zeros (n : nat) (sc : bool) (k : sharing) (factory : Z)
| Convert (values : list Z) (sc : bool) (k : sharing) (factory : Z)
| Pad (n : nat) (bound : Z) (k : sharing) (factory : Z) (sc : bool).
Definition do (h : heap) (o : heap_op) : heap :=
  match o with
  | Zeros n sc k f => fst (zeros h n sc k f)
  | Convert v sc k f => fst (to_private h v sc k f)
  | Pad n b k f sc => fst (sort_padding h n b k f sc)
  end.
Definition history (l : list heap_op) : heap := fold_left do l (Heap [] []).
(** An operation that writes into the zero tensor with these arguments. *)
Definition writes (n : nat) (sc : bool) (k : sharing) (factory : Z) (o : heap_op) : Prop :=
  match o with
  | Zeros _ _ _ _ => False
  | Convert v sc' k' f' => List.length v = n /\ sc' = sc /\ k' = k /\ f' = factory
  | Pad n' _ k' f' _ => n' = n /\ false = sc /\ k' = k /\ f' = factory
  end.

(** Two Pond operations work on the same tensors (for pooling: with the same window). *)
Definition same_subject (o p : pond_op) : Prop :=
  match o, p with
  | Transpose x _, Transpose y _ => x = y
  | StridedSlice x _, StridedSlice y _ => x = y
  | Stack xs _, Stack ys _ => xs = ys
  | Avgpool x p s d, Avgpool x' p' s' d' => x = x' /\ p = p' /\ s = s' /\ d = d'
  | _, _ => False
  end.
(** [o] is the first operation of the history on the subject of [p]. *)
Definition first_on (l : list pond_op) (p o : pond_op) : Prop :=
  exists a b, l = a ++ o :: b /\ same_subject o p /\ Forall (fun q => ~ same_subject q p) a.
