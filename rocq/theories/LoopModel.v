(** Model of [tfe.function] and [while_loop] for ABY3: how tensors cross into a TensorFlow graph and
    back (/repo/tf_encrypted/protocol/protocol.py, protocol/aby3/aby3.py, protocol/aby3/aby3_tensors.py). *)
From Verif Require Import Base TensorModel Aby3Model.

Notation "'do' x <- m ; k" := (bind m (fun x => k)) (at level 200, x name, m at level 100, k at level 200).

Section LOOP.
(** The placement flag of Aby3Model (config.py 117-121). *)
Context (colo : bool).

(** A variable: a private tensor, a public one, or a plain TensorFlow tensor (aby3.py 3593-3617); one entry of it. *)
Inductive lvar := LPriv (x : priv) | LPub (x : pub) | LNat (z : Z).

(** ** tfe.function *)

(** [factories[nbits]] (tensor/__init__.py 24-36).  Key 100 gives the CRT tensors, which ABY3 does not use
    (aby3.py 284-323) and which are left out here; other keys raise KeyError. *)
Definition factory_of (k : Z) : M fac :=
  if k =? 0 then ret FB
  else if existsb (Z.eqb k) [1; 2; 4; 8] then ret (FI 8)
  else if existsb (Z.eqb k) [16; 32; 64; 128] then ret (FI k)
  else raise ValueError.
(** Extension types that can enter a graph: flags, number of bits of the factory, words (aby3_tensors.py 39-42,
    391-392, 547-552).  Other arguments pass unchanged (protocol.py 130-131). *)
Inductive bone :=
| BPriv (sc : bool) (ty : sty) (k : Z) (a00 a01 a10 a11 a20 a21 : pv)
| BPub (sc : bool) (k : Z) (a0 a1 a2 : pv)
| BNat (z : Z).
(** aby3_tensors.py 468-478, 598-612 [bone]; protocol.py 125-131. *)
Definition to_bone (v : lvar) : bone :=
  match v with
  | LPriv x => BPriv (psc x) (pty x) (fbits (pfc x)) (p00 x) (p01 x) (p10 x) (p11 x) (p20 x) (p21 x)
  | LPub x => BPub (qsc x) (fbits (qfc x)) (q0 x) (q1 x) (q2 x)
  | LNat z => BNat z
  end.
(** aby3.py 758-791 [from_bone]; protocol.py 134-142. *)
Definition from_bone (b : bone) : M lvar :=
  match b with
  | BPub sc k a0 a1 a2 =>
    do f <- factory_of k;
    do v0 <- copy S0 a0; do v1 <- copy S1 a1; do v2 <- copy S2 a2;
    do x <- mk_pub colo v0 v1 v2 sc f; ret (LPub x)
  | BPriv sc ty k a00 a01 a10 a11 a20 a21 =>
    do f <- factory_of k;
    do v00 <- copy S0 a00; do v01 <- copy S0 a01;
    do v10 <- copy S1 a10; do v11 <- copy S1 a11;
    do v20 <- copy S2 a20; do v21 <- copy S2 a21;
    do x <- mk_priv colo v00 v01 v10 v11 v20 v21 sc ty f; ret (LPriv x)
  | BNat z => ret (LNat z)
  end.

(** Arguments and results: tensors in nested tuples ([true]) and lists ([false]) (protocol.py 125-142).  Keyword
    arguments are treated the same one by one (145-162) and are left out; a dictionary among them passes unchanged and
    TensorFlow refuses what it holds, which is left out too. *)
Inductive arg (A : Type) := AOne (a : A) | ASeq (tuple : bool) (l : list (arg A)).
Arguments AOne {A} _.
Arguments ASeq {A} _ _.
(** protocol.py 125-131 [unwrap_func]: tuples become lists. *)
Fixpoint unwrap_func (a : arg lvar) : arg bone :=
  match a with
  | AOne v => AOne (to_bone v)
  | ASeq _ l => ASeq false (map unwrap_func l)
  end.
(** protocol.py 134-142 [wrap_func]. *)
Fixpoint wrap_func (a : arg bone) : M (arg lvar) :=
  match a with
  | AOne b => do v <- from_bone b; ret (AOne v)
  | ASeq _ l =>
    do r <- (fix go (l : list (arg bone)) : M (list (arg lvar)) :=
      match l with
      | [] => ret []
      | a :: l => do v <- wrap_func a; do r <- go l; ret (v :: r)
      end) l;
    ret (ASeq false r)
  end.
(** Executing a graph traced in state [trace]: nonces are constants of the graph, one-time seeds are drawn again (as
    Aby3TraceModel.executions: aby3.py 112-118, 857-858, 2776; protocol.py 175-180). *)
Definition exec {A} (trace : state) (m : M A) : M A := fun s =>
  match m (MkSt (n0 trace) (n1 trace) (n2 trace) (nb trace) (nl s)) with
  | (s', l, r) => (MkSt (n0 s) (n1 s) (n2 s) (nb s) (nl s'), l, r)
  end.
(** protocol.py 165-193 [function], one call.  [args] is the tuple of the arguments.  [trace] is the state in which an
    earlier call with arguments of this type was traced; without one the call traces, which moves the nonces.  Control
    flow in [func] does not depend on values (175-180). *)
Definition function (debug : bool) (trace : option state) (func : list (arg lvar) -> M (arg lvar)) (args : list (arg lvar)) : M (arg lvar) :=
  if debug then func args
  else
    let graph_function :=
      do a <- wrap_func (unwrap_func (ASeq true args));
      do r <- func (match a with ASeq _ l => l | AOne _ => [a] end);
      ret (unwrap_func r) in
    do r <- match trace with None => graph_function | Some t => exec t graph_function end;
    wrap_func r.

(** ** while_loop *)

(** A native tensor; [None] is any other dtype than those of the shares (aby3.py 3602-3617). *)
Record nval := MkN { nv : pv; ndt : option fac }.
(** What is remembered of a variable (aby3.py 3593-3600). *)
Inductive aux := XPriv (sc : bool) (ty : sty) (f : fac) | XPub (sc : bool) (f : fac) | XNat.
(** aby3.py 3593-3600 [extract_var_aux_info]. *)
Definition aux_of (v : lvar) : aux :=
  match v with
  | LPriv x => XPriv (psc x) (pty x) (pfc x)
  | LPub x => XPub (qsc x) (qfc x)
  | LNat _ => XNat
  end.
(** aby3.py 3602-3617 [extract_var_native_vars]. *)
Definition natives_of (v : lvar) : list nval :=
  match v with
  | LPriv x => map (fun a => MkN a (Some (pfc x))) [p00 x; p01 x; p10 x; p11 x; p20 x; p21 x]
  | LPub x => map (fun a => MkN a (Some (qfc x))) [q0 x; q1 x; q2 x]
  | LNat z => [MkN (MkV NoDev z) None]
  end.
(** aby3.py 3619-3624 [unwrap]. *)
Definition unwrap (vs : list lvar) : list aux * list nval := (map aux_of vs, flat_map natives_of vs).
(** aby3.py 3626-3680 [wrap].  Values past the last variable are ignored (3684, 3690, 3738). *)
Fixpoint wrap (xs : list aux) (ns : list nval) : M (list lvar) :=
  match xs with
  | [] => ret []
  | XPub sc f :: xs =>
    match ns with
    | a0 :: a1 :: a2 :: ns =>
      do v0 <- copy S0 (nv a0); do v1 <- copy S1 (nv a1); do v2 <- copy S2 (nv a2);
      do x <- mk_pub colo v0 v1 v2 sc f;
      do r <- wrap xs ns; ret (LPub x :: r)
    | _ => raise ValueError
    end
  | XPriv sc ty f :: xs =>
    match ns with
    | a00 :: a01 :: a10 :: a11 :: a20 :: a21 :: ns =>
      do v00 <- copy S0 (nv a00); do v01 <- copy S0 (nv a01);
      do v10 <- copy S1 (nv a10); do v11 <- copy S1 (nv a11);
      do v20 <- copy S2 (nv a20); do v21 <- copy S2 (nv a21);
      do x <- mk_priv colo v00 v01 v10 v11 v20 v21 sc ty f;
      do r <- wrap xs ns; ret (LPriv x :: r)
    | _ => raise ValueError
    end
  | XNat :: xs =>
    match ns with
    | a :: ns => do r <- wrap xs ns; ret (LNat (vz (nv a)) :: r)
    | _ => raise ValueError
    end
  end.

(** aby3.py 3696-3699, eager mode; [fuel] bounds the number of tests, [None] when it is used up. *)
Fixpoint while_eager (fuel : nat) (cond : list lvar -> M bool) (body : list lvar -> M (list lvar)) (vs : list lvar) : M (option (list lvar)) :=
  match fuel with
  | O => ret None
  | S fuel =>
    do c <- cond vs;
    if c then do vs' <- body vs; while_eager fuel cond body vs' else ret (Some vs)
  end.

(** Equality of dtypes (aby3.py 3725-3737 with TensorFlow's check that the body of a While keeps number and types of
    its variables). *)
Definition dtype_eqb (a b : option fac) : bool :=
  match a, b with Some f, Some g => fac_eqb f g | None, None => true | _, _ => false end.
(** The check of the whole list (aby3.py 3725-3737). *)
Fixpoint same_types (a b : list nval) : bool :=
  match a, b with
  | [], [] => true
  | x :: a, y :: b => dtype_eqb (ndt x) (ndt y) && same_types a b
  | _, _ => false
  end.
(** aby3.py 3682-3686 [cond_wrapper]. *)
Definition cond_wrapper (xs : list aux) (cond : list lvar -> M bool) (ns : list nval) : M bool :=
  do ws <- wrap xs ns; cond ws.
(** aby3.py 3688-3694 [body_wrapper], and the check. *)
Definition body_wrapper (xs : list aux) (body : list lvar -> M (list lvar)) (ns : list nval) : M (list nval) :=
  do ws <- wrap xs ns;
  do r <- body ws;
  if same_types ns (snd (unwrap r)) then ret (snd (unwrap r)) else raise ValueError.
(** Tracing (aby3.py 3704-3706): the Python code runs, nothing is computed, the nonces advance. *)
Definition traced {A} (m : M A) : M unit := fun s =>
  match m s with
  | (s', _, r) => (MkSt (n0 s') (n1 s') (n2 s') (nb s') (nl s), [], match r with Ok _ => Ok tt | Err e => Err e end)
  end.
(** The While operation (aby3.py 3725-3737); every iteration uses the nonces of the trace. *)
Fixpoint while_op (fuel : nat) (tc tb : state) (xs : list aux) (cond : list lvar -> M bool) (body : list lvar -> M (list lvar)) (ns : list nval) : M (option (list nval)) :=
  match fuel with
  | O => ret None
  | S fuel =>
    do c <- exec tc (cond_wrapper xs cond ns);
    if c then do ns' <- exec tb (body_wrapper xs body ns); while_op fuel tc tb xs cond body ns' else ret (Some ns)
  end.
(** aby3.py 3701-3741, inside a graph.  Tensors captured by the body stay the same (3705, 3708). *)
Definition while_graph (fuel : nat) (cond : list lvar -> M bool) (body : list lvar -> M (list lvar)) (vs : list lvar) : M (option (list lvar)) :=
  let xs := fst (unwrap vs) in
  let ns := snd (unwrap vs) in
  do tb <- get;
  do _ <- traced (body_wrapper xs body ns);
  do tc <- get;
  do _ <- traced (cond_wrapper xs cond ns);
  do r <- while_op fuel tc tb xs cond body ns;
  match r with
  | None => ret None
  | Some ns => do ws <- wrap xs ns; ret (Some ws)
  end.
End LOOP.
