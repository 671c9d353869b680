(** Compiled ABY3 programs: tracing and executing, circuits of many operations, computations at one
    player (/repo/tf_encrypted/protocol/aby3/aby3.py, protocol/protocol.py). *)
From Verif Require Import Base TensorModel Aby3Model Aby3NetModel.

Section TRACE.
(** The oracle and placement flag of Aby3Model (aby3.py 944-1020, config.py 117-121). *)
Context (prf : fac -> key -> Z -> nat -> Z) (colo : bool).

(** ** Executions of a compiled function *)

(** A function under [tfe.function] (protocol.py 166-193), and the body of [while_loop] outside eager mode (aby3.py
    3592-3720): the Python code runs once, so the nonces, which are Python and NumPy integers, are constants of the graph
    and the pairwise seeds are captured tensors (aby3.py 117-118, 950-980).  Every execution uses the nonces of the
    trace; one-time seeds and local draws are graph operations and are drawn again (aby3.py 857-858, 2776). *)
Fixpoint executions {A B} (f : A -> M B) (trace : state) (draws : Z) (inputs : list A) : list (list ev * res B) :=
  match inputs with
  | [] => []
  | x :: inputs =>
    match f x (MkSt (n0 trace) (n1 trace) (n2 trace) (nb trace) draws) with
    | (s, l, r) => (l, r) :: executions f trace (nl s) inputs
    end
  end.

(** ** Programs without openings *)

(** Operations between private tensors numbered by position, with integer constants and their scaling flag: inputs of a
    player (aby3.py 400-470), linear operations, products and truncation (2148-2691), boolean operations and adders
    (3041-3535), conversions (3744-4020), comparisons and selections (2953-3038, 1782-1850, 4240-4252), maxima,
    products, powers and sorting (4083-4100, 5029-5068, 5725-5743, 5783-5905). *)
Inductive gate :=
| GInput (k : nat) (ty : sty) (w : option positive) (sc : bool)
| GAdd (i j : nat) | GSub (i j : nat) | GNeg (i : nat) | GAddC (i : nat) (v : Z) (b : bool) | GSubC (i : nat) (v : Z) (b : bool) | GCSub (v : Z) (b : bool) (i : nat)
| GMul (scale : Z) (i j : nat) | GMulC (scale : Z) (i : nat) (v : Z) (b : bool) | GDot (sc : bool) (is js : list nat) | GTrunc (scale amount : Z) (i : nat)
| GXor (i j : nat) | GXorC (i : nat) (v : Z) | GAnd (i j : nat) | GAndC (i : nat) (v : Z) | GOr (i j : nat) | GNot (i : nat)
| GShl (i k : nat) | GSar (i k : nat) | GShr (i k : nat) | GAdder (i j : nat) (k : option Z) | GAdderS (i j : nat) (k : option Z)
| GToBool (i : nat) (k : option Z) | GToArith (w : positive) (i : nat) (k : option Z) | GBitToArith (w : positive) (i : nat) | GMulBit (i j : nat)
| GBit (i k : nat) | GMsb (i : nat) | GLess (i j : nat) | GLessC (i : nat) (v : Z) (b : bool) | GEqual (i j : nat)
| GSelect (c i j : nat) | GMax (i j : nat) | GCmpSwap (i j : nat) | GRelu (i : nat)
| GProd (scale : Z) (is : list nat) | GPow (scale : Z) (i : nat) (p : Z) | GMaxTree (is : list nat) | GMaxAll (is : list nat) | GSort (acc : bool) (is : list nat).
(** The tensors at these positions (modelling device, Python variables; aby3.py 400-5905). *)
Fixpoint pick (ws : list priv) (is : list nat) : option (list priv) :=
  match is with
  | [] => Some []
  | i :: is => match nth_error ws i, pick ws is with Some x, Some xs => Some (x :: xs) | _, _ => None end
  end.
(** One operation, giving new tensors (lines as for [gate]: aby3.py 400-5905).  [secrets] are the encoded private inputs.
    Naming a tensor that does not exist, an arithmetic sharing of booleans, a shift of booleans (boolfactory.py 93-304 has
    none) and a product of boolean sharings are refused (the code multiplies the words of boolean sharings as if they were
    arithmetic, 2437-2490). *)
Definition run_gate (secrets : list Z) (ws : list priv) (g : gate) : M (list priv) :=
  let w1 i (k : priv -> M priv) := match nth_error ws i with Some x => do z <- k x; ret [z] | None => raise ValueError end in
  let w2 i j (k : priv -> priv -> M priv) :=
    match nth_error ws i, nth_error ws j with Some x, Some y => do z <- k x y; ret [z] | _, _ => raise ValueError end in
  let wc i v b (k : priv -> pub -> M priv) := w1 i (fun x => do c <- const colo (pfc x) v b; k x c) in
  let wd (k : priv -> M priv) x := if fac_eqb (pfc x) FB then raise ValueError else k x in
  let wl is (k : list priv -> M priv) := match pick ws is with Some xs => do z <- k xs; ret [z] | None => raise ValueError end in
  match g with
  | GInput k ty w sc =>
    let f := match w with Some n => FI (Zpos n) | None => FB end in
    match ty, w with
    | Arith, None => raise ValueError
    | _, _ => do z <- share prf colo ty f (fcast f (nth k secrets 0)) sc; ret [z]
    end
  | GAdd i j => w2 i j (add_pp colo)
  | GSub i j => w2 i j (sub_pp colo)
  | GNeg i => w1 i (negative colo)
  | GAddC i v b => wc i v b (add_pq colo)
  | GSubC i v b => wc i v b (sub_pq colo)
  | GCSub v b i => wc i v b (fun x c => sub_qp colo c x)
  | GMul scale i j => w2 i j (fun x y => if is_arith x && is_arith y then mul_pp prf colo scale x y else raise ValueError)
  | GMulC scale i v b => wc i v b (mul_pq prf colo scale)
  | GDot sc is js =>
    match pick ws is, pick ws js with
    | Some (x :: xs), Some ys =>
      if is_arith x && Nat.eqb (length (x :: xs)) (length ys) then do z <- matmul_pp_raw prf colo (pfc x) sc (x :: xs) ys; ret [z]
      else raise ValueError
    | _, _ => raise ValueError
    end
  | GTrunc scale a i => w1 i (truncate_heuristic prf colo scale a)
  | GXor i j => w2 i j (xor_pp colo)
  | GXorC i v => wc i v false (xor_pq colo)
  | GAnd i j => w2 i j (and_pp prf colo)
  | GAndC i v => wc i v false (and_pq colo)
  | GOr i j => w2 i j (or_pp prf colo)
  | GNot i => w1 i (not_p colo)
  | GShl i k => w1 i (wd (fun x => lshift colo x (Z.of_nat k)))
  | GSar i k => w1 i (wd (fun x => rshift colo x (Z.of_nat k)))
  | GShr i k => w1 i (wd (fun x => logical_rshift colo x (Z.of_nat k)))
  | GAdder i j k => w2 i j (fun x y => ppa_ks prf colo x y k)
  | GAdderS i j k => w2 i j (fun x y => ppa_sk prf colo x y k)
  | GToBool i k => w1 i (a2b prf colo k)
  | GToArith w i k => w1 i (b2a prf colo (FI (Zpos w)) k false)
  | GBitToArith w i => w1 i (b2a_single prf colo (FI (Zpos w)))
  | GMulBit i j => w2 i j (mul_ab_pp prf colo)
  | GBit i k => w1 i (wd (fun x => bit_extract prf colo x (Z.of_nat k)))
  | GMsb i => w1 i (wd (msb prf colo))
  | GLess i j => w2 i j (less_than prf colo)
  | GLessC i v b => wc i v b (less_than_pq prf colo)
  | GEqual i j => w2 i j (equal prf colo)
  | GSelect c i j => match nth_error ws c with Some c => w2 i j (select prf colo c) | None => raise ValueError end
  | GMax i j => w2 i j (maximum prf colo)
  | GCmpSwap i j =>
    match nth_error ws i, nth_error ws j with
    | Some x, Some y => do p <- cmp_swap prf colo x y; ret [fst p; snd p]
    | _, _ => raise ValueError
    end
  | GRelu i => w1 i (relu prf colo)
  | GProd scale is => wl is (fun xs => if forallb is_arith xs then prod prf colo scale xs else raise ValueError)
  | GPow scale i p => w1 i (fun x => pow prf colo scale x p)
  | GMaxTree is => wl is (reduce_max_tree prf colo)
  | GMaxAll is => wl is (reduce_max_all prf colo)
  | GSort acc is => match pick ws is with Some xs => sort_private prf colo acc xs | None => raise ValueError end
  end.
(** A program: the results are new tensors at the end (modelling device, Python sequencing; aby3.py 400-5905). *)
Fixpoint run_circuit (secrets : list Z) (ws : list priv) (c : list gate) : M (list priv) :=
  match c with
  | [] => ret ws
  | g :: c => do zs <- run_gate secrets ws g; run_circuit secrets (ws ++ zs) c
  end.

(** ** Computation at one player *)

(** [reconstruct_input] of [define_local_computation] (aby3.py 604-617): a private argument is rebuilt with the share
    type of the OUTPUT ([ty]); a public one is unpacked into two names although it has three values, which raises
    ValueError. *)
Definition local_input (ty : sty) (d : dev) (x : tens) : M pv :=
  match x with
  | TPub _ => raise ValueError
  | TPriv x => reconstruct (MkPr (p00 x) (p01 x) (p10 x) (p11 x) (p20 x) (p21 x) (psc x) ty (pfc x)) d
  end.
(** aby3.py 561-649 [define_local_computation] with one output, on encoded values: [g] is the computation between decoding
    and encoding, [f] the factory of the output; the output is shared by the player (590-602, 842-887). *)
Definition local_computation (d : dev) (ty : sty) (f : fac) (sc : bool) (g : list Z -> Z) (args : list tens) : M priv :=
  do vs <- mapM (local_input ty d) args;
  share prf colo ty f (fcast f (g (map vz vs))) sc.
End TRACE.
