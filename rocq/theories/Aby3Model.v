(** Model of the three-party protocol ABY3, /repo/tf_encrypted/protocol/aby3/aby3.py and
    aby3_tensors.py, on one entry of a tensor: every modelled operation except matmul acts entry
    by entry, with its own random word per entry.  Structural operations (reshape, stack, ...) are
    not in this file.

    Values carry the device they live on.  Every operation records, per machine, the values it
    reads and the pseudo-random words it derives.  Exceptions are values. *)
From Verif Require Import Base TensorModel.

(** The three servers (aby3.py 72-75), the owner of a private input (aby3.py 400-470) and the
    default device of an operation outside any [tf.device] block (aby3.py 2232-2235). *)
Inductive dev := S0 | S1 | S2 | Prov | NoDev.
(** Device name comparison (aby3_tensors.py 436, 569). *)
Definition dev_eqb (a b : dev) : bool :=
  match a, b with S0, S0 | S1, S1 | S2, S2 | Prov, Prov | NoDev, NoDev => true | _, _ => false end.
(** Exceptions raised by the modelled functions (aby3.py passim, 50-4260). *)
Inductive exn := AssertionError | TypeError | ValueError | NotImplementedError.
(** Outcome of a call (aby3.py passim, 50-4260). *)
Inductive res (A : Type) := Ok (a : A) | Err (e : exn).
Arguments Ok {A} _.
Arguments Err {A} _.

(** Backing factories: booleans, represented as 0/1, and [n]-bit signed words
    (tensor/__init__.py 17-45, boolfactory.py 23-304, native.py 30-627, int128.py). *)
Inductive fac := FB | FI (n : Z).
(** factory equality (aby3.py 3044, 3126). *)
Definition fac_eqb (a b : fac) : bool :=
  match a, b with FB, FB => true | FI m, FI n => m =? n | _, _ => false end.
(** [nbits] (boolfactory.py 77-79, native.py 103-105, int128.py 107-109). *)
Definition fbits (f : fac) : Z := match f with FB => 0 | FI n => n end.
(** Values a factory can hold (native.py 79-89; boolfactory.py 68-70). *)
Definition frange (f : fac) (v : Z) : Prop := match f with FB => v = 0 \/ v = 1 | FI n => in_s n v end.
(** [factory.tensor(v)] of an integer or of a tensor of another integer type, i.e. tf.cast
    (native.py 520-521, 252-268; boolfactory.py 47-58, 238-239: a boolean is "non-zero"). *)
Definition fcast (f : fac) (v : Z) : Z :=
  match f with FB => if v =? 0 then 0 else 1 | FI n => swrap n v end.
(** [~x] (native.py 547-551, boolfactory.py 270-276). *)
Definition fnot (f : fac) (v : Z) : Z := match f with FB => 1 - v | FI _ => Z.lnot v end.

(** Seeds: the pairwise seeds 0-2 (aby3.py 144-196), the two families of b2a seeds (198-281),
    one-time seeds drawn by [secure_seed] (842-870) and local randomness of one machine
    ([sample_uniform], 2776, 2880). *)
Inductive key := KP (i : Z) | KA (i : Z) | KB (i : Z) | KS (c : Z) | KL (d : dev) (c : Z).

(** Mutable protocol state: the three pairwise nonces (aby3.py 189-193), the b2a nonce (279) and
    a counter of one-time draws, which makes those draws independent. *)
Record state := MkSt { n0 : Z; n1 : Z; n2 : Z; nb : Z; nl : Z }.

(** A value on a machine. (native.py 306-307 [device]) *)
Record pv := MkV { vd : dev; vz : Z }.
(** What machines do: read a value, derive a pseudo-random word from a seed and a nonce.  Not in
    the code: records the effect of the [with tf.device] blocks (aby3.py 842-4080). *)
Inductive ev := Saw (d : dev) (v : Z) | Seed (d : dev) (f : fac) (k : key) (nonce : Z) (lane : nat).

(** Sharing types of private tensors (aby3_tensors.py 19-31). *)
Inductive sty := Arith | Bool_.
(** ABY3PrivateTensor (aby3_tensors.py 555-575): shares[i][j], scaling flag, sharing type and
    backing factory. *)
Record priv := MkPr { p00 : pv; p01 : pv; p10 : pv; p11 : pv; p20 : pv; p21 : pv;
                      psc : bool; pty : sty; pfc : fac }.
(** ABY3PublicTensor (aby3_tensors.py 421-441): one copy per server. *)
Record pub := MkPu { q0 : pv; q1 : pv; q2 : pv; qsc : bool; qfc : fac }.

(** Server [i mod 3] (aby3.py 4034-4036). *)
Definition srv (i : Z) : dev := if i mod 3 =? 0 then S0 else if i mod 3 =? 1 then S1 else S2.
(** [shares[i][0]] with the index taken modulo 3 (aby3.py 4034-4075). *)
Definition fst_sh (x : priv) (i : Z) : pv := if i mod 3 =? 0 then p00 x else if i mod 3 =? 1 then p10 x else p20 x.
(** [shares[i][1]] (aby3.py 4034-4075). *)
Definition snd_sh (x : priv) (i : Z) : pv := if i mod 3 =? 0 then p01 x else if i mod 3 =? 1 then p11 x else p21 x.
(** [values[i]] of a public tensor (aby3.py 3115-3119). *)
Definition pub_at (x : pub) (i : Z) : pv := if i mod 3 =? 0 then q0 x else if i mod 3 =? 1 then q1 x else q2 x.

Section ABY3.
(** [prf f k nonce lane]: the word [sample_seeded_uniform] of factory [f] expands from seed
    [k + nonce] at this entry (lane = leading index of the sampled tensor).  The sum of seed and
    nonce is represented by the pair.  [colo]: all players have the same device name, as under
    LocalConfig (config.py 117-121); false for RemoteConfig. (aby3.py 944-1020) *)
Context (prf : fac -> key -> Z -> nat -> Z) (colo : bool).

(** Computations: state, log, outcome (modelling device, aby3.py 842-4260). *)
Definition M (A : Type) : Type := state -> state * list ev * res A.
(** Python [return] (aby3.py passim, 842-4260). *)
Definition ret {A} (a : A) : M A := fun s => (s, [], Ok a).
(** Python [raise] (aby3.py e.g. 3326-3335). *)
Definition raise {A} (e : exn) : M A := fun s => (s, [], Err e).
(** Python sequencing with exceptions (aby3.py passim, 842-4260). *)
Definition bind {A B} (m : M A) (k : A -> M B) : M B := fun s =>
  match m s with
  | (s1, l1, Ok a) => match k a s1 with (s2, l2, r) => (s2, l1 ++ l2, r) end
  | (s1, l1, Err e) => (s1, l1, Err e)
  end.
Notation "'do' x <- m ; k" := (bind m (fun x => k)) (at level 200, x name, m at level 100, k at level 200).

(** [assert] (aby3.py e.g. 2153, 3042). *)
Definition assert_ (b : bool) : M unit := if b then ret tt else raise AssertionError.
(** Reading the nonces (aby3.py 112-115, 131-134). *)
Definition get : M state := fun s => (s, [], Ok s).
(** aby3.py 117-118 [_update_pairwise_nonces]: the three nonces advance together. *)
Definition update_pairwise : M unit := fun s => (MkSt (n0 s + 1) (n1 s + 1) (n2 s + 1) (nb s) (nl s), [], Ok tt).
(** aby3.py 136-137. *)
Definition update_b2a : M unit := fun s => (MkSt (n0 s) (n1 s) (n2 s) (nb s + 1) (nl s), [], Ok tt).
(** Number of the next one-time seed or local draw (aby3.py 857-858, 2776, 2880). *)
Definition next_local : M Z := fun s => (MkSt (n0 s) (n1 s) (n2 s) (nb s) (nl s + 1), [], Ok (nl s)).
(** [pairwise_nonces()[i]] (aby3.py 112-115). *)
Definition nonce (i : Z) (s : state) : Z := if i mod 3 =? 0 then n0 s else if i mod 3 =? 1 then n1 s else n2 s.

(** [sample_seeded_uniform] evaluated on machine [d] (aby3.py 955-980). *)
Definition draw (d : dev) (f : fac) (k : key) (n : Z) (lane : nat) : M pv := fun s =>
  (s, [Seed d f k n lane; Saw d (prf f k n lane)], Ok (MkV d (prf f k n lane))).
(** [sample_uniform] on machine [d] (aby3.py 2776, 2880). *)
Definition draw_local (d : dev) (f : fac) : M pv := do c <- next_local; draw d f (KL d c) 0 0.
(** One operation under [with tf.device(d)]: the machine reads the operands (aby3.py e.g. 2153). *)
Definition op1 (d : dev) (f : Z -> Z) (x : pv) : M pv := fun s => (s, [Saw d (vz x)], Ok (MkV d (f (vz x)))).
(** Two operands (aby3.py e.g. 2156-2157). *)
Definition op2 (d : dev) (f : Z -> Z -> Z) (x y : pv) : M pv := fun s =>
  (s, [Saw d (vz x); Saw d (vz y)], Ok (MkV d (f (vz x) (vz y)))).
(** Three operands (aby3.py e.g. 911). *)
Definition op3 (d : dev) (f : Z -> Z -> Z -> Z) (x y z : pv) : M pv := fun s =>
  (s, [Saw d (vz x); Saw d (vz y); Saw d (vz z)], Ok (MkV d (f (vz x) (vz y) (vz z)))).
(** Five operands (aby3.py e.g. 2446-2451). *)
Definition op5 (d : dev) (f : Z -> Z -> Z -> Z -> Z -> Z) (x y z u v : pv) : M pv := fun s =>
  (s, [Saw d (vz x); Saw d (vz y); Saw d (vz z); Saw d (vz u); Saw d (vz v)],
   Ok (MkV d (f (vz x) (vz y) (vz z) (vz u) (vz v)))).
(** A constant created on machine [d] (aby3.py 305-321). *)
Definition lit (d : dev) (v : Z) : M pv := fun s => (s, [], Ok (MkV d v)).
(** [x.identity()] on machine [d] (aby3.py 2466-2473). *)
Definition copy (d : dev) (x : pv) : M pv := op1 d (fun v => v) x.

(** The device check of the tensor constructors (aby3_tensors.py 436, 568-572). *)
Definition on (d : dev) (x : pv) : bool := colo || dev_eqb (vd x) d.
(** aby3_tensors.py 562-575. *)
Definition mk_priv (a00 a01 a10 a11 a20 a21 : pv) (sc : bool) (ty : sty) (f : fac) : M priv :=
  if on S0 a00 && on S0 a01 && on S1 a10 && on S1 a11 && on S2 a20 && on S2 a21
  then ret (MkPr a00 a01 a10 a11 a20 a21 sc ty f) else raise AssertionError.
(** aby3_tensors.py 432-441. *)
Definition mk_pub (a b c : pv) (sc : bool) (f : fac) : M pub :=
  if on S0 a && on S1 b && on S2 c then ret (MkPu a b c sc f) else raise AssertionError.

(** aby3.py 284-323 [define_constant] of an already encoded integer. *)
Definition const (f : fac) (v : Z) (sc : bool) : M pub :=
  do a <- lit S0 (fcast f v); do b <- lit S1 (fcast f v); do c <- lit S2 (fcast f v); mk_pub a b c sc f.

(** The group operation of a sharing type: addition modulo 2^n or xor (aby3.py 865-868). *)
Definition gadd (ty : sty) (f : fac) (x y : Z) : Z :=
  match ty, f with Arith, FI n => swrap n (x + y) | _, _ => Z.lxor x y end.
(** Its inverse operation (aby3.py 939-947). *)
Definition gsub (ty : sty) (f : fac) (x y : Z) : Z :=
  match ty, f with Arith, FI n => swrap n (x - y) | _, _ => Z.lxor x y end.

(** aby3.py 842-887 [_share], [secret] on the input's owner. *)
Definition share (ty : sty) (f : fac) (secret : Z) (sc : bool) : M priv :=
  do c0 <- next_local;
  do c1 <- next_local;
  do r0 <- draw Prov f (KS c0) 0 0;
  do r1 <- draw Prov f (KS c1) 0 0;
  do r2 <- op3 Prov (fun x a b => gsub ty f (gsub ty f x a) b) (MkV Prov secret) r0 r1;
  do a00 <- draw S0 f (KS c0) 0 0;
  do a01 <- draw S0 f (KS c1) 0 0;
  do a10 <- draw S1 f (KS c1) 0 0;
  do a11 <- copy S1 r2;
  do a20 <- copy S2 r2;
  do a21 <- draw S2 f (KS c0) 0 0;
  mk_priv a00 a01 a10 a11 a20 a21 sc ty f.

(** aby3.py 899-935 [_reconstruct] at a server, or at another player. *)
Definition reconstruct (x : priv) (d : dev) : M pv :=
  let h a b c := gadd (pty x) (pfc x) (gadd (pty x) (pfc x) a b) c in
  match d with
  | S0 => op3 S0 h (p00 x) (p01 x) (p20 x)
  | S1 => op3 S1 h (p10 x) (p11 x) (p00 x)
  | S2 => op3 S2 h (p20 x) (p21 x) (p10 x)
  | _ => op3 d h (p00 x) (p10 x) (p20 x)
  end.
(** aby3.py 2029-2047 [_reveal_private]. *)
Definition reveal (x : priv) : M pub :=
  do a <- reconstruct x S0; do b <- reconstruct x S1; do c <- reconstruct x S2;
  mk_pub a b c (psc x) (pfc x).

(** aby3.py 938-983 [_gen_zero_sharing]; the key tables are those of 176-187. *)
Definition zero_sharing (ty : sty) (f : fac) : M (pv * pv * pv) :=
  do s <- get;
  do f00 <- draw S0 f (KP 0) (nonce 2 s) 0;
  do f01 <- draw S0 f (KP 1) (nonce 0 s) 0;
  do a0 <- op2 S0 (gsub ty f) f00 f01;
  do f10 <- draw S1 f (KP 1) (nonce 0 s) 0;
  do f11 <- draw S1 f (KP 2) (nonce 1 s) 0;
  do a1 <- op2 S1 (gsub ty f) f10 f11;
  do f20 <- draw S2 f (KP 2) (nonce 1 s) 0;
  do f21 <- draw S2 f (KP 0) (nonce 2 s) 0;
  do a2 <- op2 S2 (gsub ty f) f20 f21;
  do _ <- update_pairwise;
  ret (a0, a1, a2).

(** aby3.py 985-1020 [_gen_random_sharing]. *)
Definition random_sharing (ty : sty) (f : fac) : M priv :=
  do s <- get;
  do r00 <- draw S0 f (KP 0) (nonce 2 s) 0;
  do r01 <- draw S0 f (KP 1) (nonce 0 s) 0;
  do r10 <- draw S1 f (KP 1) (nonce 0 s) 0;
  do r11 <- draw S1 f (KP 2) (nonce 1 s) 0;
  do r20 <- draw S2 f (KP 2) (nonce 1 s) 0;
  do r21 <- draw S2 f (KP 0) (nonce 2 s) 0;
  do _ <- update_pairwise;
  mk_priv r00 r01 r10 r11 r20 r21 true ty f.

(** aby3.py 1022-1067 [_gen_b2a_sharing] with the key table of type 1 ([two = false]: server 2
    lacks key 1) or type 2 ([two = true]: server 0 lacks key 2), 225-277.  The value is rebuilt
    on server 1 and on one other server; the boolean shares themselves are not used by the
    caller and only their draws are recorded. *)
Definition b2a_sharing (two : bool) (f : fac) : M (pv * pv) :=
  let k i := if two then KB i else KA i in
  do s <- get;
  do a00 <- draw S0 f (k 0) (nb s) 0;
  do a01 <- draw S0 f (k 1) (nb s) 0;
  do x_other0 <- (if two then ret a00
                  else do s2 <- draw S0 f (k 2) (nb s) 0; op3 S0 (fun a b c => Z.lxor (Z.lxor a b) c) a00 a01 s2);
  do a10 <- draw S1 f (k 1) (nb s) 0;
  do a11 <- draw S1 f (k 2) (nb s) 0;
  do s0 <- draw S1 f (k 0) (nb s) 0;
  do x_on_1 <- op3 S1 (fun a b c => Z.lxor (Z.lxor a b) c) s0 a10 a11;
  do a20 <- draw S2 f (k 2) (nb s) 0;
  do a21 <- draw S2 f (k 0) (nb s) 0;
  do x_other2 <- (if two then do s1 <- draw S2 f (k 1) (nb s) 0; op3 S2 (fun a b c => Z.lxor (Z.lxor a b) c) s1 a20 a21
                  else ret a20);
  do _ <- update_b2a;
  ret (x_on_1, if two then x_other2 else x_other0).

(** aby3.py 1069-1116 [_ot].  The choice bit is held by the receiver and the helper, the key by
    the sender and the helper. *)
Definition ot (sender receiver helper : dev) (f : fac) (m0 m1 c_rec c_help : pv) (k_send k_help : key) (n : Z) : M pv :=
  do ws0 <- draw sender f k_send n 0;
  do ws1 <- draw sender f k_send n 1;
  do mm0 <- op2 sender Z.lxor m0 ws0;
  do mm1 <- op2 sender Z.lxor m1 ws1;
  do wh0 <- draw helper f k_help n 0;
  do wh1 <- draw helper f k_help n 1;
  do wc <- op3 helper (fun c a b => if c =? 0 then b else a) c_help wh1 wh0;
  do mc <- op3 receiver (fun c a b => if c =? 0 then b else a) c_rec mm1 mm0;
  op2 receiver Z.lxor mc wc.

(** A function applied to every share on its own server: [~] variants excepted, the sharewise
    operations negative 2326-2341, lshift 3248-3265, rshift 3285-3302, logical_rshift 3305-3323,
    cast 2100-2117, bit_split_and_gather 2078-2092 (one lane). *)
Definition sharewise (g : Z -> Z) (f' : fac) (x : priv) : M priv :=
  do a00 <- op1 S0 g (p00 x); do a01 <- op1 S0 g (p01 x);
  do a10 <- op1 S1 g (p10 x); do a11 <- op1 S1 g (p11 x);
  do a20 <- op1 S2 g (p20 x); do a21 <- op1 S2 g (p21 x);
  mk_priv a00 a01 a10 a11 a20 a21 (psc x) (pty x) f'.
(** The same with two private operands: add 2148-2160, sub 2238-2254, xor 3041-3062. *)
Definition sharewise2 (g : Z -> Z -> Z) (sc : bool) (x y : priv) : M priv :=
  do a00 <- op2 S0 g (p00 x) (p00 y); do a01 <- op2 S0 g (p01 x) (p01 y);
  do a10 <- op2 S1 g (p10 x) (p10 y); do a11 <- op2 S1 g (p11 x) (p11 y);
  do a20 <- op2 S2 g (p20 x) (p20 y); do a21 <- op2 S2 g (p21 x) (p21 y);
  mk_priv a00 a01 a10 a11 a20 a21 sc (pty x) (pfc x).
(** Every share combined with the server's copy of a public value: mul 2390-2434 (share times
    value), xor 3065-3105, and 3172-3214. *)
Definition sharewise_pub (g : Z -> Z -> Z) (sc : bool) (x : priv) (y : pub) : M priv :=
  do a00 <- op2 S0 g (p00 x) (q0 y); do a01 <- op2 S0 g (p01 x) (q0 y);
  do a10 <- op2 S1 g (p10 x) (q1 y); do a11 <- op2 S1 g (p11 x) (q1 y);
  do a20 <- op2 S2 g (p20 x) (q2 y); do a21 <- op2 S2 g (p21 x) (q2 y);
  mk_priv a00 a01 a10 a11 a20 a21 sc (pty x) (pfc x).
(** A function applied to each copy of two public values (2344-2388, 3107-3121). *)
Definition pubwise2 (g : Z -> Z -> Z) (sc : bool) (x y : pub) : M pub :=
  do a <- op2 S0 g (q0 x) (q0 y); do b <- op2 S1 g (q1 x) (q1 y); do c <- op2 S2 g (q2 x) (q2 y);
  mk_pub a b c sc (qfc x).

(** Word operations of a factory: [+], [-], unary [-], [*] (native.py 342-361, 467-471). *)
Definition wadd (f : fac) (x y : Z) : Z := fcast f (x + y).
(** native.py 349-354. *)
Definition wsub (f : fac) (x y : Z) : Z := fcast f (x - y).
(** native.py 356-361. *)
Definition wmul (f : fac) (x y : Z) : Z := fcast f (x * y).
(** native.py 467-471. *)
Definition wneg (f : fac) (x : Z) : Z := fcast f (- x).
(** [<<] (native.py 553-558). *)
Definition wshl (f : fac) (k x : Z) : Z := fcast f (Z.shiftl x k).
(** [>>], arithmetic (native.py 560-565). *)
Definition wsar (k x : Z) : Z := Z.shiftr x k.
(** [logical_rshift] (native.py 567-588); negative amounts are not used here. *)
Definition wshr (f : fac) (k x : Z) : Z :=
  if k =? 0 then x else Z.land (Z.shiftr x k) (Z.lnot (Z.shiftl (-1) (fbits f - k))).

(** Sharing type test used by the operator methods (aby3_tensors.py 112-121, 289-323). *)
Definition is_arith (x : priv) : bool := match pty x with Arith => true | Bool_ => false end.

(** aby3.py 2148-2160 [_add_private_private] behind the operator check (aby3_tensors.py 100-121);
    the encodings are not compared. *)
Definition add_pp (x y : priv) : M priv :=
  if is_arith x then sharewise2 (wadd (pfc x)) (psc x) x y else raise ValueError.
(** aby3.py 2163-2190 [_add_private_public]: shares[0][0] and shares[2][1] absorb the value. *)
Definition add_pq (x : priv) (y : pub) : M priv :=
  if is_arith x then
    do _ <- assert_ (Bool.eqb (psc x) (qsc y));
    do a00 <- op2 S0 (wadd (pfc x)) (p00 x) (q0 y);
    do a21 <- op2 S2 (wadd (pfc x)) (p21 x) (q2 y);
    mk_priv a00 (p01 x) (p10 x) (p11 x) (p20 x) a21 (psc x) (pty x) (pfc x)
  else raise ValueError.
(** aby3.py 2193-2221 [_add_public_private] (called on the public operand, so no sharing check). *)
Definition add_qp (x : pub) (y : priv) : M priv :=
  do _ <- assert_ (Bool.eqb (qsc x) (psc y));
  do a00 <- op2 S0 (wadd (pfc y)) (p00 y) (q0 x);
  do a21 <- op2 S2 (wadd (pfc y)) (p21 y) (q2 x);
  mk_priv a00 (p01 y) (p10 y) (p11 y) (p20 y) a21 (qsc x) (pty y) (pfc y).
(** aby3.py 2224-2236 [_add_public_public]: no [tf.device] block. *)
Definition add_qq (x y : pub) : M pub :=
  do _ <- assert_ (Bool.eqb (qsc x) (qsc y));
  do a <- op2 NoDev (wadd (qfc x)) (q0 x) (q0 y);
  do b <- op2 NoDev (wadd (qfc x)) (q1 x) (q1 y);
  do c <- op2 NoDev (wadd (qfc x)) (q2 x) (q2 y);
  mk_pub a b c (qsc x) (qfc x).
(** aby3.py 2243-2257 [_sub_private_private]. *)
Definition sub_pp (x y : priv) : M priv :=
  if is_arith x then
    do _ <- assert_ (Bool.eqb (psc x) (psc y));
    sharewise2 (wsub (pfc x)) (psc x) x y
  else raise ValueError.
(** aby3.py 2260-2284 [_sub_private_public]. *)
Definition sub_pq (x : priv) (y : pub) : M priv :=
  if is_arith x then
    do _ <- assert_ (Bool.eqb (psc x) (qsc y));
    do a00 <- op2 S0 (wsub (pfc x)) (p00 x) (q0 y);
    do a21 <- op2 S2 (wsub (pfc x)) (p21 x) (q2 y);
    mk_priv a00 (p01 x) (p10 x) (p11 x) (p20 x) a21 (psc x) (pty x) (pfc x)
  else raise ValueError.
(** aby3.py 2287-2309 [_sub_public_private]: the encodings are not compared. *)
Definition sub_qp (x : pub) (y : priv) : M priv :=
  let f := pfc y in
  do a00 <- op2 S0 (wsub f) (q0 x) (p00 y);
  do a01 <- op1 S0 (wneg f) (p01 y);
  do a10 <- op1 S1 (wneg f) (p10 y);
  do a11 <- op1 S1 (wneg f) (p11 y);
  do a20 <- op1 S2 (wneg f) (p20 y);
  do a21 <- op2 S2 (wsub f) (q2 x) (p21 y);
  mk_priv a00 a01 a10 a11 a20 a21 (qsc x) (pty y) f.
(** aby3.py 2312-2324 [_sub_public_public]. *)
Definition sub_qq (x y : pub) : M pub :=
  do _ <- assert_ (Bool.eqb (qsc x) (qsc y)); pubwise2 (wsub (qfc x)) (qsc x) x y.
(** aby3.py 2332-2346 [_negative_private]. *)
Definition negative (x : priv) : M priv := sharewise (wneg (pfc x)) (pfc x) x.

(** The local product of two replicated share pairs plus the zero share (aby3.py 2446-2472,
    2625-2647, 3138-3154), parameterised by sum and product. *)
Definition cross (add mul : Z -> Z -> Z) (x0 x1 y0 y1 a : Z) : Z :=
  add (add (add (mul x0 y0) (mul x0 y1)) (mul x1 y0)) a.
(** aby3.py 2437-2490 [_mul_private_private] before the truncation and 3123-3169
    [_and_private_private]: local products, then resharing. *)
Definition rss_mul (ty : sty) (f : fac) (add mul : Z -> Z -> Z) (sc : bool) (x y : priv) : M priv :=
  do a <- zero_sharing ty f;
  match a with (a0, a1, a2) =>
  do z0 <- op5 S0 (cross add mul) (p00 x) (p01 x) (p00 y) (p01 y) a0;
  do z1 <- op5 S1 (cross add mul) (p10 x) (p11 x) (p10 y) (p11 y) a1;
  do z2 <- op5 S2 (cross add mul) (p20 x) (p21 x) (p20 y) (p21 y) a2;
  do b01 <- copy S0 z1;
  do b11 <- copy S1 z2;
  do b21 <- copy S2 z0;
  mk_priv z0 b01 z1 b11 z2 b21 sc (pty x) (pfc x)
  end.
(** aby3.py 2437-2488: the product of two arithmetic sharings before the truncation.  The zero
    sharing is drawn from the default factory (aby3.py 949), which is the operands' factory. *)
Definition mul_pp_raw (x y : priv) : M priv :=
  rss_mul Arith (pfc x) (wadd (pfc x)) (wmul (pfc x)) (psc x || psc y) x y.

(** aby3.py 2553-2657 [matmul], one output entry: [xs], [ys] are the row and the column. *)
Definition dot (f : fac) (xs ys : list Z) : Z :=
  fold_left (fun acc p => wadd f acc (wmul f (fst p) (snd p))) (combine xs ys) 0.
(** Reading a list of values under device [d] (aby3.py 2622-2647). *)
Definition opl (d : dev) (f : list Z -> Z) (xs : list pv) : M pv := fun s =>
  (s, map (fun v => Saw d (vz v)) xs, Ok (MkV d (f (map vz xs)))).
(** aby3.py 2606-2669 [_matmul_private_private], one entry, before the truncation. *)
Definition matmul_pp_raw (f : fac) (sc : bool) (xs ys : list priv) : M priv :=
  let n := length xs in
  let loc l := (* x0 row, x1 row, y0 column, y1 column, zero share *)
    let x0 := firstn n l in let x1 := firstn n (skipn n l) in
    let y0 := firstn n (skipn (2 * n) l) in let y1 := firstn n (skipn (3 * n) l) in
    wadd f (wadd f (wadd f (dot f x0 y0) (dot f x0 y1)) (dot f x1 y0)) (nth (4 * n) l 0) in
  do a <- zero_sharing Arith f;
  match a with (a0, a1, a2) =>
  do z0 <- opl S0 loc (map p00 xs ++ map p01 xs ++ map p00 ys ++ map p01 ys ++ [a0]);
  do z1 <- opl S1 loc (map p10 xs ++ map p11 xs ++ map p10 ys ++ map p11 ys ++ [a1]);
  do z2 <- opl S2 loc (map p20 xs ++ map p21 xs ++ map p20 ys ++ map p21 ys ++ [a2]);
  do b01 <- copy S0 z1;
  do b11 <- copy S1 z2;
  do b21 <- copy S2 z0;
  mk_priv z0 b01 z1 b11 z2 b21 sc Arith f
  end.

(** aby3.py 3041-3062 [_xor_private_private]. *)
Definition xor_pp (x y : priv) : M priv :=
  do _ <- assert_ (negb (is_arith x) && negb (is_arith y) && fac_eqb (pfc x) (pfc y));
  sharewise2 Z.lxor (psc x) x y.
(** aby3.py 3065-3084 [_xor_private_public], 3086-3105: the value is xored into every share. *)
Definition xor_pq (x : priv) (y : pub) : M priv :=
  do _ <- assert_ (negb (is_arith x) && fac_eqb (pfc x) (qfc y));
  sharewise_pub Z.lxor (psc x) x y.
(** aby3.py 3123-3169 [_and_private_private]. *)
Definition and_pp (x y : priv) : M priv :=
  do _ <- assert_ (negb (is_arith x) && negb (is_arith y) && fac_eqb (pfc x) (pfc y));
  rss_mul Bool_ (pfc x) Z.lxor Z.land (psc x || psc y) x y.
(** aby3.py 3172-3192 [_and_private_public], 3195-3214. *)
Definition and_pq (x : priv) (y : pub) : M priv :=
  do _ <- assert_ (negb (is_arith x) && fac_eqb (pfc x) (qfc y));
  sharewise_pub Z.land (psc x) x y.
(** aby3.py 3216-3223 [_or_private_private]. *)
Definition or_pp (x y : priv) : M priv :=
  do a <- xor_pp x y; do b <- and_pp x y; xor_pp a b.
(** aby3.py 3226-3245 [_not_private]: shares[0][0] and shares[2][1] are inverted. *)
Definition not_p (x : priv) : M priv :=
  if is_arith x then raise ValueError else
  do a00 <- op1 S0 (fnot (pfc x)) (p00 x);
  do a21 <- op1 S2 (fnot (pfc x)) (p21 x);
  mk_priv a00 (p01 x) (p10 x) (p11 x) (p20 x) a21 (psc x) (pty x) (pfc x).
(** aby3.py 3248-3265 [_lshift_private]. *)
Definition lshift (x : priv) (k : Z) : M priv := sharewise (wshl (pfc x) k) (pfc x) x.
(** aby3.py 3285-3302 [_rshift_private]. *)
Definition rshift (x : priv) (k : Z) : M priv := sharewise (wsar k) (pfc x) x.
(** aby3.py 3305-3323 [_logical_rshift_private]. *)
Definition logical_rshift (x : priv) (k : Z) : M priv := sharewise (wshr (pfc x) k) (pfc x) x.
(** aby3.py 2100-2117 [_cast_private]. *)
Definition cast (f : fac) (x : priv) : M priv :=
  if fac_eqb (pfc x) f then ret x else sharewise (fcast f) f x.

(** aby3.py 2851-2950 [_truncate_msb0_secureq8_private]. *)
Definition truncate_secureq8 (amount : Z) (x : priv) : M priv :=
  let f := pfc x in
  let nbits := fbits f in
  let msb_mask := fcast f (Z.shiftl 1 (nbits - 1)) in
  let mod_mask := Z.shiftl 1 (nbits - amount - 1) - 1 in
  do _ <- assert_ (is_arith x);
  do s <- get;
  do ra0 <- draw S2 f (KP 0) (nonce 2 s) 0;
  do ra1 <- draw S2 f (KP 0) (nonce 2 s) 1;
  do ra2 <- draw S2 f (KP 0) (nonce 2 s) 2;
  do ra3 <- draw S2 f (KP 0) (nonce 2 s) 3;
  do rb <- draw S2 f (KP 2) (nonce 1 s) 0;
  do r <- draw_local S2 f;
  do h <- op1 S2 (fun v => Z.land v msb_mask) r;
  do sv <- op2 S2 (fun r h => wsub f (wshr f amount r) (wshr f amount h)) r h;
  do r_msb <- op1 S2 (fun h => fcast f (fcast FB h)) h;
  do r1 <- op2 S2 (wsub f) r ra0;
  do s1 <- op2 S2 (wsub f) sv ra1;
  do r_msb1 <- op2 S2 (wsub f) r_msb ra2;
  do rc0 <- draw S0 f (KP 0) (nonce 2 s) 0;
  do rc1 <- draw S0 f (KP 0) (nonce 2 s) 1;
  do rc2 <- draw S0 f (KP 0) (nonce 2 s) 2;
  do rc3 <- draw S0 f (KP 0) (nonce 2 s) 3;
  do x0 <- op2 S0 (wadd f) (p00 x) (p01 x);
  do c0 <- op2 S0 (wadd f) x0 rc0;
  do c1 <- op2 S1 (wadd f) (p11 x) r1;
  do c_on_0 <- op2 S0 (wadd f) c0 c1;
  do cp0 <- op1 S0 (fun c => Z.land (wsar amount c) mod_mask) c_on_0;
  do cm0 <- op1 S0 (fun c => fcast FB (Z.land c msb_mask)) c_on_0;
  do b0 <- op2 S0 (fun c r => if c =? 0 then r else wsub f 1 r) cm0 rc2;
  do yp0 <- op3 S0 (fun c s b => wadd f (wsub f c s) (wmul f b (fcast f (mod_mask + 1)))) cp0 rc1 b0;
  do yt0 <- op2 S0 (wsub f) yp0 rc3;
  do rd <- draw S1 f (KP 2) (nonce 1 s) 0;
  do c_on_1 <- op2 S1 (wadd f) c0 c1;
  do cm1 <- op1 S1 (fun c => fcast FB (Z.land c msb_mask)) c_on_1;
  do b1 <- op2 S1 (fun c r => if c =? 0 then r else wneg f r) cm1 r_msb1;
  do yp1 <- op2 S1 (fun s b => wadd f (wneg f s) (wmul f b (fcast f (mod_mask + 1)))) s1 b1;
  do yt1 <- op2 S1 (wsub f) yp1 rd;
  do _ <- update_pairwise;
  do z01 <- op2 S0 (wadd f) yt0 yt1;
  do z10 <- op2 S1 (wadd f) yt0 yt1;
  do z20 <- copy S2 rd;
  do z21 <- copy S2 rc3;
  mk_priv rc3 z01 z10 rd z20 z21 (psc x) Arith f.

(** aby3.py 2673-2691 [_truncate_heuristic_private]; [scale] is the number of fractional bits of
    the configuration.  [x + (1 << k)] lifts the constant with the scaling of [x] (1181-1239); a
    negative shift count raises ValueError. *)
Definition truncate_heuristic (scale amount : Z) (x : priv) : M priv :=
  let f := pfc x in
  let sc := if psc x then scale else 0 in
  let hb := fbits f - 2 in
  if hb - sc <? 0 then raise ValueError else
  do k <- const f (2 ^ (hb - sc) * 2 ^ sc) (psc x);
  do y <- add_pq x k;
  do z <- truncate_secureq8 amount y;
  if hb - (sc + amount) <? 0 then raise ValueError else
  do k' <- const f (2 ^ (hb - (sc + amount)) * 2 ^ sc) (psc x);
  sub_pq z k'.

(** aby3.py 2694-2708 [_truncate_local_public]. *)
Definition truncate_public (amount : Z) (x : pub) : M pub :=
  do a <- op1 S0 (wsar amount) (q0 x); do b <- op1 S1 (wsar amount) (q1 x); do c <- op1 S2 (wsar amount) (q2 x);
  mk_pub a b c (qsc x) (qfc x).

(** aby3.py 2711-2761 [_truncate_local_private] with base 2: [y1] stays on server 1 and [y0] on
    server 0 although they become shares of servers 0 and 2. *)
Definition truncate_local (amount : Z) (x : priv) : M priv :=
  let f := pfc x in
  do s <- get;
  do r_on_2 <- draw S2 f (KP 2) (nonce 1 s) 0;
  do y0 <- op1 S0 (wsar amount) (p00 x);
  do r_on_1 <- draw S1 f (KP 2) (nonce 1 s) 0;
  do t <- op2 S1 (wadd f) (p10 x) (p11 x);
  do tmp <- op1 S1 (wsar amount) t;
  do y1 <- op2 S1 (wsub f) tmp r_on_1;
  do _ <- update_pairwise;
  mk_priv y0 y1 y1 r_on_1 r_on_2 y0 (psc x) (pty x) f.

(** aby3.py 4023-4080 [__mul_ab_routine]: [a] on server [i] times the boolean sharing [b].  [g] is
    the factory of [a]; the zero sharing is drawn from the default factory, the same in every
    modelled call. *)
Definition mul_ab_routine (g : fac) (sc : bool) (a : pv) (b : priv) (i : Z) : M priv :=
  do s3 <- zero_sharing Arith g;
  match s3 with (s0, s1, s2) =>
  let s_ j := if j mod 3 =? 0 then s0 else if j mod 3 =? 1 then s1 else s2 in
  let d0 := srv i in let d1 := srv (i + 1) in let d2 := srv (i + 2) in
  do z00 <- copy d0 (s_ (i + 2));
  do z01 <- copy d0 (s_ (i + 1));
  do tmp <- op3 d0 (fun b0 b1 a => wmul g (fcast g (Z.lxor b0 b1)) a) (fst_sh b i) (snd_sh b i) a;
  do m0 <- op2 d0 (wadd g) tmp (s_ i);
  do m1 <- op3 d0 (fun t a s => wadd g (wadd g (wneg g t) a) s) tmp a (s_ i);
  do st <- get;
  do z11 <- ot d0 d1 d2 g m0 m1 (snd_sh b (i + 1)) (fst_sh b (i + 2)) (KP (i mod 3)) (KP (i mod 3)) (nonce (i + 2) st);
  do z20 <- ot d0 d2 d1 g m0 m1 (fst_sh b (i + 2)) (snd_sh b (i + 1)) (KP ((i + 1) mod 3)) (KP ((i + 1) mod 3)) (nonce i st);
  do _ <- update_pairwise;
  let z0 := z00 in let z1 := z01 in
  (* z[idx0] = (z00, z01), z[idx1] = (s1, z11), z[idx2] = (z20, s2) *)
  let fst_ j := if (j - i) mod 3 =? 0 then z00 else if (j - i) mod 3 =? 1 then s_ (i + 1) else z20 in
  let snd_ j := if (j - i) mod 3 =? 0 then z01 else if (j - i) mod 3 =? 1 then z11 else s_ (i + 2) in
  mk_priv (fst_ 0) (snd_ 0) (fst_ 1) (snd_ 1) (fst_ 2) (snd_ 2) sc Arith g
  end.
(** aby3.py 3986-3997 [_mul_ab_public_private]. *)
Definition mul_ab_qp (x : pub) (y : priv) : M priv :=
  do _ <- assert_ (negb (is_arith y)); mul_ab_routine (qfc x) (qsc x) (q2 x) y 2.
(** aby3.py 4000-4020 [_mul_ab_private_private]. *)
Definition mul_ab_pp (x y : priv) : M priv :=
  do _ <- assert_ (is_arith x && negb (is_arith y));
  do w <- mul_ab_routine (pfc x) (psc x) (p00 x) y 0;
  do a <- op2 S1 (wadd (pfc x)) (p10 x) (p11 x);
  do z <- mul_ab_routine (pfc x) (psc x) a y 1;
  add_pp w z.
(** aby3.py 3976-3983 [_b2a_single_private]; [g] is the default factory. *)
Definition b2a_single (g : fac) (x : priv) : M priv :=
  do _ <- assert_ (negb (is_arith x) && fac_eqb (pfc x) FB);
  do a <- const g 1 false;
  mul_ab_qp a x.

(** aby3.py 2764-2848 [_truncate_msb0_cheetah_private]: [w[2]] refers to values of servers 1
    and 0; the nonces are not advanced before [b2a_single]. *)
Definition truncate_cheetah (amount : Z) (x : priv) : M priv :=
  let f := pfc x in
  do _ <- assert_ (is_arith x);
  do xa <- op2 S0 (wadd f) (p00 x) (p01 x);
  do wa <- draw_local S0 FB;
  do ma <- op1 S0 (fun v => fcast FB (wshr f (fbits f - 1) v)) xa;
  do s0 <- op2 S0 Z.lxor wa ma;
  do s1 <- op1 S0 (fun v => Z.lxor v 1) wa;
  do xat <- op1 S0 (wshr f amount) xa;
  do mb1 <- op1 S1 (fun v => fcast FB (wshr f (fbits f - 1) v)) (p11 x);
  do xbt1 <- op1 S1 (wshr f amount) (p11 x);
  do mb2 <- op1 S2 (fun v => fcast FB (wshr f (fbits f - 1) v)) (p20 x);
  do xbt2 <- op1 S2 (wshr f amount) (p20 x);
  do st <- get;
  do wb <- ot S0 S1 S2 FB s0 s1 mb1 mb2 (KP 0) (KP 0) (nonce 2 st);
  do w01 <- draw S0 FB (KP 1) (nonce 0 st) 0;
  do w10 <- draw S1 FB (KP 1) (nonce 0 st) 0;
  do w11 <- op2 S1 Z.lxor wb w10;
  do w <- mk_priv wa w01 w10 w11 w11 wa false Bool_ FB;
  do wi <- b2a_single f w;
  do e <- lshift wi (fbits f - amount);
  do z00 <- op2 S0 (wsub f) xat (p00 e);
  do z01 <- op1 S0 (wneg f) (p01 e);
  do z10 <- op1 S1 (wneg f) (p10 e);
  do z11 <- op2 S1 (wsub f) xbt1 (p11 e);
  do z20 <- op2 S2 (wsub f) xbt2 (p20 e);
  mk_priv z00 z01 z10 z11 z20 z00 (psc x) Arith f.

(** aby3.py 2437-2490 [_mul_private_private] with the final truncation (1438-1445: method
    "heuristic", amount = the fractional precision). *)
Definition mul_pp (scale : Z) (x y : priv) : M priv :=
  do z <- mul_pp_raw x y;
  if psc x && psc y then truncate_heuristic scale scale z else ret z.
(** aby3.py 2390-2411 [_mul_public_private], 2413-2434 [_mul_private_public]. *)
Definition mul_pq (scale : Z) (x : priv) (y : pub) : M priv :=
  do z <- sharewise_pub (wmul (pfc x)) (psc x || qsc y) x y;
  if psc x && qsc y then truncate_heuristic scale scale z else ret z.
(** aby3.py 2365-2388 [_mul_public_public]. *)
Definition mul_qq (scale : Z) (x y : pub) : M pub :=
  do z <- pubwise2 (wmul (qfc x)) (qsc x || qsc y) x y;
  if qsc x && qsc y then truncate_public scale z else ret z.

(** ceil(log2 k) (aby3.py 3424, 3502): Python floats; exact for the word sizes used. *)
Definition log2c (k : Z) : nat := Z.to_nat (Z.log2_up k).

(** The adders accept factories whose native type is int64: int64 and int128 (aby3.py 3364-3367,
    3480-3483). *)
Definition is_i64 (f : fac) : bool := fac_eqb f (FI 64) || fac_eqb f (FI 128).
(** [np.ones(shape) * ((1 << e) - 1)] (aby3.py 3488, 3503-3506): a double, so above 53 bits
    [2^e - 1] is rounded to [2^e]. *)
Definition f64_mask (e : Z) : Z := if e <=? 53 then 2 ^ e - 1 else 2 ^ e.
(** aby3.py 3502-3527: one round of the Kogge-Stone adder. *)
Definition ks_round (i : nat) (G P : priv) : M (priv * priv) :=
  let f := pfc G in
  do k_mask <- const f (f64_mask (2 ^ Z.of_nat i)) false;
  do G1 <- lshift G (2 ^ Z.of_nat i);
  do P1 <- lshift P (2 ^ Z.of_nat i);
  do P1 <- xor_pq P1 k_mask;
  do t <- and_pp P G1;
  do G' <- xor_pp G t;
  do P' <- and_pp P P1;
  ret (G', P').
(** The loop of aby3.py 3502. *)
Fixpoint ks_loop (n i : nat) (G P : priv) : M (priv * priv) :=
  match n with
  | O => ret (G, P)
  | S n' => do gp <- ks_round i G P; ks_loop n' (S i) (fst gp) (snd gp)
  end.
(** aby3.py 3472-3535 [_ppa_kogge_stone_private_private]; [nb = None] is the full width. *)
Definition ppa_ks (x y : priv) (nb : option Z) : M priv :=
  let f := pfc x in
  do _ <- assert_ (fac_eqb (pfc x) (pfc y));
  if negb (is_i64 f) then raise NotImplementedError else
  do G <- and_pp x y;
  do P <- xor_pp x y;
  let k := match nb with Some k => k | None => fbits f end in
  do gp <- ks_loop (log2c k) 0 G P;
  do C <- lshift (fst gp) 1;
  do P0 <- xor_pp x y;
  do z <- xor_pp C P0;
  if k <? fbits f then do mask <- const f (2 ^ k - 1) false; and_pq z mask else ret z.

(** aby3.py 3369-3404: the keep and copy masks of the Sklansky adder, written as the repeated
    patterns they are: in blocks of [2 * 2^i] bits the low [2^i] bits, resp. bit [2^i - 1]. *)
Definition rep_pattern (nbits block pat : Z) : Z :=
  fold_left (fun acc j => acc + pat * 2 ^ (block * Z.of_nat j)) (seq 0 (Z.to_nat (nbits / block))) 0.
(** aby3.py 3369-3376 and 3386-3394 [keep_masks[i]]. *)
Definition sk_keep (nbits : Z) (i : nat) : Z := rep_pattern nbits (2 * 2 ^ Z.of_nat i) (2 ^ 2 ^ Z.of_nat i - 1).
(** aby3.py 3377-3384 and 3395-3403 [copy_masks[i]]. *)
Definition sk_copy (nbits : Z) (i : nat) : Z := rep_pattern nbits (2 * 2 ^ Z.of_nat i) (2 ^ (2 ^ Z.of_nat i - 1)).
(** aby3.py 3425-3427: [G1 = (G1 << 2^j) ^ G1] for j below [i]. *)
Fixpoint sk_copy_loop (n j : nat) (G1 : priv) : M priv :=
  match n with
  | O => ret G1
  | S n' => do t <- lshift G1 (2 ^ Z.of_nat j); do G1' <- xor_pp t G1; sk_copy_loop n' (S j) G1'
  end.
(** aby3.py 3410-3461: one round of the Sklansky adder. *)
Definition sk_round (i : nat) (G P : priv) : M (priv * priv) :=
  let f := pfc G in
  do c_mask <- const f (sk_copy (fbits f) i) false;
  do k_mask <- const f (sk_keep (fbits f) i) false;
  do g <- and_pq G c_mask;
  do g <- lshift g 1;
  do p <- and_pq P c_mask;
  do p <- lshift p 1;
  do G1 <- sk_copy_loop i 0 g;
  do P1 <- sk_copy_loop i 0 p;
  do P1 <- xor_pq P1 k_mask;
  do t <- and_pp P G1;
  do G' <- xor_pp G t;
  do P' <- and_pp P P1;
  ret (G', P').
(** The loop of aby3.py 3410. *)
Fixpoint sk_loop (n i : nat) (G P : priv) : M (priv * priv) :=
  match n with
  | O => ret (G, P)
  | S n' => do gp <- sk_round i G P; sk_loop n' (S i) (fst gp) (snd gp)
  end.
(** aby3.py 3356-3469 [_ppa_sklansky_private_private]: the result is not masked to [nb] bits. *)
Definition ppa_sk (x y : priv) (nb : option Z) : M priv :=
  let f := pfc x in
  do _ <- assert_ (fac_eqb (pfc x) (pfc y));
  if negb (is_i64 f) then raise NotImplementedError else
  do G <- and_pp x y;
  do P <- xor_pp x y;
  let k := match nb with Some k => k | None => fbits f end in
  do gp <- sk_loop (log2c k) 0 G P;
  do C <- lshift (fst gp) 1;
  do P0 <- xor_pp x y;
  xor_pp C P0.

(** aby3.py 3744-3792 and 3846-3874: resharing of an arithmetic sharing as the two boolean
    operands x0 + x1 and x2. *)
Definition a2b_operands (x : priv) : M (priv * priv) :=
  let f := pfc x in
  do zero <- const f 0 false;
  do a <- zero_sharing Bool_ f;
  match a with (a0, a1, a2) =>
  do x01 <- op2 S0 (wadd f) (p00 x) (p01 x);
  do o00 <- op2 S0 Z.lxor x01 a0;
  do o01 <- copy S0 a1;
  do o11 <- copy S1 a2;
  do o21 <- copy S2 o00;
  do operand1 <- mk_priv o00 o01 a1 o11 a2 o21 (psc x) Bool_ f;
  do operand2 <- mk_priv (q0 zero) (q0 zero) (q1 zero) (p11 x) (p20 x) (q2 zero) (psc x) Bool_ f;
  ret (operand1, operand2)
  end.
(** aby3.py 3744-3795 [_a2b_private]. *)
Definition a2b (nb : option Z) (x : priv) : M priv :=
  do _ <- assert_ (is_arith x);
  do ops <- a2b_operands x;
  ppa_ks (fst ops) (snd ops) nb.

(** The kernel of [bit_split_and_gather(x, 2)] (aux_kernels.cc 73-92; native.py 590-600), lane
    [start]: bit [t] of the result is bit [start + 2 t] of the [n]-bit input. *)
Definition gather2 (n start x : Z) : Z :=
  fold_left (fun acc t => if Z.testbit x (start + 2 * Z.of_nat t) then Z.lor acc (Z.shiftl 1 (Z.of_nat t)) else acc)
    (seq 0 (Z.to_nat (n / 2))) 0.
(** The factory registered for [k] bits (tensor/__init__.py 24-35). *)
Definition fac_of (k : Z) : fac := if k <=? 8 then FI 8 else FI k.
(** aby3.py 3579-3585: halving the number of generate/propagate bits. *)
Fixpoint carry_loop (n : nat) (k : Z) (G P : priv) : M priv :=
  match n with
  | O => ret G
  | S n' =>
    let w := fbits (pfc G) in
    do g0 <- sharewise (gather2 w 0) (pfc G) G; do g0 <- cast (fac_of (k / 2)) g0;
    do g1 <- sharewise (gather2 w 1) (pfc G) G; do g1 <- cast (fac_of (k / 2)) g1;
    do p0 <- sharewise (gather2 w 0) (pfc P) P; do p0 <- cast (fac_of (k / 2)) p0;
    do p1 <- sharewise (gather2 w 1) (pfc P) P; do p1 <- cast (fac_of (k / 2)) p1;
    do t <- and_pp g0 p1;
    do G' <- xor_pp g1 t;
    do P' <- and_pp p0 p1;
    carry_loop n' (k / 2) G' P'
  end.
(** aby3.py 3555-3590 [_carry_computation] of two private operands at position [pos].  A negative
    position calls [_zeros_public], whose constructor call has one argument too many (5402-5410,
    aby3_tensors.py 432). *)
Definition carry (x y : priv) (pos : Z) : M priv :=
  do _ <- assert_ (negb (is_arith x) && negb (is_arith y) && fac_eqb (pfc x) (pfc y));
  if pos <? 0 then raise TypeError else
  let k := 2 ^ Z.log2_up (pos + 1) in
  do x <- (if k =? pos + 1 then ret x else lshift x (k - pos - 1));
  do y <- (if k =? pos + 1 then ret y else lshift y (k - pos - 1));
  do x <- (if k =? fbits (pfc x) then ret x else cast (fac_of k) x);
  do y <- (if k =? fbits (pfc y) then ret y else cast (fac_of k) y);
  do G <- and_pp x y;
  do P <- xor_pp x y;
  do G <- carry_loop (Z.to_nat (Z.log2_up (pos + 1))) k G P;
  do one <- const (pfc G) 1 false;
  and_pq G one.

(** [z.is_scaled = False] (aby3.py 3884). *)
Definition unscale (x : priv) : priv :=
  MkPr (p00 x) (p01 x) (p10 x) (p11 x) (p20 x) (p21 x) false (pty x) (pfc x).
(** aby3.py 3827-3886 [_bit_extract_private]. *)
Definition bit_extract (x : priv) (i : Z) : M priv :=
  do mask <- const (pfc x) 1 false;
  if is_arith x then
    do ops <- a2b_operands x;
    do c <- carry (fst ops) (snd ops) (i - 1);
    do p <- xor_pp (fst ops) (snd ops);
    do p <- rshift p i;
    do p <- and_pq p mask;
    do p <- cast (pfc c) p;
    do z <- xor_pp c p;
    do z <- cast FB z;
    ret (unscale z)
  else
    do z <- rshift x i;
    do z <- and_pq z mask;
    do z <- cast FB z;
    ret (unscale z).
(** aby3.py 3889-3892 [_msb_private]. *)
Definition msb (x : priv) : M priv := bit_extract x (fbits (pfc x) - 1).

(** aby3.py 3895-3957 [_b2a_private], method "ppa". *)
Definition b2a_ppa (x : priv) : M priv :=
  let f := pfc x in
  do _ <- assert_ (negb (is_arith x));
  do x1s <- b2a_sharing false f;
  do x2s <- b2a_sharing true f;
  let x1_on_1 := fst x1s in let x1_on_0 := snd x1s in
  let x2_on_1 := fst x2s in let x2_on_2 := snd x2s in
  do a <- zero_sharing Bool_ f;
  match a with (a0, a1, a2) =>
  do v10 <- op3 S1 (fun u v a => Z.lxor (wsub f (wneg f u) v) a) x1_on_1 x2_on_1 a1;
  do v11 <- copy S1 a2;
  do v01 <- copy S0 v10;
  do v21 <- copy S2 a0;
  do neg <- mk_priv a0 v01 v10 v11 a2 v21 (psc x) Bool_ f;
  do x0 <- ppa_ks x neg None;
  do x0_on_0 <- reconstruct x0 S0;
  do x0_on_2 <- reconstruct x0 S2;
  mk_priv x0_on_0 x1_on_0 x1_on_1 x2_on_1 x2_on_2 x0_on_2 (psc x) Arith f
  end.

(** aby3.py 3001-3007 [_less_than_computation], two private operands. *)
Definition less_than (x y : priv) : M priv :=
  do _ <- assert_ (is_arith x && is_arith y); do z <- sub_pp x y; msb z.
(** Private and public operand (aby3.py 2989-2992). *)
Definition less_than_pq (x : priv) (y : pub) : M priv :=
  do _ <- assert_ (is_arith x); do z <- sub_pq x y; msb z.
(** Public and private operand (aby3.py 2995-2998). *)
Definition less_than_qp (x : pub) (y : priv) : M priv :=
  do _ <- assert_ (is_arith y); do z <- sub_qp x y; msb z.
(** aby3.py 2953-2954, 2957-2962. *)
Definition greater_than (x y : priv) : M priv := less_than y x.
(** aby3.py 2965-2966. *)
Definition greater_equal (x y : priv) : M priv := do z <- less_than x y; not_p z.
(** aby3.py 2977-2978. *)
Definition less_equal (x y : priv) : M priv := do z <- greater_than x y; not_p z.
(** aby3.py 3033-3038 [_equal_zero_private]; the stacked call computes both sign bits. *)
Definition equal_zero (x : priv) : M priv :=
  do nx <- negative x;
  do a <- msb x; do b <- msb nx;
  do na <- not_p a; do nb <- not_p b;
  and_pp na nb.
(** aby3.py 3016-3020 [_equal_private_private]. *)
Definition equal (x y : priv) : M priv :=
  do _ <- assert_ (is_arith x && is_arith y); do z <- sub_pp x y; equal_zero z.

(** aby3.py 1782-1811 [select] on private operands: [c = 0] picks [x]. *)
Definition select (c x y : priv) : M priv :=
  if negb (is_arith x) || negb (is_arith y) then
    do d <- xor_pp x y; do e <- and_pp d c; xor_pp e x
  else
    do d <- sub_pp y x; do e <- mul_ab_pp d c; add_pp e x.
(** aby3.py 1813-1830 [maximum]. *)
Definition maximum (x y : priv) : M priv := do c <- greater_than x y; select c y x.
(** aby3.py 1832-1850 [cmp_swap]: (min, max). *)
Definition cmp_swap (x y : priv) : M (priv * priv) :=
  do c <- greater_than x y;
  do mx <- select c y x;
  do mn <- select c x y;
  ret (mn, mx).
(** aby3.py 4240-4252 [_relu_private], [_relu_with_cmp_private]: [x > 0] and [select(cmp, 0, x)]
    with the constant lifted by 1181-1239. *)
Definition relu (x : priv) : M priv :=
  do zero <- const (pfc x) 0 (psc x);
  do c <- less_than_qp zero x;
  do zero' <- const (pfc x) 0 (psc x);
  do d <- sub_pq x zero';
  do e <- mul_ab_pp d c;
  add_pq e zero'.

(** The machine's view of a run (specification device; placements are those of aby3.py
    842-4080). *)
Definition view {A} (d : dev) (r : state * list ev * res A) : list ev :=
  filter (fun e => match e with Saw d' _ => dev_eqb d d' | Seed d' _ _ _ _ => dev_eqb d d' end) (snd (fst r)).

End ABY3.

Arguments ret {A} _ _.
Arguments raise {A} _ _.
Arguments bind {A B} _ _ _.
