(** Model of the fixed-point reciprocal of ABY3 (tf_encrypted/protocol/aby3/fp.py, with the share
    conversions it uses from aby3.py). One tensor entry; programs are the ones of [Aby3Model]. *)
From Verif Require Import Base TensorModel Aby3Model.

Notation "'do' x <- m ; k" := (bind m (fun x => k)) (at level 200, x name, m at level 100, k at level 200).

(** The kernel behind [bit_reverse] on one [n]-bit word (aby3.py 5710-5722 calls it on every share;
    int64_tensor.cc and int128_tensor.cc are modelled and proved equal to this map in [KernModel]):
    bit [t] of the result is bit [n-1-t] of [v]. *)
Definition rev_bits (n v : Z) : Z :=
  swrap n (fold_left (fun acc t => if Z.testbit v (n - 1 - Z.of_nat t) then Z.lor acc (Z.shiftl 1 (Z.of_nat t)) else acc) (seq 0 (Z.to_nat n)) 0).

(** [x.is_scaled = True] (fp.py 243). *)
Definition rescale (x : priv) : priv :=
  MkPr (p00 x) (p01 x) (p10 x) (p11 x) (p20 x) (p21 x) true (pty x) (pfc x).
(** [result.is_scaled = x.is_scaled] (aby3.py 3971). *)
Definition scale_as (sc : bool) (x : priv) : priv :=
  MkPr (p00 x) (p01 x) (p10 x) (p11 x) (p20 x) (p21 x) sc (pty x) (pfc x).

Section Fp.
Context (prf : fac -> key -> Z -> nat -> Z) (colo : bool).

(** aby3.py 5710-5722 [_bit_reverse_private]. *)
Definition bit_reverse (x : priv) : M priv :=
  do _ <- assert_ (negb (is_arith x));
  sharewise colo (rev_bits (fbits (pfc x))) (pfc x) x.

(** One bit of aby3.py 5695-5707 [_bits_private]: the code splits every share into [bitsize] bits at
    once; here one bit at a time. *)
Definition bit_of (i : Z) (x : priv) : M priv :=
  do _ <- assert_ (negb (is_arith x));
  do z <- sharewise colo (fun v => Z.b2z (Z.testbit v i)) FB x;
  ret (unscale z).

(** One summand of aby3.py 3959-3969: [b2a_single(bit) * 2^i]. The code converts all bits with one
    call on a longer tensor; here with one call per bit, which only changes the nonces. *)
Definition b2a_term (g : fac) (i : Z) (x : priv) : M priv :=
  do b <- bit_of i x;
  do a <- b2a_single prf colo g b;
  do w <- const colo g (2 ^ i) false;
  mul_pq prf colo 0 a w.
(** The [reduce_sum] of aby3.py 3970 over bits [i], ..., [i + n - 1], added to [acc]. *)
Fixpoint b2a_sum (g : fac) (n : nat) (i : Z) (x acc : priv) : M priv :=
  match n with
  | O => ret acc
  | S n => do t <- b2a_term g i x; do acc <- add_pp colo acc t; b2a_sum g n (i + 1) x acc
  end.
(** aby3.py 3895-3973 [_b2a_private] with an explicit [nbits]: the adder when [nbits] is the word
    size, bit by bit otherwise (fewer than one bit is a degenerate case left out). *)
Definition b2a_bits (k : Z) (x : priv) : M priv :=
  if k =? fbits (pfc x) then b2a_ppa prf colo x else
  do _ <- assert_ (negb (is_arith x));
  do t <- b2a_term (pfc x) 0 x;
  do z <- b2a_sum (pfc x) (Z.to_nat (k - 1)) 1 x t;
  ret (scale_as (psc x) z).

(** The loop of fp.py 135-140: [b = b | (b >> e); e = e << 1]. *)
Fixpoint or_loop (n : nat) (e : Z) (b : priv) : M priv :=
  match n with
  | O => ret b
  | S n => do t <- rshift colo b e; do b <- or_pp prf colo b t; or_loop n (2 * e) b
  end.
(** fp.py 126-141 [prefix_ORs]. *)
Definition prefix_ors (b : priv) (k : Z) : M priv := or_loop (log2c k) 1 b.

(** fp.py 220-231: the bits of [x] up to the top one: [x_bits], [y_bits] and [z]. *)
Definition top_bit (m : Z) (x : priv) : M priv :=
  let n := fbits (pfc x) in
  do b <- a2b prf colo (Some m) x;
  do b <- lshift colo b (n - m);
  do b <- rshift colo b (n - m);
  do y <- prefix_ors b m;
  do y1 <- rshift colo y 1;
  xor_pp colo y y1.

(** fp.py 207-216: [sign] and [abs(b)]. [define_constant] scales the integer 2, and so does [1 -]. *)
Definition sign_abs (k m : Z) (b : priv) : M (priv * priv) :=
  do t <- bit_extract prf colo b m;
  do two <- const colo (pfc b) (2 * 2 ^ k) true;
  do t <- mul_ab_qp prf colo two t;
  do one <- const colo (pfc b) (2 ^ k) true;
  do sign <- sub_qp colo one t;
  do x <- mul_pp prf colo k sign b;
  ret (sign, x).

(** fp.py 195-246 [__fp_normalize]; [k] fractional bits, [m] = fractional plus integral bits. *)
Definition fp_normalize (k m : Z) (b : priv) (nonsigned : bool) : M (priv * priv) :=
  do _ <- assert_ (psc b);
  do _ <- assert_ (m <? 2 * k);
  do sx <- (if nonsigned then ret (b, b) else sign_abs k m b);
  let x := snd sx in
  do z <- top_bit m x;
  do r <- bit_reverse z;
  do r <- rshift colo r (fbits (pfc b) - 2 * k);
  do e <- b2a_bits (2 * k) r;
  let e := rescale e in
  do sgf <- mul_pp prf colo k x e;
  do exp <- (if nonsigned then ret e else mul_pp prf colo k (fst sx) e);
  ret (sgf, exp).

(** One round of fp.py 103-110. *)
Definition recip_step (k : Z) (one : pub) (x a : priv) : M priv :=
  do t <- mul_pp prf colo k x a;
  do res <- sub_qp colo one t;
  do res2 <- mul_pp prf colo k res res;
  do u <- add_qp colo one res2;
  do t <- mul_pp prf colo k a u;
  do w <- add_pp colo res res2;
  do t <- mul_pp prf colo k t w;
  add_pp colo a t.
(** The loop of fp.py 103-110, [precision] rounds. *)
Fixpoint recip_loop (k : Z) (n : nat) (one : pub) (x a : priv) : M priv :=
  match n with
  | O => ret a
  | S n => do a <- recip_step k one x a; recip_loop k n one x a
  end.

(** The encoding of 2.9281928 with [k] fractional bits: [int(v * 2**k)], exact in floating point for
    the configurations in use (fp.py 101; aby3.py 793-830 and the cast to integers). *)
Definition recip_const (k : Z) : Z := 29281928 * 2 ^ k / 10000000.

(** fp.py 83-111 [_fp_recip_private]. *)
Definition fp_recip (k m : Z) (x : priv) (nonsigned : bool) (precision : nat) : M priv :=
  do ne <- fp_normalize k m x nonsigned;
  do one <- const colo (pfc x) (2 ^ k) true;
  do two <- const colo (pfc x) 2 false;
  do t <- mul_pq prf colo k (fst ne) two;
  do c <- const colo (pfc x) (recip_const k) true;
  do inv <- sub_qp colo c t;
  do a <- mul_pp prf colo k inv (snd ne);
  recip_loop k precision one x a.

(** fp.py 12-30 [_fp_div] and [_fp_div_private_private]. *)
Definition fp_div (k m : Z) (a b : priv) (nonsigned : bool) (precision : nat) : M priv :=
  do r <- fp_recip k m b nonsigned precision;
  mul_pp prf colo k a r.
End Fp.
