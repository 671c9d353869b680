(** Model of ABY3's private logarithms (tf_encrypted/protocol/aby3/fp.py 144-194), one tensor entry. *)
From Verif Require Import Base TensorModel Aby3Model FpModel.

Notation "'do' x <- m ; k" := (bind m (fun x => k)) (at level 200, x name, m at level 100, k at level 200).

(** The kernel behind [xor_indices] on one [n]-bit word (aby3.py 5744-5751 calls it on every share; aux_kernels.cc and
    int128_tensor.cc are modelled and proved equal to this map in [KernModel]): the xor of the positions of the set bits. *)
Definition xor_bits (n v : Z) : Z := fold_right Z.lxor 0 (filter (Z.testbit v) (map Z.of_nat (seq 0 (Z.to_nat n)))).

(** The numbers lifted by the code, encoded with the fixed-point scale (fp.py 156, 172, 178-180; aby3.py 1220-1228): those of
    the polynomial, each times [adjust = 1 / log2(base)], and [adjust] itself, absent for base 2. *)
Record coeffs := MkCo { co2 : Z; co1 : Z; co0 : Z; coadj : option Z }.

(** [int(log2(n) + 1) * 2] (fp.py 148-150). *)
Definition log_bits (n : Z) : Z := 2 * (Z.log2 n + 1).

Section FpLog.
Context (prf : fac -> key -> Z -> nat -> Z) (colo : bool).

(** aby3.py 5744-5751 [_xor_indices_private]. *)
Definition xor_indices (x : priv) : M priv := sharewise colo (xor_bits (fbits (pfc x))) (pfc x) x.

(** fp.py 163-164: the power of two that brings the argument between 1 and 2. *)
Definition log_exponent (k : Z) (z : priv) : M priv :=
  do r <- bit_reverse colo z;
  do r <- rshift colo r (fbits (pfc z) - 2 * k - 1);
  do e <- b2a_bits prf colo (2 * k) r;
  ret (rescale e).

(** fp.py 166-173: the position of the top bit, minus [k], times [adjust]. [* 2**k] is a shift (aby3.py 1258-1259, 1280). *)
Definition log_integer (k : Z) (adj : option Z) (z : priv) : M priv :=
  do i <- xor_indices z;
  do l <- b2a_bits prf colo (log_bits (fbits (pfc z))) i;
  do l <- lshift colo l k;
  do c <- const colo (pfc z) (k * 2 ^ k) true;
  do l <- sub_pq colo (rescale l) c;
  match adj with
  | None => ret l
  | Some a => do a <- const colo (pfc z) a true; mul_pq prf colo k l a
  end.

(** fp.py 178-180: the polynomial, in Horner form. *)
Definition log_poly (k : Z) (c : coeffs) (f : priv) : M priv :=
  do w2 <- const colo (pfc f) (co2 c) true;
  do t <- mul_pq prf colo k f w2;
  do w1 <- const colo (pfc f) (co1 c) true;
  do t <- add_pq colo t w1;
  do t <- mul_pp prf colo k t f;
  do w0 <- const colo (pfc f) (co0 c) true;
  add_pq colo t w0.

(** fp.py 144-182 [_do_fp_log_private]; the assertion on the base is left out. *)
Definition fp_log (k m : Z) (c : coeffs) (x : priv) : M priv :=
  do _ <- assert_ (psc x);
  do _ <- assert_ (m <? 2 * k);
  do z <- top_bit prf colo m x;
  do e <- log_exponent k z;
  do l <- log_integer k (coadj c) z;
  do f <- mul_pp prf colo k x e;
  do p <- log_poly k c f;
  add_pp colo p l.
End FpLog.
