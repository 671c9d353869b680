(** Model of ABY3's private inverse square root (tf_encrypted/protocol/aby3/fp.py 249-330), one tensor entry. *)
From Verif Require Import Base TensorModel Aby3Model FpModel FpLogModel.

Notation "'do' x <- m ; k" := (bind m (fun x => k)) (at level 200, x name, m at level 100, k at level 200).

(** The numbers lifted by the code, encoded with the fixed-point scale: 4.7979, 5.9417 and 3.1855 (fp.py 289), and for
    [esk = 2 ** ((k - s) // 2)] the numbers [esk - esk * sqrt 2] and [esk * sqrt 2] (fp.py 254-259, 325-327). *)
Record sqcoeffs := MkSq { sq2 : Z; sq1 : Z; sq0 : Z; sqd : Z; sqy : Z }.

Section FpSqrt.
Context (prf : fac -> key -> Z -> nat -> Z) (colo : bool).

(** fp.py 289. *)
Definition sqrt_poly (k : Z) (c : sqcoeffs) (b : priv) : M priv :=
  do w2 <- const colo (pfc b) (sq2 c) true;
  do t <- mul_pq prf colo k b w2;
  do w1 <- const colo (pfc b) (sq1 c) true;
  do t <- sub_pq colo t w1;
  do t <- mul_pp prf colo k t b;
  do w0 <- const colo (pfc b) (sq0 c) true;
  add_pq colo t w0.

(** fp.py 292-293; [* 0.5] truncates by one bit (aby3.py 1258-1259, 1277-1278). *)
Definition sqrt_step (k : Z) (b y : priv) : M priv :=
  do t <- mul_pp prf colo k b y;
  do t <- mul_pp prf colo k t y;
  do three <- const colo (pfc b) (3 * 2 ^ k) true;
  do t <- sub_qp colo three t;
  do t <- mul_pp prf colo k y t;
  truncate_heuristic prf colo k 1 t.
(** The loop of fp.py 291-293. *)
Fixpoint sqrt_loop (k : Z) (r : nat) (b y : priv) : M priv :=
  match r with
  | O => ret y
  | S r => do y <- sqrt_step k b y; sqrt_loop k r b y
  end.

(** fp.py 270-275: the bit above the top bit of [x << s]. *)
Definition above_top (x : priv) : M priv :=
  let n := fbits (pfc x) in
  do b <- a2b prf colo (Some n) x;
  do y <- prefix_ors prf colo b n;
  do y1 <- rshift colo y 1;
  do z <- xor_pp colo y y1;
  lshift colo z 1.

(** fp.py 278-284: [x] brought between 0.25 and 0.5. *)
Definition sqrt_normalize (k s : Z) (x rz : priv) : M priv :=
  do f <- b2a_bits prf colo (fbits (pfc x)) rz;
  do t <- mul_pp prf colo k (unscale f) x;
  do t <- truncate_heuristic prf colo k (k + s) t;
  ret (rescale t).

(** aby3.py 2048-2061 [_bit_gather_private] with start 0 and stride 2. *)
Definition bit_gather2 (x : priv) : M priv :=
  do _ <- assert_ (negb (is_arith x));
  sharewise colo (gather2 (fbits (pfc x)) 0) (pfc x) x.

(** fp.py 319-327: the square root of the power of two, for an even [k + s]; the words of 64 and 128 bits have no other. *)
Definition sqrt_exponent (k s : Z) (c : sqcoeffs) (z rz : priv) : M priv :=
  do i <- xor_indices colo z;
  do lsb <- bit_extract prf colo i 0;
  do g <- rshift colo rz 1;
  do g <- or_pp prf colo rz g;
  do g <- bit_gather2 g;
  do e <- b2a_bits prf colo (k + s) g;
  do d <- const colo (pfc z) (sqd c) true;
  do t <- mul_ab_qp prf colo d lsb;
  do y <- const colo (pfc z) (sqy c) true;
  do sel <- add_pq colo t y;
  mul_pp prf colo k e sel.

(** fp.py 249-330 [approx_sqrt_inv], and [_fp_inv_sqrt_private] 113-115. *)
Definition inv_sqrt (k : Z) (c : sqcoeffs) (x : priv) (precision : nat) : M priv :=
  let s := fbits (pfc x) / 2 - k in
  do xs <- lshift colo x s;
  do _ <- assert_ (s <=? k);
  do _ <- assert_ (psc x);
  do z <- above_top xs;
  do rz <- bit_reverse colo z;
  do b <- sqrt_normalize k s x rz;
  do y <- sqrt_poly k c b;
  do y <- sqrt_loop k precision b y;
  do e <- sqrt_exponent k s c z rz;
  mul_pp prf colo k y e.
End FpSqrt.
