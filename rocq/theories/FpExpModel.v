(** Model of ABY3's private exponentials (tf_encrypted/protocol/aby3/aby3.py 5541-5693), one tensor entry. *)
From Verif Require Import Base TensorModel Aby3Model Aby3NetModel FpModel.

Notation "'do' x <- m ; k" := (bind m (fun x => k)) (at level 200, x name, m at level 100, k at level 200).

(** The coefficients of aby3.py 5542-5552 after the first one, which is 1, in units of 1e-10. *)
Definition pade_coeffs : list Z := [6931400000; 2402200000; 555040000; 96183000; 13327000; 1551000; 141970; 18633].
(** aby3.py 5553-5560: the degree left after the trailing coefficients below [2 ^ -k] are ignored. *)
Fixpoint pade_degree (k : Z) (rcs : list Z) : nat :=
  match rcs with
  | [] => O
  | c :: rcs => if c * 2 ^ k <? 10000000000 then pade_degree k rcs else S (length rcs)
  end.

(** The branch taken by [fp_exp2] on its argument [sign] (aby3.py 5660-5671). *)
Inductive esign := EPos | ENeg | EAny.

Section FpExp.
Context (prf : fac -> key -> Z -> nat -> Z) (colo : bool).

(** aby3.py 5566-5567: [x_pows[i] = x_pows[i // 2] * x_pows[(i + 1) // 2]] for [r] values of [i]; [ps] lists
    [x_pows[1]], ..., [x_pows[i - 1]]. *)
Fixpoint pade_pows (k : Z) (r i : nat) (x : priv) (ps : list priv) : M (list priv) :=
  match r with
  | O => ret ps
  | S r =>
    do p <- mul_pp prf colo k (nth (Nat.div2 i - 1) ps x) (nth (Nat.div2 (i + 1) - 1) ps x);
    pade_pows k r (S i) x (ps ++ [p])
  end.
(** One product of aby3.py 5569 by an encoded coefficient. *)
Definition pade_term (k : Z) (pc : priv * Z) : M priv :=
  do w <- const colo (pfc (fst pc)) (snd pc) true;
  mul_pq prf colo k (fst pc) w.
(** The additions of aby3.py 5571-5573 after the first. *)
Fixpoint pade_sum (z : priv) (ys : list priv) : M priv :=
  match ys with
  | [] => ret z
  | y :: ys => do z <- add_pp colo z y; pade_sum z ys
  end.
(** aby3.py 5541-5575 [_exp2_pade_private]; [cs] are the encoded coefficients after the first. The loop of 5566 stops before
    [degree], so that [x_pows[degree]] is the number 0 and the last summand is the constant 0. *)
Definition exp2_pade (k : Z) (cs : list Z) (x : priv) : M priv :=
  let degree := pade_degree k (rev pade_coeffs) in
  do ps <- pade_pows k (degree - 2) 2 x [x];
  do ys <- mapM (pade_term k) (combine ps cs);
  match ys with
  | [] => raise ValueError
  | y :: ys =>
    do one <- const colo (pfc x) (2 ^ k) true;
    do z <- add_pq colo y one;
    do z <- pade_sum z ys;
    do zero <- const colo (pfc x) 0 true;
    add_pq colo z zero
  end.

(** One factor of aby3.py 5578-5590: [(2 ** 2 ** i - 1) * bit + 1]. The code makes one call on a longer tensor. *)
Definition pow2_factor (x : priv) (i : nat) : M priv :=
  do b <- bit_of colo (Z.of_nat i) x;
  do t <- const colo (pfc x) (2 ^ 2 ^ Z.of_nat i - 1) false;
  do d <- mul_ab_qp prf colo t b;
  do one <- const colo (pfc x) 1 false;
  add_pq colo d one.
(** aby3.py 5578-5590 [_pow2_from_bits_private] on the low [r] bits of [x] (5641). *)
Definition pow2_from_bits (k : Z) (r : nat) (x : priv) : M priv :=
  do ds <- mapM (pow2_factor x) (seq 0 r);
  do d <- prod prf colo k ds;
  do _ <- assert_ (negb (psc d));
  ret d.

(** [prot.select(c, z, 0)] (aby3.py 1804-1811, 5671): the number is lifted to a public tensor. *)
Definition select_zero (c z : priv) : M priv :=
  do zero <- const colo (pfc z) 0 (psc z);
  do d <- sub_qp colo zero z;
  do e <- mul_ab_pp prf colo d c;
  add_pp colo e z.

(** aby3.py 5635-5654: the bits of [x], and 2 to the power of [x] modulo 32, for a scaled [x]. *)
Definition exp2_parts (k : Z) (cs : list Z) (x : priv) : M (priv * priv) :=
  do fmask <- const colo (pfc x) (2 ^ k - 1) false;
  do imask <- const colo (pfc x) 31 false;
  do bx <- a2b prf colo None x;
  do ix <- logical_rshift colo bx k;
  do ix <- and_pq colo ix imask;
  do fx <- and_pq colo bx fmask;
  do d <- pow2_from_bits k 5 (unscale ix);
  do fx <- b2a_bits prf colo k (rescale fx);
  do u <- exp2_pade k cs fx;
  do g <- mul_pp prf colo k u d;
  ret (bx, g).
(** aby3.py 5593-5673 [_exp2_private] with the method "mp-spdz". *)
Definition fp_exp2 (k : Z) (cs : list Z) (sign : esign) (x : priv) : M priv :=
  do bg <- exp2_parts k cs x;
  let bx := fst bg in
  let g := snd bg in
  do small <- truncate_heuristic prf colo k 32 g;
  do z <- match sign with
          | EPos => ret g
          | ENeg => ret small
          | EAny =>
            do s <- logical_rshift colo bx (fbits (pfc x) - 1);
            do s <- cast colo FB s;
            select prf colo s g small
          end;
  match sign with
  | EPos => ret z
  | _ =>
    do lim <- const colo (pfc x) (- k * 2 ^ k) true;
    do out <- less_than_pq prf colo x lim;
    select_zero out z
  end.

(** aby3.py 5690-5693 [_exp_private] with the method "mp-spdz"; [le] encodes log2 e. *)
Definition fp_exp (k le : Z) (cs : list Z) (sign : esign) (x : priv) : M priv :=
  do w <- const colo (pfc x) le true;
  do a <- mul_pq prf colo k x w;
  fp_exp2 k cs sign a.
End FpExp.
