(** Model of ABY3's division by public tensors and of the public square root and reciprocal,
    /repo/tf_encrypted/protocol/aby3/aby3.py 1283-1308, 1580-1599, 4256-4304, one tensor entry.  The floating-point arithmetic is a
    parameter: the integers that the casts return. *)
From Verif Require Import Base TensorModel Aby3Model.
Local Open Scope Z_scope.

Notation "'do' x <- m ; k" := (bind m (fun x => k)) (at level 200, x name, m at level 100, k at level 200).

(** The casts to integers of a scaled word [v]: its reciprocal and its root encoded again (aby3.py 4270-4276, 4296-4303,
    1304-1308 with 810-813), and its reciprocal cut to an integer without scaling (1304-1308 with 815). *)
Record casts := MkCasts { c_rcp : Z -> Z; c_root : Z -> Z; c_inv : Z -> Z }.
(** Divisors that are tensors (aby3.py 1303-1306); plain numbers are in C86. *)
Inductive divisor := DPub (y : pub) | DPriv (y : priv).

Section ADIV.
(** The oracle and the placement flag of Aby3Model (aby3.py 944-1020, config.py 117-121). *)
Context (prf : fac -> key -> Z -> nat -> Z) (colo : bool) (fl : casts).

(** aby3.py 4256-4304: each server decodes, computes and encodes its own copy. *)
Definition locally (f : Z -> Z) (x : pub) : M pub :=
  do _ <- assert_ (qsc x);
  do a <- op1 S0 (fun v => fcast (qfc x) (f v)) (q0 x);
  do b <- op1 S1 (fun v => fcast (qfc x) (f v)) (q1 x);
  do c <- op1 S2 (fun v => fcast (qfc x) (f v)) (q2 x);
  mk_pub colo a b c (qsc x) (qfc x).
(** aby3.py 1594-1599 [sqrt], 4256-4278 [_sqrt_public]. *)
Definition sqrt_ (x : pub) : M pub := locally (c_root fl) x.
(** aby3.py 1580-1582 [reciprocal], 4281-4305 [_reciprocal_public]. *)
Definition reciprocal (x : pub) : M pub := locally (c_rcp fl) x.
(** aby3.py 1283-1308 [div] of a private tensor.  The divisor is decoded from the copy of server 0 (aby3_tensors.py 480-483); a
    divisor without scaling decodes to an integer tensor, by which TensorFlow cannot divide 1.0.  The inverse becomes a constant
    like [x] (1220-1228). *)
Definition div (k : Z) (x : priv) (y : divisor) : M priv :=
  match y with
  | DPub y =>
    if qsc y then
      do q <- const colo (pfc x) (if psc x then c_rcp fl (vz (q0 y)) else c_inv fl (vz (q0 y))) (psc x);
      mul_pq prf colo k x q
    else raise TypeError
  | DPriv _ => raise TypeError
  end.
End ADIV.
