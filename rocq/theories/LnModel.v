(** Model of ABY3's polynomial logarithm, /repo/tf_encrypted/protocol/aby3/aby3.py 1901-1905, 4308-4342, one tensor entry.  Public
    tensors have no case of the dispatch. *)
From Coq Require Import QArith.
From Verif Require Import Base TensorModel Aby3Model Aby3NetModel PolyModel.
Local Open Scope Z_scope.

Notation "'do' x <- m ; k" := (bind m (fun x => k)) (at level 200, x name, m at level 100, k at level 200).

Section LN.
(** The oracle, the placement flag and the encoding of constants, as in PolyModel (aby3.py 793-830, 944-1020). *)
Context (prf : fac -> key -> Z -> nat -> Z) (colo : bool) (encode : Q -> Z).

(** [x * w] for a number that is no power of two (aby3.py 1256-1266; the weights of the logarithm are none). *)
Definition times (k : Z) (x : priv) (w : Q) : M priv := do q <- lifted colo encode x w; mul_pq prf colo k x q.
(** [x + w] (aby3.py 1171-1180, 1220-1228, 2162-2190). *)
Definition plus (x : priv) (w : Q) : M priv := do q <- lifted colo encode x w; add_pq colo x q.
(** aby3.py 4308-4342 [_log_private]; [x.square()] is [mul(x, x)] (1252-1253). *)
Definition log (k : Z) (x : priv) : M priv :=
  do _ <- assert_ (is_arith x);
  do x2 <- mul_pp prf colo k x x;
  do x3 <- mul_pp prf colo k x2 x;
  do x4 <- mul_pp prf colo k x3 x;
  do x5 <- mul_pp prf colo k x2 x3;
  do y1 <- times k x (1279333646 # 100000000);
  do y2 <- times k x2 (-2618955259 # 100000000);
  do y3 <- times k x3 (3024596692 # 100000000);
  do y4 <- times k x4 (-1730367641 # 100000000);
  do y5 <- times k x5 (382474222 # 100000000);
  do z <- add_pp colo y5 y4;
  do z <- add_pp colo z y3;
  do z <- add_pp colo z y2;
  do z <- add_pp colo z y1;
  plus z (-335674972 # 100000000).
End LN.
