(** Model of ABY3's private softmax (tf_encrypted/protocol/aby3/aby3.py 5526-5538), one row of the last axis. *)
From Verif Require Import Base TensorModel Aby3Model Aby3NetModel FpModel FpExpModel.

Notation "'do' x <- m ; k" := (bind m (fun x => k)) (at level 200, x name, m at level 100, k at level 200).

Section FpSoft.
Context (prf : fac -> key -> Z -> nat -> Z) (colo : bool).

(** aby3.py 5012-5026 [_reduce_max_private] along an axis; [tree] is the method "tree", otherwise it is "network". *)
Definition row_max (tree : bool) (xs : list priv) : M priv :=
  if tree then reduce_max_tree prf colo xs else reduce_max_network prf colo xs.
(** aby3.py 5529-5531 on one entry: [x - logits_max - precision]; 2 ^ -k is encoded as 1. *)
Definition adjust (mx x : priv) : M priv :=
  do d <- sub_pp colo x mx;
  do u <- const colo (pfc d) 1 true;
  sub_pq colo d u.
(** aby3.py 5526-5538 [_softmax_private] with [approx_type] "mp-spdz"; [le] and [cs] are the numbers of [fp_exp], [m] the number
    of fractional and integral bits. *)
Definition softmax (k m le : Z) (cs : list Z) (tree : bool) (xs : list priv) : M (list priv) :=
  do mx <- row_max tree xs;
  do ys <- mapM (adjust mx) xs;
  do es <- mapM (fp_exp prf colo k le cs ENeg) ys;
  do s <- reduce_sum colo (pfc mx) true Arith es;
  do r <- fp_recip prf colo k m s true 1;
  mapM (fun e => mul_pp prf colo k e r) es.
End FpSoft.
