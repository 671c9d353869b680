(** Model of the polynomial approximations of Pond, /repo/tf_encrypted/protocol/pond/pond.py 1248-1370.  The scalar
    constants are broadcast: the model writes them with as many entries as the tensor.  Every multiplication has its own
    randomness [rs k]; the code reuses the mask of a tensor that is masked twice (the call is memoised), which is the case
    where the corresponding entries of [rs] are equal. *)
From Coq Require Import QArith.
From Verif Require Import Base Factory TensorModel CrtModel PondModel.
Local Open Scope Z_scope.
Notation "'do' x <- m ; k" := (bind m (fun x => k)) (at level 200, x name, m at level 100, k at level 200).

Section Cheb.
Context (F : factory) (X : fixops F) (c : fpconfig) (rs : nat -> mulrnd F).

(** Number of entries of a tensor ([x.shape], pond.py 1888-1890, 1978-1980, 2070-2072). *)
Definition entries (t : ptensor F) : nat :=
  match t with Pub v0 _ _ => length (pval v0) | Priv s0 _ _ => length (pval s0) | Masked _ _ _ a _ _ _ _ _ => length (pval a) end.
(** pond.py 904-959 [lift] of a float next to the tensor [t], with 127-171 [define_constant]: encoded with the scaling factor
    when [t] is scaled, else cut to an integer. *)
Definition lifted (t : ptensor F) (w : Q) : M F (ptensor F) :=
  let v := vconst F (entries t) (encode (if scaled t then scaling_factor c else 1) w) in
  do k0 <- fresh Srv0 v; do k1 <- fresh Srv1 v; mk_pub k0 k1 (scaled t).
(** [x * w] for a float [w] (pond.py 1014-1018, 2872-2989). *)
Definition times (r : mulrnd F) (x : ptensor F) (w : Q) : M F (ptensor F) := do k <- lifted x w; mul F BMul X c r x k.
(** [x + w] for a float [w] (pond.py 891-902, 2516-2629). *)
Definition plus (x : ptensor F) (w : Q) : M F (ptensor F) := do k <- lifted x w; add F x k.

(** pond.py 1248-1278 [sigmoid]. *)
Definition sigmoid (x : ptensor F) : M F (ptensor F) :=
  do x2 <- square F X c (rs 0%nat) x;
  do x3 <- mul F BMul X c (rs 1%nat) x2 x;
  do x5 <- mul F BMul X c (rs 2%nat) x2 x3;
  do x7 <- mul F BMul X c (rs 3%nat) x2 x5;
  do x9 <- mul F BMul X c (rs 4%nat) x2 x7;
  do y1 <- times (rs 5%nat) x (2159198015 # 10000000000);
  do y3 <- times (rs 6%nat) x3 (-82176259 # 10000000000);
  do y5 <- times (rs 7%nat) x5 (1825597 # 10000000000);
  do y7 <- times (rs 8%nat) x7 (-18848 # 10000000000);
  do y9 <- times (rs 9%nat) x9 (72 # 10000000000);
  do z <- add F y9 y7; do z <- add F z y5; do z <- add F z y3; do z <- add F z y1; plus z (1 # 2).

(** pond.py 1281-1308 [relu]. *)
Definition relu (x : ptensor F) : M F (ptensor F) :=
  do x2 <- square F X c (rs 0%nat) x;
  do x4 <- mul F BMul X c (rs 1%nat) x2 x2;
  do x6 <- mul F BMul X c (rs 2%nat) x2 x4;
  do x8 <- mul F BMul X c (rs 3%nat) x2 x6;
  do y1 <- times (rs 4%nat) x (1 # 2);
  do y2 <- times (rs 5%nat) x2 (11217537671414643 # 100000000000000000);
  do y4 <- times (rs 6%nat) x4 (-13660836712429923 # 10000000000000000000);
  do y6 <- times (rs 7%nat) x6 (9009136367360004 # 1000000000000000000000);
  do y8 <- times (rs 8%nat) x8 (-21097433984 # 1000000000000000000);
  do z <- add F y8 y6; do z <- add F z y4; do z <- add F z y2; do z <- add F z y1; plus z (44015372000819103 # 100000000000000000).

(** pond.py 1311-1338 [tanh]. *)
Definition tanh (x : ptensor F) : M F (ptensor F) :=
  do x2 <- square F X c (rs 0%nat) x;
  do x3 <- mul F BMul X c (rs 1%nat) x2 x;
  do x5 <- mul F BMul X c (rs 2%nat) x2 x3;
  do x7 <- mul F BMul X c (rs 3%nat) x2 x5;
  do y1 <- times (rs 4%nat) x (852721056 # 1000000000);
  do y3 <- times (rs 5%nat) x3 (-12494112 # 100000000);
  do y5 <- times (rs 6%nat) x5 (10654528 # 1000000000);
  do y7 <- times (rs 7%nat) x7 (-423424 # 1000000000);
  do z <- add F y7 y5; do z <- add F z y3; do z <- add F z y1; plus z (0 # 1).

(** pond.py 1340-1369 [log]. *)
Definition log (x : ptensor F) : M F (ptensor F) :=
  do x2 <- square F X c (rs 0%nat) x;
  do x3 <- mul F BMul X c (rs 1%nat) x2 x;
  do x4 <- mul F BMul X c (rs 2%nat) x3 x;
  do x5 <- mul F BMul X c (rs 3%nat) x2 x3;
  do y1 <- times (rs 4%nat) x (1279333646 # 100000000);
  do y2 <- times (rs 5%nat) x2 (-2618955259 # 100000000);
  do y3 <- times (rs 6%nat) x3 (3024596692 # 100000000);
  do y4 <- times (rs 7%nat) x4 (-1730367641 # 100000000);
  do y5 <- times (rs 8%nat) x5 (382474222 # 100000000);
  do z <- add F y5 y4; do z <- add F z y3; do z <- add F z y2; do z <- add F z y1; plus z (-335674972 # 100000000).
End Cheb.
