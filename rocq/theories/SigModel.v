(** Model of ABY3's private sigmoid (tf_encrypted/protocol/aby3/aby3.py 4127-4237), one tensor entry. *)
From Coq Require Import QArith.
From Verif Require Import Base TensorModel Aby3Model Aby3NetModel.
Local Open Scope Z_scope.

Notation "'do' x <- m ; k" := (bind m (fun x => k)) (at level 200, x name, m at level 100, k at level 200).

(** The length of the longest list of coefficients (aby3.py 4132). *)
Definition longest (coeffs : list (list Q)) : nat := fold_right (fun c m => Nat.max (length c) m) 0%nat coeffs.
(** aby3.py 4133-4145: the coefficients of each degree, 0 where a polynomial has none. *)
Definition padded (coeffs : list (list Q)) : list (list Q) :=
  map (fun i => map (fun c => nth i c (0 # 1)) coeffs) (seq 0 (longest coeffs)).

Section SIG.
(** The oracle and placement flag of Aby3Model (aby3.py 944-1020, config.py 117-121); [encode] is the encoding of a constant
    with the fixed-point scale (tf.constant rounds it to float32, aby3.py 793-830 scales it and the cast to integers cuts it). *)
Context (prf : fac -> key -> Z -> nat -> Z) (colo : bool) (encode : Q -> Z).

(** One term for every polynomial, [xi_tile * padded_coeffs[i]] (aby3.py 4150-4154); the coefficients are lifted with the
    encoding of [x], here the fixed-point one. *)
Definition terms (k : Z) (xi : priv) (cs : list Q) : M (list priv) :=
  mapM (fun c => do q <- const colo (pfc xi) (encode c) true; mul_pq prf colo k xi q) cs.
(** aby3.py 4149-4155, from degree 2 on. *)
Fixpoint more_terms (k : Z) (x : priv) (i : Z) (pads : list (list Q)) (result : list priv) : M (list priv) :=
  match pads with
  | [] => ret result
  | cs :: pads' =>
    do xi <- pow prf colo k x i;
    do ts <- terms k xi cs;
    do result' <- mapM (fun p => add_pp colo (fst p) (snd p)) (combine result ts);
    more_terms k x (i + 1) pads' result'
  end.
(** aby3.py 4127-4157 [_multi_polynomial_private].  The sum of the plain constants and the first term is the reflected
    addition (aby3_tensors.py 135-136), which lifts the constants (aby3.py 1220-1228).  Constants alone (one coefficient
    everywhere) are left out, as [TypeError]. *)
Definition multi_polynomial (k : Z) (x : priv) (coeffs : list (list Q)) : M (list priv) :=
  do _ <- assert_ (is_arith x);
  match padded coeffs with
  | [] => raise ValueError
  | [_] => raise TypeError
  | c0 :: c1 :: pads =>
    do xi <- pow prf colo k x 1;
    do ts <- terms k xi c1;
    do result <- mapM (fun p => do q <- const colo (pfc x) (encode (snd p)) true; add_pq colo (fst p) q) (combine ts c0);
    more_terms k x 2 pads result
  end.

(** The two approximations (aby3.py 4219-4231) and any other name. *)
Inductive approx := Three | Five | Unknown.
(** Twice the break points (aby3.py 4220, 4223). *)
Definition breaks (a : approx) : list Z := match a with Three => [-5; 5] | Five => [-8; -3; 3; 8] | Unknown => [] end.
(** aby3.py 4221, 4224-4230. *)
Definition lines (a : approx) : list (list Q) :=
  match a with
  | Three => [[1 # 10000]; [50 # 100; 17 # 100]; [9999 # 10000]]
  | Five => [[1 # 10000]; [281 # 1000; 66 # 1000]; [5 # 10; 212 # 1000]; [719 # 1000; 66 # 1000]; [9999 # 10000]]
  | Unknown => []
  end%Q.
(** aby3.py 4215-4237 [_sigmoid_private] on a scaled [x].  In 4159-4212 [_polynomial_piecewise_private] the comparisons come
    before the polynomials; here they come after (different random numbers, no other dependency). *)
Definition sigmoid (k : Z) (a : approx) (x : priv) : M priv :=
  match a with
  | Unknown => raise NotImplementedError
  | _ => do fs <- multi_polynomial k x (lines a); piecewise prf colo x (map (fun h => Z.quot (h * 2 ^ k) 2) (breaks a)) fs
  end.
End SIG.
