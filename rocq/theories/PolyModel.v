(** Model of ABY3's polynomials with rational coefficients (tf_encrypted/protocol/aby3/aby3.py 4083-4212), one tensor entry.
    Powers are [pow] of Aby3NetModel, polynomials of the pieces [multi_polynomial] of SigModel. *)
From Coq Require Import QArith.
From Verif Require Import Base TensorModel Aby3Model Aby3NetModel SigModel.
Local Open Scope Z_scope.

Notation "'do' x <- m ; k" := (bind m (fun x => k)) (at level 200, x name, m at level 100, k at level 200).

(** Python's [int] of a number (aby3.py 4114). *)
Definition int_of (c : Q) : Z := Z.quot (Qnum c) (Zpos (Qden c)).
(** aby3.py 4114: the test [(c - int(c)) == 0]. *)
Definition whole_of (c : Q) : option Z := if Qeq_bool c (inject_Z (int_of c)) then Some (int_of c) else None.
(** aby3.py 61-62 [is_power_of_two] and the exponent of 1258-1259 for numbers that are not whole, negated: [Some e] for
    2 to the power [-e].  The logarithm is exact here; that of floats also accepts the nearest neighbours of a power of two. *)
Definition half_of (c : Q) : option Z :=
  let r := Qred c in let e := Z.log2 (Zpos (Qden r)) in
  if (Qnum r =? 1) && (Zpos (Qden r) =? 2 ^ e) then Some e else None.

Section POLY.
(** The oracle and placement flag of Aby3Model (aby3.py 944-1020, config.py 117-121) and the fixed-point encoding of a
    constant (aby3.py 793-830; as in SigModel). *)
Context (prf : fac -> key -> Z -> nat -> Z) (colo : bool) (encode : Q -> Z).

(** A number lifted beside [x] (aby3.py 1220-1228): scaled like [x], or cut to an integer. *)
Definition lifted (x : priv) (c : Q) : M pub := const colo (pfc x) (if psc x then encode c else int_of c) (psc x).
(** One term of aby3.py 4112-4122; [coeffs[i] * (x**i)] is the reflected product, whose fast case (1258-1259, 1274-1280)
    truncates by a power of two. *)
Definition term (k : Z) (x : priv) (i : Z) (c : Q) : M priv :=
  match whole_of c with
  | Some z => do tmp <- const colo (pfc x) z false; do xi <- pow prf colo k x i; mul_pq prf colo k xi tmp
  | None =>
    do xi <- pow prf colo k x i;
    match half_of c with
    | Some e => truncate_heuristic prf colo k e xi
    | None => do q <- lifted xi c; mul_pq prf colo k xi q
    end
  end.
(** The loop of aby3.py 4109-4122 from degree [i] on. *)
Fixpoint sum_terms (k : Z) (x : priv) (i : Z) (coeffs : list Q) (result : tens) : M tens :=
  match coeffs with
  | [] => ret result
  | c :: cs =>
    if Qeq_bool c (0 # 1) then sum_terms k x (i + 1) cs result else
    do t <- term k x i c;
    do r <- match result with TPub q => add_qp colo q t | TPriv r => add_pp colo r t end;
    sum_terms k x (i + 1) cs (TPriv r)
  end.
(** aby3.py 4103-4123 [_polynomial_private]: the constant term is added to a public zero. *)
Definition poly (k : Z) (x : priv) (coeffs : list Q) : M tens :=
  do _ <- assert_ (is_arith x);
  do zero <- const colo (pfc x) 0 (psc x);
  match coeffs with
  | [] => ret (TPub zero)
  | c :: cs => do c0 <- lifted x c; do r <- add_qq colo zero c0; sum_terms k x 1 cs (TPub r)
  end.
(** aby3.py 4159-4212 [_polynomial_piecewise_private] on a scaled [x]; [c] are the encoded break points.  The comparisons
    come before the polynomials in the code and after them here, as in SigModel. *)
Definition pieces (k : Z) (x : priv) (c : list Z) (coeffs : list (list Q)) : M priv :=
  do fs <- multi_polynomial prf colo encode k x coeffs; piecewise prf colo x c fs.
End POLY.
