(** The powers of beta that the Adam optimizer keeps (/repo/tf_encrypted/keras/optimizers.py) as public ABY3 variables. *)
From Coq Require Import QArith Qpower.
From Verif Require Import Base TensorModel.
Local Open Scope Z_scope.

(** Exceptions: dispatch of a missing operation (aby3.py 2016-2021), layer not compiled (optimizers.py 169-170). *)
Inductive exn := TypeError | RuntimeError.
(** Result of a statement (optimizers.py 168-191). *)
Inductive res (X : Type) := Ok (x : X) | Err (e : exn).
Arguments Ok {X} _. Arguments Err {X} _.

(** Word size of the backing type and fractional bits (aby3.py 76-83, fixed.py 97-115); scaling base 2. *)
Record cfg := MkC { bits : Z; frac : Z }.
(** One entry of a scaled public tensor: a copy at each of the three servers (aby3_tensors.py 436-470). *)
Definition pub : Type := (Z * Z * Z)%type.
(** aby3.py 308-328 [define_constant] of a Python number, scaled; native.py casts to the word. *)
Definition constant (c : cfg) (q : Q) : pub := let v := swrap (bits c) (encode (2 ^ frac c) q) in (v, v, v).
(** The same operation at every server (aby3.py 2314-2316, 2375-2382, 2704-2706). *)
Definition each (h : Z -> Z -> Z) (x y : pub) : pub :=
  match x, y with (x0, x1, x2), (y0, y1, y2) => (h x0 y0, h x1 y1, h x2 y2) end.
(** aby3.py 2365-2386 [_mul_public_public] of scaled tensors, with [_truncate_local_public] 2694-2708 and
    native.py 504-512 [truncate] with base 2, an arithmetic shift. *)
Definition mul_public_public (c : cfg) (x y : pub) : pub :=
  each (fun a _ => Z.shiftr a (frac c)) (each (fun a b => swrap (bits c) (a * b)) x y) x.
(** aby3.py 2306-2318 [_sub_public_public]. *)
Definition sub_public_public (c : cfg) (x y : pub) : pub := each (fun a b => swrap (bits c) (a - b)) x y.
(** aby3.py 61-62 [is_power_of_two], with the exponent [int(math.log2(x))].  Simplified: exact numbers instead of floats. *)
Definition log2_exact (q : Q) : option Z :=
  let r := Qred q in
  if (0 <? Qnum r) && (Qnum r =? 2 ^ Z.log2 (Qnum r)) && (Zpos (Qden r) =? 2 ^ Z.log2 (Zpos (Qden r)))
  then Some (Z.log2 (Qnum r) - Z.log2 (Zpos (Qden r))) else None.
(** aby3.py 1274-1280 [mul_pow2] on a public tensor: neither [_truncate_heuristic_public] nor [_lshift_public] exists. *)
Definition mul_pow2 (x : pub) (e : Z) : res pub := if e =? 0 then Ok x else Err TypeError.
(** aby3.py 1256-1266 [mul] of a public tensor and a Python number. *)
Definition mul (c : cfg) (x : pub) (q : Q) : res pub :=
  match log2_exact q with
  | Some e => mul_pow2 x e
  | None => Ok (mul_public_public c x (constant c q))
  end.
(** aby3.py 1283-1309 [div] of a public tensor by a Python number (see [mul]). *)
Definition div (c : cfg) (x : pub) (q : Q) : res pub :=
  match log2_exact q with
  | Some e => mul_pow2 x (- e)
  | None => mul c x (/ q)%Q
  end.
(** aby3_tensors.py 176-180 [__rsub__]: [1 - x] (aby3.py 1242-1244). *)
Definition one_minus (c : cfg) (x : pub) : pub := sub_public_public c (constant c 1) x.
(** aby3_tensors.py 480-483 [decode] with aby3.py 832-840: the copy of server 0. *)
Definition decode_public (c : cfg) (x : pub) : Q := decode (2 ^ frac c) (fst (fst x)).

(** Adam: the betas, and per layer (the id of its list of weights) the two powers.  The moments and the weights, which
    are private, are left out (optimizers.py 130-166). *)
Record adam := MkA { beta1 : Q; beta2 : Q; pows : nat -> option (pub * pub) }.
(** optimizers.py 130-139 [__init__]. *)
Definition new (b1 b2 : Q) : adam := MkA b1 b2 (fun _ => None).
(** optimizers.py 141-166 [compile]; [np.array(1)] scaled gives the raw value [2^frac]. *)
Definition compile (c : cfg) (layers : list nat) (a : adam) : adam :=
  MkA (beta1 a) (beta2 a) (fun k => if existsb (Nat.eqb k) layers then Some (constant c 1, constant c 1) else pows a k).
(** optimizers.py 168-191 [apply_gradients]: new powers, and the divisors [1 - beta1_pow], [1 - beta2_pow] of lines
    188-189 as [div] decodes them (aby3.py 1304-1305). *)
Definition apply_gradients (c : cfg) (a : adam) (layer : nat) : res (adam * (Q * Q)) :=
  match pows a layer with
  | None => Err RuntimeError
  | Some (p1, p2) =>
    match mul c p1 (beta1 a) with
    | Err e => Err e
    | Ok q1 =>
      match mul c p2 (beta2 a) with
      | Err e => Err e
      | Ok q2 =>
        Ok (MkA (beta1 a) (beta2 a) (fun k => if Nat.eqb k layer then Some (q1, q2) else pows a k),
            (decode_public c (one_minus c q1), decode_public c (one_minus c q2)))
      end
    end
  end.
(** Training steps, one layer after the other (sequential.py 125-130): the divisors of each. *)
Fixpoint steps (c : cfg) (a : adam) (layers : list nat) : res (list (Q * Q)) :=
  match layers with
  | [] => Ok []
  | k :: layers =>
    match apply_gradients c a k with
    | Err e => Err e
    | Ok (a, d) => match steps c a layers with Err e => Err e | Ok ds => Ok (d :: ds) end
    end
  end.
(** aby3.py 1304-1309: the plain inverse by which a private tensor is multiplied, as [lift] encodes it (aby3.py 1210-1217). *)
Definition inverse_raw (c : cfg) (d : Q) : Z := swrap (bits c) (encode (2 ^ frac c) (/ d)).
