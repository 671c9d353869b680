(** Paillier encryption (/repo/primitives/tf_encrypted/primitives/paillier/primitives.py), one entry of a tensor.  The big integers
    of tf_big are [Z]; its [%] and [//] are taken as Euclidean, its [inv] as the modular inverse ([None] where there is none);
    conversions to limbs, strings and int32 are not modelled. *)
From Verif Require Import Base TensorModel.

(** primitives.py 27-37 [EncryptionKey]: the modulus and its square. *)
Record ekey := EK { en : Z; enn : Z }.
(** primitives.py 33-37. *)
Definition encryption_key (n : Z) : ekey := EK n (n * n).
(** primitives.py 43-54 [DecryptionKey]. *)
Record dkey := DK { dn : Z; dnn : Z; d1 : Z; d2 : Z; de : Z }.
(** primitives.py 44-54; [None] where [tf_big.inv] has no result. *)
Definition decryption_key (p q : Z) : option dkey :=
  let n := p * q in
  let order_of_n := (p - 1) * (q - 1) in
  match inverse order_of_n n, inverse n order_of_n with
  | Some a, Some e => Some (DK n (n * n) order_of_n a e)
  | _, _ => None
  end.
(** [tf_big.pow] with a modulus (called at primitives.py 110, 120, 133). *)
Definition powm (a k m : Z) : Z := a ^ k mod m.
(** primitives.py 98-112 [encrypt], with the randomness given. *)
Definition encrypt (ek : ekey) (x r : Z) : Z :=
  let gx := 1 + (en ek * x) mod (enn ek) in
  let rn := powm r (en ek) (enn ek) in
  gx * rn mod (enn ek).
(** primitives.py 115-127 [decrypt] with dtype tf.variant. *)
Definition decrypt (dk : dkey) (c : Z) : Z :=
  let gxd := powm c (d1 dk) (dnn dk) in
  let xd := (gxd - 1) / dn dk in
  (xd * d2 dk) mod (dn dk).
(** primitives.py 130-135 [refresh], with the randomness given. *)
Definition refresh (ek : ekey) (c s : Z) : Z :=
  let sn := powm s (en ek) (enn ek) in
  (c * sn) mod (enn ek).
(** primitives.py 138-151 [add]; [None] is do_refresh=False. *)
Definition add (ek : ekey) (c0 c1 : Z) (s : option Z) : Z :=
  let c := (c0 * c1) mod (enn ek) in
  match s with None => c | Some s => refresh ek c s end.
(** primitives.py 154-167 [mul]: the power is taken without a modulus, then reduced. *)
Definition mul (ek : ekey) (c k : Z) (s : option Z) : Z :=
  let d := c ^ k mod (enn ek) in
  match s with None => d | Some s => refresh ek d s end.
