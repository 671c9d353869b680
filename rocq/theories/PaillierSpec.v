(** Vocabulary for the theorems on Paillier encryption. *)
From Verif Require Import Base PaillierModel.
From Coq Require Import Znumtheory.

(** A key pair as [gen_keypair] asks for: two different primes of the same length. *)
Definition rsa (p q : Z) : Prop := prime p /\ prime q /\ p <> q /\ Z.log2 p = Z.log2 q /\ 2 < p /\ 2 < q.
(** Randomness that has an inverse. *)
Definition unit (n r : Z) : Prop := 0 <= r < n /\ Z.gcd r n = 1.

(** Computations on encrypted values: the randomness of every step is written with it. *)
Inductive comp :=
| Enc (x r : Z)
| Add (a b : comp) (s : option Z)
| Mul (a : comp) (k : Z) (s : option Z)
| Refresh (a : comp) (s : Z).
(** What is computed, in the clear. *)
Fixpoint clear (c : comp) : Z :=
  match c with Enc x _ => x | Add a b _ => clear a + clear b | Mul a k _ => clear a * k | Refresh a _ => clear a end.
(** The same with the library. *)
Fixpoint run (ek : ekey) (c : comp) : Z :=
  match c with
  | Enc x r => encrypt ek x r
  | Add a b s => add ek (run ek a) (run ek b) s
  | Mul a k s => mul ek (run ek a) k s
  | Refresh a s => refresh ek (run ek a) s
  end.
(** All randomness has an inverse and all factors are natural numbers. *)
Fixpoint proper (n : Z) (c : comp) : Prop :=
  let fresh s := match s with None => True | Some s => unit n s end in
  match c with
  | Enc _ r => unit n r
  | Add a b s => proper n a /\ proper n b /\ fresh s
  | Mul a k s => proper n a /\ 0 <= k /\ fresh s
  | Refresh a s => proper n a /\ unit n s
  end.
(** The same computation with [s] as the randomness of its last step. *)
Definition last_with (c : comp) (s : Z) : comp :=
  match c with
  | Enc x _ => Enc x s
  | Add a b _ => Add a b (Some s)
  | Mul a k _ => Mul a k (Some s)
  | Refresh a _ => Refresh a s
  end.
