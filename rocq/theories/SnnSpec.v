(** Specification vocabulary for the SecureNN theorems. *)
From Verif Require Import Base Factory TensorModel PondModel PondSpec SnnModel.

(** Public ([Some true]), private ([Some false]) or masked ([None]). *)
Definition knd {F} (t : ptensor F) : option bool :=
  match t with Pub _ _ _ => Some true | Priv _ _ _ => Some false | Masked _ _ _ _ _ _ _ _ _ => None end.

(** [t] is a public ([pub = true]) or private tensor of [n] entries with encoding flag [sc] that
    stands for [v i] modulo the ring's modulus. *)
Definition stands {F} (n : nat) (t : ptensor F) (pub sc : bool) (v : nat -> Z) : Prop :=
  denotes F n t sc v /\ knd t = Some pub.

(** A call that returns. *)
Definition ryields {A} (m : res A) (P : A -> Prop) : Prop := exists a, m = Ok a /\ P a.

Definition bit (z : Z) : Prop := z = 0 \/ z = 1.

(** Well-formed draws of one [lsb] call on [n] entries. *)
Definition lsbrnd_ok (wn : nat) (p : Z) (n : nat) (rd : lsbrnd (Z.of_nat wn)) : Prop :=
  let w := Z.of_nat wn in
  let FR := native (MkN w None) in
  let FP := native (MkN w (Some p)) in
  okT (odd w) n (l_r0 rd) /\ okT (odd w) n (l_r1 rd) /\ okT FP (n * wn) (l_bits rd) /\ okT FR n (l_lsb rd) /\
  (length (l_beta rd) = n /\ Forall bit (l_beta rd)) /\ okT FP wn (l_edge rd) /\
  (length (l_mask rd) = (n * wn)%nat /\ Forall (fun m => 0 < m < p) (l_mask rd)) /\
  okT FR n (l_res rd) /\ rnd_ok FR (l_mul rd) n n n.
Definition cmprnd_ok (wn : nat) (p : Z) (n : nat) (rd : cmprnd wn) : Prop :=
  lsbrnd_ok wn p n (c_lsb wn rd) /\ rnd_ok (native (MkN (Z.of_nat wn) None)) (c_sel wn rd) n n n /\
  rnd_ok (native (MkN (Z.of_nat wn) None)) (c_sel2 wn rd) n n n.

(** The two shares of entry [i], read as unsigned words, overflow the word. *)
Definition wraps (wn : nat) (x : ptensor (native (MkN (Z.of_nat wn) None))) (i : nat) : Prop :=
  match x with
  | Priv a b _ => 2 ^ Z.of_nat wn <= nth i (pval a) 0 mod 2 ^ Z.of_nat wn + nth i (pval b) 0 mod 2 ^ Z.of_nat wn
  | _ => False
  end.
(** The values whose sign is misread. *)
Definition misread_value (wn : nat) (v : Z) (wrap : Prop) : Prop :=
  v = -1 \/ (v = 2 ^ (Z.of_nat wn - 1) - 1 /\ wrap) \/ (v = -2 /\ wrap).
(** Sizes that keep every difference inside the word. *)
Definition quarter (wn : nat) (z : Z) : Prop := - 2 ^ (Z.of_nat wn - 2) < z < 2 ^ (Z.of_nat wn - 2).
(** The parameters of the protocol: a word of [wn] bits and a prime above [wn + 1] whose
    square fits the word. *)
Definition params (wn : nat) (p : Z) : Prop :=
  (1 < wn)%nat /\ Znumtheory.prime p /\ Z.of_nat wn + 1 < p /\ p * p <= 2 ^ (Z.of_nat wn - 1).
