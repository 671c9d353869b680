(** Vocabulary for the statements about sampling. *)
From Verif Require Import Base RandModel.

(** All raw words of a signed [w]-bit type, each bit pattern once. *)
Definition all_words (w : Z) : list Z :=
  map (fun k => swrap w (Z.of_nat k)) (seq 0 (Z.to_nat (2 ^ w))).

(** How many raw words satisfy a test. *)
Definition how_many (w : Z) (test : Z -> bool) : Z :=
  Z.of_nat (length (filter test (all_words w))).

(** The sampler turns the single raw word [word] into [v] without asking for more
    randomness. *)
Definition turns_into (w low high v word : Z) : bool :=
  match uniform (S := unit) (fun s => (0, s)) 0 w low high [word] tt with
  | Done ([x], _) => x =? v
  | _ => false
  end.

(** The sampler asks for another word. *)
Definition asks_again (w low high word : Z) : bool :=
  match uniform (S := unit) (fun s => (0, s)) 0 w low high [word] tt with
  | Diverged => true
  | _ => false
  end.

(** A ring element masked by [r] as the protocols do it. *)
Definition masked (w x r : Z) : Z := swrap w (x + r).

(** Every ring element of the factory in its representation. *)
Definition ring_element (f : factory_kind) (v : Z) : Prop :=
  match f with
  | FNative w => in_s w v
  | FPrime _ p => 0 <= v < p
  | FInt128 => in_s 128 v
  | FBool => 0 <= v < 2
  end.

(** The factories that exist: word sizes of TensorFlow integers, and a prime that
    fits the word. *)
Definition shipped (f : factory_kind) : Prop :=
  match f with
  | FNative w => w = 8 \/ w = 16 \/ w = 32 \/ w = 64
  | FPrime w p => (w = 8 \/ w = 16 \/ w = 32 \/ w = 64) /\ 1 < p < 2 ^ (w - 1)
  | FInt128 => True
  | FBool => True
  end.

(** Bounded sampling of one element turns the single raw word [word] into [v]. *)
Definition native_bounded_turns_into (w bitlength v word : Z) : bool :=
  match sample_bounded_native (fun _ _ => word) 0 w bitlength 1 with
  | Done ([x], _) => x =? v
  | _ => false
  end.
Definition bounded_turns_into (bitlength v word : Z) : bool :=
  match sample_bounded_128 (fun _ _ => word) 0 bitlength 1 with
  | Done ([x], _) => x =? v
  | _ => false
  end.
