(** Vocabulary of the theorems about Pond's polynomial approximations, independent of the programs. *)
From Coq Require Import Reals.
From Verif Require Import Base Factory TensorModel CrtModel CrtFloat PondModel PondSpec PondProps.

(** The two precisions that Pond offers: "low" (the default) over 64-bit integers and "high" over int100, whose conversions
    round a single-precision sum in some order [est]. *)
Inductive precision := Low | High (est : list Z -> Z).
Definition ring (p : precision) : factory := match p with Low => native (MkN 64 None) | High _ => crt_factory int100_moduli end.
Definition fops (p : precision) : fixops (ring p) :=
  match p with Low => native_fix 64 | High est => crt_fix est int100_moduli end.
Definition cfg (p : precision) : fpconfig := match p with Low => fixed64 | High _ => fixed100 end.
Definition good (p : precision) : Prop := match p with Low => True | High est => is_estimate32 int100_moduli est end.
(** Any randomness: tensors of [n] entries of the ring, truncation masks of the length that the code draws. *)
Definition drawn (p : precision) (n : nat) (rs : nat -> mulrnd (ring p)) : Prop :=
  forall k, rnd_ok (ring p) (rs k) n n n /\ mask_draw (ring p) (cfg p) n (rtr (ring p) (rs k)).
(** The rational number that a ring element stands for. *)
Definition worth (p : precision) (v : Z) : R := (IZR v / match p with Low => 6561 | High _ => 65536 end)%R.
(** The outcome of a call: a scaled tensor of [n] entries that reveals numbers with a certain relation to the arguments. *)
Definition outcome (p : precision) (n : nat) (m : M (ring p) (ptensor (ring p))) (P : nat -> R -> Prop) : Prop :=
  yields (ring p) m (fun z => exists q, reveals (ring p) n z true q /\ forall i, (i < n)%nat -> P i (worth p (q i))).
(** The functions of mathematics. *)
Definition sigma (x : R) : R := (1 / (1 + exp (- x)))%R.
Definition htan (x : R) : R := ((exp x - exp (- x)) / (exp x + exp (- x)))%R.
Definition rectified (x : R) : R := if Rle_dec 0 x then x else 0%R.
