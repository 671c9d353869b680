(** What the 128-bit ring and the bit kernels should do, without reference to the kernels. *)
From Coq Require Import ZArith List.
From Verif Require Import Base KernModel.
Import ListNotations.
Local Open Scope Z_scope.

(** Two limbs that an int64 tensor can hold stand for the signed number [v] when the low limb has
    the residue of [v] modulo 2^64 and the high limb is the floor of [v / 2^64]. *)
Definition stands (x : limbs) (v : Z) : Prop :=
  - 2 ^ 63 <= lo x < 2 ^ 63 /\ - 2 ^ 63 <= hi x < 2 ^ 63 /\
  (v - lo x) mod 2 ^ 64 = 0 /\ hi x = v / 2 ^ 64.

(** [r] is the signed [w]-bit number congruent to [z]. *)
Definition reduced (w z r : Z) : Prop :=
  - 2 ^ (w - 1) <= r < 2 ^ (w - 1) /\ (r - z) mod 2 ^ w = 0.

(** Inner product. *)
Fixpoint dot (us vs : list Z) : Z :=
  match us, vs with u :: us, v :: vs => u * v + dot us vs | _, _ => 0 end.

(** The bits of [r] are the bits [start], [start + stride], ... of the [w]-bit word [x], packed from the low end. *)
Definition packed (w start stride x r : Z) : Prop :=
  - 2 ^ (w - 1) <= r < 2 ^ (w - 1) /\
  forall j, 0 <= j < w -> Z.testbit r j = ((start + j * stride <? w) && Z.testbit x (start + j * stride))%bool.

(** Xor of the positions below [n] of the set bits of [x]. *)
Definition set_positions (n : nat) (x : Z) : list Z :=
  filter (Z.testbit x) (map Z.of_nat (seq 0 n)).
Definition xor_all (l : list Z) : Z := fold_right Z.lxor 0 l.

(** The axis a caller means: negative axes count from the end of the logical shape. *)
Definition meant (axis rank : Z) : Z := if axis <? 0 then axis + rank else axis.
