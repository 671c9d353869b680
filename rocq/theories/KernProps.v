(** C20, C21, C74-C77: 128-bit words on two limbs, bit kernels. *)
From Coq Require Import ZArith List Lia Bool.
From Verif Require Import Base Factory Aby3Bits Aby3Model Aby3Cmp KernModel KernSpec KernProofs KernBits.
Import ListNotations.
Local Open Scope Z_scope.

(** ** C20: arithmetic modulo 2^128 *)

(** Every signed 128-bit number has exactly one pair of limbs; encoding finds it, decoding reads it. *)
Theorem C20_encode_decode :
  (forall z r, reduced 128 z r -> stands (encode z) r /\ decode (encode z) = r) /\
  (forall x v, stands x v -> decode x = v /\ encode v = x /\ - 2 ^ 127 <= v < 2 ^ 127) /\
  (forall x, - 2 ^ 63 <= lo x < 2 ^ 63 -> - 2 ^ 63 <= hi x < 2 ^ 63 -> exists v, stands x v).
Proof.
  split; [|split].
  - intros z r H. split; [rewrite encode_store; apply store_reduced, H|].
    rewrite decode_view, encode_store. apply stands_view, store_reduced, H.
  - intros x v H. pose proof (stands_range _ _ H) as R. split; [rewrite decode_view; apply stands_view, H|].
    split; [|exact R]. rewrite encode_store, swrap_id by (lia || exact R).
    exact (stands_unique _ _ _ (store_stands _ R) H).
  - intros x L H. exists (view x). apply stands_limbs. split; assumption.
Qed.
Print Assumptions C20_encode_decode.
Theorem C20_ring : forall x y u v, stands x u -> stands y v ->
  (forall r, reduced 128 (u + v) r -> stands (k_add x y) r) /\
  (forall r, reduced 128 (u - v) r -> stands (k_sub x y) r) /\
  (forall r, reduced 128 (u * v) r -> stands (k_mul x y) r) /\
  (forall r, reduced 128 (- u) r -> stands (k_neg x) r) /\
  (forall r, reduced 128 (Z.abs u) r -> stands (k_abs x) r) /\
  stands k_zero 0 /\ stands k_one 1.
Proof.
  intros x y u v Hx Hy.
  split; [intros r; exact (add_ok x y u v r Hx Hy)|]. split; [intros r; exact (sub_ok x y u v r Hx Hy)|].
  split; [intros r; exact (mul_ok x y u v r Hx Hy)|]. split; [intros r; exact (neg_ok x u r Hx)|].
  split; [intros r; exact (abs_ok x u r Hx)|].
  split; unfold stands; cbn [lo hi k_zero k_one]; repeat split; vm_compute; congruence.
Qed.
Print Assumptions C20_ring.
(** Shifting by nothing or by a negative amount changes nothing; amounts of 128 and more shift everything out. *)
Theorem C20_shifts : forall x u s, stands x u ->
  (0 <= s -> stands (k_rshift x s) (u / 2 ^ s)) /\
  (forall r, 0 <= s -> reduced 128 (u mod 2 ^ 128 / 2 ^ s) r -> stands (k_lrshift x s) r) /\
  (forall r, 0 <= s -> reduced 128 (u * 2 ^ s) r -> stands (k_lshift x s) r) /\
  (s <= 0 -> k_rshift x s = x /\ k_lrshift x s = x /\ k_lshift x s = x).
Proof.
  intros x u s Hx. split; [exact (rshift_ok x u s Hx)|]. split; [intros r; exact (lrshift_ok x u s r Hx)|].
  split; [intros r; exact (lshift_ok x u s r Hx)|]. exact (shift_nonpos x s).
Qed.
Print Assumptions C20_shifts.
Theorem C20_bitwise : forall x y u v, stands x u -> stands y v ->
  stands (k_and x y) (Z.land u v) /\ stands (k_or x y) (Z.lor u v) /\ stands (k_xor x y) (Z.lxor u v) /\ stands (k_not x) (Z.lnot u).
Proof.
  intros x y u v Hx Hy. split; [exact (and_ok x y u v Hx Hy)|]. split; [exact (or_ok x y u v Hx Hy)|].
  split; [exact (xor_ok x y u v Hx Hy)|exact (not_ok x u Hx)].
Qed.
Print Assumptions C20_bitwise.
Theorem C20_sums : forall xs ys us vs, Forall2 stands xs us -> Forall2 stands ys vs ->
  (forall r, reduced 128 (zsum us) r -> stands (k_sum xs) r) /\
  (forall r, reduced 128 (dot us vs) r -> stands (k_dot xs ys) r).
Proof. intros xs ys us vs Hx Hy. split; intros r; [exact (sum_ok xs us r Hx)|exact (dot_ok xs ys us vs r Hx Hy)]. Qed.
Print Assumptions C20_sums.
(** The ring can be used wherever the Pond theorems ask for a lawful ring. *)
Theorem C20_lawful : lawful int128 /\ fmod int128 = 2 ^ 128.
Proof. split; [exact int128_lawful|reflexivity]. Qed.
Print Assumptions C20_lawful.
(** Narrowing keeps the low bits; as a truth value a word is true when it is not zero; truncation
    rounds down, and only works in base two. *)
Theorem C20_casts : forall x u, stands x u ->
  (cast_bool x = true <-> u <> 0) /\
  (forall w r, 0 < w <= 64 -> reduced w u r -> cast_native w x = r) /\
  (forall amount, 0 <= amount -> exists y, truncate x amount 2 = Some y /\ stands y (u / 2 ^ amount)) /\
  (forall amount base, base <> 2 -> truncate x amount base = None).
Proof.
  intros x u Hx. split; [|split; [|split]].
  - rewrite <- (stands_view _ _ Hx). unfold cast_bool, view, uwrap. destruct (stands_ok _ _ Hx) as [L _].
    rewrite orb_true_iff, !negb_true_iff, !Z.eqb_neq.
    pose proof (Z.mod_pos_bound (lo x) (2 ^ 64) p64) as B.
    assert (E : lo x mod 2 ^ 64 = 0 <-> lo x = 0).
    { split; [|intros ->; reflexivity]. intros H. apply (in_s_eqm_eq 64); [lia|exact L|unfold in_s; lia|]. unfold eqm. rewrite H. reflexivity. }
    revert E B. generalize (lo x mod 2 ^ 64). intros z E B. lia.
  - intros w r Hw Hr. unfold cast_native. rewrite (reduced_eq w u r ltac:(lia) Hr). apply eqm_swrap_eq; [lia|].
    destruct Hx as (_ & _ & M & _). apply mod0_eqm in M; [|exact p64]. apply bits_eqm; [lia|]. intros i Hi.
    symmetry. apply (eqm_bits 64); [lia|exact M|lia].
  - intros amount H. exists (k_rshift x amount). split; [reflexivity|exact (rshift_ok x u amount Hx H)].
  - intros amount base H. unfold truncate. destruct (Z.eqb_spec base 2); [contradiction|reflexivity].
Qed.
Print Assumptions C20_casts.
Example C20_nonvacuous :
  stands (Limbs (-3) 5) (6 * 2 ^ 64 - 3) /\ reduced 128 (2 ^ 127 + 7) (7 - 2 ^ 127) /\
  k_mul (encode (2 ^ 100 + 3)) (encode (2 ^ 90 - 5)) = encode (3 * 2 ^ 90 - 5 * 2 ^ 100 - 15) /\
  k_add (encode (2 ^ 127 - 1)) (encode 1) = encode (- 2 ^ 127) /\
  k_rshift (encode (-5)) 1 = encode (-3) /\ k_lrshift (encode (-1)) 120 = encode 255 /\ k_lshift (encode 3) 127 = encode (2 ^ 127) /\
  k_rshift (encode (-5)) 200 = encode (-1) /\ k_abs (encode (- 2 ^ 127)) = encode (2 ^ 127) /\
  k_dot [encode 3; encode (2 ^ 127)] [encode (-4); encode 3] = encode (2 ^ 127 - 12) /\ cast_native 8 (encode (2 ^ 100 + 200)) = -56.
Proof. unfold stands, reduced. repeat split; vm_compute; congruence. Qed.

(** ** C21: bit kernels *)

Theorem C21_reverse64 : forall x, - 2 ^ 63 <= x < 2 ^ 63 ->
  - 2 ^ 63 <= reverse64 x < 2 ^ 63 /\ (forall i, 0 <= i < 64 -> Z.testbit (reverse64 x) i = Z.testbit x (63 - i)) /\
  reverse64 (reverse64 x) = x.
Proof.
  intros x Hx. assert (R : forall y, in_s 64 (reverse64 y)) by (intros y; apply swrap_range; lia).
  split; [exact (R x)|]. split; [intros i Hi; apply reverse64_bit, Hi|].
  apply (in_s_eqm_eq 64); [lia|apply R|exact Hx|]. apply bits_eqm; [lia|]. intros i Hi.
  rewrite !reverse64_bit by lia. f_equal. lia.
Qed.
Print Assumptions C21_reverse64.
Theorem C21_reverse128 : forall x u, stands x u ->
  exists r, stands (reverse128 x) r /\ (forall i, 0 <= i < 128 -> Z.testbit r i = Z.testbit u (127 - i)) /\
  reverse128 (reverse128 x) = x.
Proof.
  intros x u Hx.
  assert (S : forall y, stands (reverse128 y) (view (reverse128 y))).
  { intros y. unfold reverse128. cbv zeta. set (z := swrap 128 _). assert (Z1 : in_s 128 z) by (apply swrap_range; lia).
    rewrite (stands_view _ _ (store_stands z Z1)). apply store_stands, Z1. }
  exists (view (reverse128 x)). split; [apply S|]. split; [intros i Hi; apply reverse128_bit; assumption|].
  assert (E : view (reverse128 (reverse128 x)) = u).
  { apply (in_s_eqm_eq 128); [lia|exact (stands_range _ _ (S _))|exact (stands_range _ _ Hx)|]. apply bits_eqm; [lia|].
    intros i Hi. rewrite (reverse128_bit _ _ _ (S x)) by exact Hi. rewrite (reverse128_bit _ _ _ Hx) by lia. f_equal. lia. }
  pose proof (S (reverse128 x)) as A. rewrite E in A. exact (stands_unique _ _ _ A Hx).
Qed.
Print Assumptions C21_reverse128.
(** For the native words: any width, start and stride. *)
Theorem C21_gather : forall w start stride x, 0 < w -> 0 <= start -> 0 < stride ->
  packed w start stride x (bit_gather w start stride x) /\
  (forall r, packed w start stride x r -> bit_gather w start stride x = r).
Proof.
  intros w start stride x Hw Hs Ht. pose proof (gather_packed w start stride x Hw Hs Ht) as P. split; [exact P|].
  intros r Hr. exact (packed_unique w start stride x _ _ Hw P Hr).
Qed.
Print Assumptions C21_gather.
(** One lane per start below the stride, in order; refused when the stride does not divide the width. *)
Theorem C21_split_and_gather : forall w stride xs, 0 < w -> 0 < stride ->
  ((stride | w) -> exists lanes, bit_split_and_gather w stride xs = Some lanes /\ length lanes = Z.to_nat stride /\
     forall k, (k < Z.to_nat stride)%nat -> Forall2 (fun x r => packed w (Z.of_nat k) stride x r) xs (nth k lanes [])) /\
  (~ (stride | w) -> bit_split_and_gather w stride xs = None).
Proof.
  intros w stride xs Hw Hs. unfold bit_split_and_gather. split; intros D.
  - rewrite (proj2 (Z.eqb_eq _ _) (proj2 (Z.mod_divide w stride ltac:(lia)) D)). eexists. split; [reflexivity|].
    rewrite map_length, seq_length. split; [reflexivity|]. intros k Hk.
    match goal with |- Forall2 _ _ (nth k (map ?f _) []) => rewrite (nth_indep _ [] (f 0%nat)) by (rewrite map_length, seq_length; exact Hk); rewrite (map_nth f) end.
    rewrite seq_nth by exact Hk. cbn [Nat.add]. induction xs as [|x xs IH]; cbn [map]; constructor; [|exact IH].
    apply gather_packed; lia.
  - destruct (Z.eqb_spec (w mod stride) 0) as [E|E]; [|reflexivity]. exfalso. apply D. apply Z.mod_divide; [lia|exact E].
Qed.
Print Assumptions C21_split_and_gather.
Theorem C21_gather128 : forall x u start stride, stands x u -> 0 <= start < 128 -> 0 < stride ->
  exists r, stands (bit_gather128 start stride x) r /\ packed 128 start stride u r.
Proof. exact gather128_packed. Qed.
Print Assumptions C21_gather128.
Theorem C21_split_and_gather128 : forall stride xs us, 0 < stride -> Forall2 stands xs us ->
  ((stride | 128) -> exists lanes, bit_split_and_gather128 stride xs = Some lanes /\ length lanes = Z.to_nat stride /\
     forall k, (k < Z.to_nat stride)%nat ->
       Forall2 (fun u y => exists r, stands y r /\ packed 128 (Z.of_nat k) stride u r) us (nth k lanes [])) /\
  (~ (stride | 128) -> bit_split_and_gather128 stride xs = None).
Proof.
  intros stride xs us Hs H. unfold bit_split_and_gather128. split; intros D.
  - rewrite (proj2 (Z.eqb_eq _ _) (proj2 (Z.mod_divide 128 stride ltac:(lia)) D)). eexists. split; [reflexivity|].
    rewrite map_length, seq_length. split; [reflexivity|]. intros k Hk.
    match goal with |- Forall2 _ _ (nth k (map ?f _) []) => rewrite (nth_indep _ [] (f 0%nat)) by (rewrite map_length, seq_length; exact Hk); rewrite (map_nth f) end.
    rewrite seq_nth by exact Hk. cbn [Nat.add]. induction H as [|x u xs us Hx H IH]; [constructor|]. cbn [map]. constructor; [|exact IH].
    eexists. split; [apply store_stands, swrap_range; lia|]. rewrite (stands_view _ _ Hx). exact (gather_packed 128 (Z.of_nat k) stride u ltac:(lia) ltac:(lia) Hs).
  - destruct (Z.eqb_spec (128 mod stride) 0) as [E|E]; [|reflexivity]. exfalso. apply D. apply Z.mod_divide; [lia|exact E].
Qed.
Print Assumptions C21_split_and_gather128.
(** The function the ABY3 carry circuit is modelled with is this kernel with stride two. *)
Theorem C21_circuit_gather : forall w start x, 1 < w -> (2 | w) -> 0 <= start <= 1 ->
  bit_gather w start 2 x = gather2 w start x.
Proof.
  intros w start x Hw D Hs. apply (C21_gather w start 2 x); try lia.
  split; [exact (gather2_word w start x Hw ltac:(lia))|]. intros j Hj. rewrite gather2_bits by lia.
  destruct D as [k D]. replace (w / 2) with k by (rewrite D, Z.div_mul; lia). replace (j * 2) with (2 * j) by lia.
  destruct (Z.ltb_spec j k), (Z.ltb_spec (start + 2 * j) w); cbn [andb]; try reflexivity; lia.
Qed.
Print Assumptions C21_circuit_gather.
Theorem C21_xor_indices : forall x y,
  xor_indices64 x = xor_all (set_positions 64 x) /\
  xor_indices64 (Z.lxor x y) = Z.lxor (xor_indices64 x) (xor_indices64 y).
Proof. intros x y. rewrite !xor64_ok. split; [reflexivity|apply xor_all_linear]. Qed.
Print Assumptions C21_xor_indices.
Theorem C21_xor_indices128 : forall x y u v, stands x u -> stands y v ->
  stands (xor_indices128 x) (xor_all (set_positions 128 u)) /\
  xor_indices128 (k_xor x y) = k_xor (xor_indices128 x) (xor_indices128 y).
Proof.
  intros x y u v Hx Hy. split; [exact (xor128_ok x u Hx)|].
  pose proof (xor128_ok _ _ (xor_ok x y u v Hx Hy)) as A. rewrite xor_all_linear in A.
  exact (stands_unique _ _ _ A (xor_ok _ _ _ _ (xor128_ok x u Hx) (xor128_ok y v Hy))).
Qed.
Print Assumptions C21_xor_indices128.
Example C21_nonvacuous :
  reverse64 1 = - 2 ^ 63 /\ reverse64 6 = 3 * 2 ^ 61 /\ reverse128 (encode 6) = encode (3 * 2 ^ 125) /\
  bit_gather 8 1 3 (-110) = 7 /\ bit_split_and_gather 8 4 [18] = Some [[2]; [1]; [0]; [0]] /\ bit_split_and_gather 8 3 [18] = None /\
  bit_gather128 3 60 (encode (2 ^ 123 + 2 ^ 63 + 8)) = encode 7 /\
  xor_indices64 (2 ^ 5 + 2 ^ 3 + 1) = 6 /\ xor_indices128 (encode (2 ^ 100 + 2 ^ 3)) = encode 103.
Proof. repeat split; vm_compute; reflexivity. Qed.

(** ** C74: integers through TensorFlow tensors *)

(** Up to 2^53 an integer enters the ring and leaves it unchanged. *)
Theorem C74_exact : forall z, Z.abs z <= 2 ^ 53 ->
  stands (from_tensor z) z /\ to_native (from_tensor z) = z /\ from_tensor z = encode z.
Proof.
  intros z Hz. unfold from_tensor. rewrite (float64_exact z Hz).
  assert (R : in_s 128 z) by (unfold in_s; lia). rewrite encode_store. split; [|split; [|reflexivity]].
  - rewrite swrap_id by (lia || exact R). apply store_stands, R.
  - unfold to_native. rewrite swrap_id by (lia || exact R). rewrite (stands_view _ _ (store_stands z R)). apply float64_exact, Hz.
Qed.
Print Assumptions C74_exact.
(** Beyond, the relative error on the way in is at most 2^-53, and so is the one on the way out. *)
Theorem C74_error :
  (forall z, - 2 ^ 63 <= z < 2 ^ 63 -> exists r, stands (from_tensor z) r /\ 2 ^ 53 * Z.abs (r - z) <= Z.abs z) /\
  (forall x v, stands x v -> 2 ^ 53 * Z.abs (to_native x - v) <= Z.abs v).
Proof.
  split.
  - intros z Hz. exists (float64 z). pose proof (float64_bound z Hz) as R. split; [|apply float64_error].
    unfold from_tensor. rewrite swrap_id by (lia || exact R). apply store_stands, R.
  - intros x v Hx. unfold to_native. rewrite (stands_view _ _ Hx). apply float64_error.
Qed.
Print Assumptions C74_error.
(** The same integer given as an array and as a tensor becomes two different ring elements, and an
    exact ring element reads back wrong. *)
Theorem C74_round_trip_refuted : exists z, - 2 ^ 63 <= z < 2 ^ 63 /\
  from_tensor z <> encode z /\ stands (encode z) z /\ to_native (encode z) <> z.
Proof.
  exists (2 ^ 53 + 1). split; [lia|]. split; [vm_compute; congruence|]. split; [|vm_compute; congruence].
  rewrite encode_store, swrap_id by (unfold in_s; lia). apply store_stands. unfold in_s; lia.
Qed.
Print Assumptions C74_round_trip_refuted.
Example C74_nonvacuous : to_native (from_tensor (- 2 ^ 53)) = - 2 ^ 53 /\ to_native (from_tensor (2 ^ 53 + 3)) = 2 ^ 53 + 4 /\
  to_native (from_tensor (2 ^ 53 + 1)) = 2 ^ 53.
Proof. repeat split; vm_compute; reflexivity. Qed.

(** ** C75: the bits of a 128-bit word *)

Theorem C75_low_bits : forall x u n, stands x u -> (n <= 64)%nat ->
  bits n x = inl (map (fun i => Z.b2z (Z.testbit u (Z.of_nat i))) (seq 0 n)).
Proof.
  intros x u n Hx Hn. unfold bits. rewrite (proj2 (Nat.leb_le _ _) Hn). f_equal. unfold binarize64. apply map_ext_in.
  intros i Hi. apply in_seq in Hi. rewrite Z.min_l by lia. rewrite land1_bit by lia. f_equal.
  apply stands_bits in Hx. destruct Hx as (_ & _ & L & _). apply L. lia.
Qed.
Print Assumptions C75_low_bits.
(** Asked for more than 64 bits (the default is 128) the result is a list of pairs instead: entry [i]
    holds bit [i] of each limb, and from entry 64 on copies of their top bits. *)
Theorem C75_bits_refuted : forall x u n, stands x u -> (64 < n)%nat ->
  (forall l, bits n x <> inl l) /\
  exists l, bits n x = inr l /\ length l = n /\ forall i, (i < n)%nat ->
    nth i l (0, 0) = (Z.b2z (Z.testbit u (Z.min (Z.of_nat i) 63)), Z.b2z (Z.testbit u (Z.min (Z.of_nat i) 63 + 64))).
Proof.
  intros x u n Hx Hn. unfold bits. rewrite (proj2 (Nat.leb_gt _ _) Hn). split; [intros l; discriminate|].
  eexists. split; [reflexivity|]. unfold binarize64. split.
  - rewrite combine_length, !map_length, seq_length. lia.
  - intros i Hi. rewrite combine_nth by (rewrite !map_length; reflexivity).
    assert (N : forall (f : nat -> Z), nth i (map f (seq 0 n)) 0 = f i).
    { intros f. rewrite (nth_indep _ 0 (f 0%nat)) by (rewrite map_length, seq_length; exact Hi). rewrite map_nth, seq_nth by exact Hi. reflexivity. }
    rewrite !N, !land1_bit by lia. apply stands_bits in Hx. destruct Hx as (_ & _ & L & H).
    rewrite L, H by lia. reflexivity.
Qed.
Print Assumptions C75_bits_refuted.
Example C75_witness : bits 3 (encode 6) = inl [0; 1; 1] /\
  match bits 128 (encode (2 ^ 63)) with inr l => nth 63 l (0, 0) = (1, 0) /\ nth 64 l (0, 0) = (1, 0) /\ nth 100 l (0, 0) = (1, 0) | inl _ => False end.
Proof. split; [|split; [|split]]; vm_compute; reflexivity. Qed.

(** ** C76: axes of 128-bit tensors *)

Theorem C76_axis : forall axis dims, 0 < dims -> -1 <= axis < dims -> acts_on axis dims = Some (meant axis dims).
Proof.
  intros axis dims Hd Ha. unfold acts_on, lift_axis, meant. destruct (Z.eqb_spec axis (-1)) as [->|N].
  - unfold tf_axis. replace ((- (dims + 1) <=? dims - 1) && (dims - 1 <? dims + 1)) with true.
    2:{ symmetry. apply andb_true_intro. split; [apply Z.leb_le|apply Z.ltb_lt]; lia. }
    destruct (Z.ltb_spec (dims - 1) 0); [lia|]. change (-1 <? 0) with true. cbv iota. f_equal. lia.
  - destruct (Z.ltb_spec axis dims); [|lia]. unfold tf_axis. replace ((- (dims + 1) <=? axis) && (axis <? dims + 1)) with true.
    2:{ symmetry. apply andb_true_intro. split; [apply Z.leb_le|apply Z.ltb_lt]; lia. }
    destruct (Z.ltb_spec axis 0); [lia|reflexivity].
Qed.
Print Assumptions C76_axis.
(** Every other negative axis acts on the neighbour of the axis that was meant. *)
Theorem C76_negative_axis_refuted : forall axis dims, - dims <= axis <= -2 ->
  0 <= meant axis dims < dims /\ acts_on axis dims = Some (meant axis dims + 1).
Proof.
  intros axis dims Ha. unfold acts_on, lift_axis, meant. destruct (Z.eqb_spec axis (-1)); [lia|]. destruct (Z.ltb_spec axis dims); [|lia].
  unfold tf_axis. replace ((- (dims + 1) <=? axis) && (axis <? dims + 1)) with true.
  2:{ symmetry. apply andb_true_intro. split; [apply Z.leb_le|apply Z.ltb_lt]; lia. }
  destruct (Z.ltb_spec axis 0); [|lia]. split; [lia|]. f_equal. lia.
Qed.
Print Assumptions C76_negative_axis_refuted.
(** Stacking along the last new axis puts it one place early when it is called -1 and fails when it is called by its number. *)
Theorem C76_stack : forall axis dims, 0 < dims ->
  (0 <= axis < dims -> stacks_at axis dims = Some axis) /\
  stacks_at (-1) dims = Some (meant (-1) (dims + 1) - 1) /\ stacks_at dims dims = None.
Proof.
  intros axis dims Hd. unfold stacks_at, lift_axis, meant, tf_axis. split; [|split].
  - intros Ha. destruct (Z.eqb_spec axis (-1)); [lia|]. destruct (Z.ltb_spec axis dims); [|lia].
    replace ((- (dims + 2) <=? axis) && (axis <? dims + 2)) with true.
    2:{ symmetry. apply andb_true_intro. split; [apply Z.leb_le|apply Z.ltb_lt]; lia. }
    destruct (Z.ltb_spec axis 0); [lia|reflexivity].
  - cbn [Z.eqb Pos.eqb]. replace ((- (dims + 2) <=? dims - 1) && (dims - 1 <? dims + 2)) with true.
    2:{ symmetry. apply andb_true_intro. split; [apply Z.leb_le|apply Z.ltb_lt]; lia. }
    destruct (Z.ltb_spec (dims - 1) 0); [lia|]. change (-1 <? 0) with true. cbv iota. f_equal. lia.
  - destruct (Z.eqb_spec dims (-1)); [lia|]. rewrite Z.ltb_irrefl. reflexivity.
Qed.
Print Assumptions C76_stack.
Theorem C76_expand_dims : forall axis dims, 0 <= dims ->
  (-1 <= axis <= dims -> expands_at axis dims = Some (meant axis (dims + 1))) /\
  (- dims - 1 <= axis <= -2 -> expands_at axis dims = Some (meant axis (dims + 1) + 1)).
Proof.
  intros axis dims Hd. unfold expands_at, lift_axis, meant, tf_axis. split; intros Ha.
  - destruct (Z.eqb_spec axis (-1)) as [->|N].
    + replace ((- (dims + 2) <=? dims + 1 - 1) && (dims + 1 - 1 <? dims + 2)) with true.
      2:{ symmetry. apply andb_true_intro. split; [apply Z.leb_le|apply Z.ltb_lt]; lia. }
      destruct (Z.ltb_spec (dims + 1 - 1) 0); [lia|]. change (-1 <? 0) with true. cbv iota. f_equal. lia.
    + destruct (Z.ltb_spec axis (dims + 1)); [|lia]. replace ((- (dims + 2) <=? axis) && (axis <? dims + 2)) with true.
      2:{ symmetry. apply andb_true_intro. split; [apply Z.leb_le|apply Z.ltb_lt]; lia. }
      destruct (Z.ltb_spec axis 0); [lia|reflexivity].
  - destruct (Z.eqb_spec axis (-1)); [lia|]. destruct (Z.ltb_spec axis (dims + 1)); [|lia].
    replace ((- (dims + 2) <=? axis) && (axis <? dims + 2)) with true.
    2:{ symmetry. apply andb_true_intro. split; [apply Z.leb_le|apply Z.ltb_lt]; lia. }
    destruct (Z.ltb_spec axis 0); [|lia]. f_equal. lia.
Qed.
Print Assumptions C76_expand_dims.
Example C76_witness : acts_on (-1) 3 = Some 2 /\ acts_on (-2) 3 = Some 2 /\ acts_on (-3) 3 = Some 1 /\ stacks_at (-1) 2 = Some 1.
Proof. repeat split. Qed.

(** ** C77: equality tests on 128-bit tensors *)

Theorem C77_equal_same_shape : forall s xs ys us vs, Forall2 stands xs us -> Forall2 stands ys vs ->
  length xs = volume s -> length ys = volume s ->
  k_equal s s xs ys = Value (map (fun p => Z.eqb (fst p) (snd p)) (combine us vs)).
Proof.
  intros s xs ys us vs Hx Hy Lx Ly. unfold k_equal. rewrite Nat.ltb_irrefl.
  assert (E : same_shape s s = true) by (unfold same_shape; destruct (list_eq_dec _ s s); congruence). rewrite E. cbn [andb].
  assert (G : map (fun p => view (fst p) =? view (snd p)) (combine xs ys) = map (fun p => fst p =? snd p) (combine us vs)).
  { clear - Hx Hy. revert ys vs Hy. induction Hx as [|x u xs us Hx H IH]; intros ys vs Hy; [reflexivity|].
    destruct Hy as [|y v ys vs Hy Hys]; [reflexivity|]. cbn [combine map fst snd]. rewrite (stands_view _ _ Hx), (stands_view _ _ Hy), (IH ys vs Hys). reflexivity. }
  destruct (Nat.eqb_spec (volume s) 1) as [V|V]; cbn [andb].
  - rewrite V in Lx, Ly. destruct Hx as [|x u xs us Hx H]; [discriminate|]. destruct Hy as [|y v ys vs Hy Hys]; [discriminate|].
    destruct H; [|discriminate]. destruct Hys; [|discriminate].
    cbn [combine map hd fst snd]. rewrite (stands_view _ _ Hx), (stands_view _ _ Hy). reflexivity.
  - f_equal. exact G.
Qed.
Print Assumptions C77_equal_same_shape.
(** A single value of lower rank is compared with every entry. *)
Theorem C77_equal_lower_rank : forall s sy xs y us v, Forall2 stands xs us -> stands y v -> length xs = volume s ->
  volume sy = 1%nat -> (length sy < length s)%nat -> (1 < volume s)%nat ->
  k_equal s sy xs [y] = Value (map (fun u => Z.eqb u v) us) /\ k_equal sy s [y] xs = Value (map (fun u => Z.eqb u v) us).
Proof.
  intros s sy xs y us v Hx Hy Lx V1 Lt V. unfold k_equal. rewrite (proj2 (Nat.ltb_lt _ _) Lt).
  rewrite (proj2 (Nat.ltb_ge _ _)) by lia. rewrite V1. cbn [Nat.eqb].
  assert (E : same_shape s s = true) by (unfold same_shape; destruct (list_eq_dec _ s s); congruence). rewrite E.
  destruct (Nat.eqb_spec (volume s) 1) as [|_]; [lia|]. cbn [andb].
  assert (G : map (fun a => view a =? view y) xs = map (fun u => u =? v) us).
  { clear - Hx Hy. induction Hx as [|x u xs us Hx H IH]; [reflexivity|]. cbn [map].
    rewrite IH, (stands_view _ _ Hx), (stands_view _ _ Hy). reflexivity. }
  split; f_equal; exact G.
Qed.
Print Assumptions C77_equal_lower_rank.
(** Written with as many dimensions as the other operand, a single value on the right ends the process. *)
Theorem C77_equal_broadcast_refuted : forall s sy xs y, volume sy = 1%nat -> length sy = length s -> (1 < volume s)%nat ->
  length xs = volume s -> k_equal s sy xs [y] = Abort.
Proof.
  intros s sy xs y V1 L V Lx. unfold k_equal. rewrite (proj2 (Nat.ltb_ge _ _)) by lia. rewrite V1. cbn [Nat.eqb].
  destruct (Nat.eqb_spec (volume s) 1) as [|_]; [lia|]. cbn [andb]. unfold same_shape. destruct (list_eq_dec Nat.eq_dec sy s) as [->|]; [lia|reflexivity].
Qed.
Print Assumptions C77_equal_broadcast_refuted.
Example C77_witness :
  k_equal [3%nat] [1%nat] [encode 1; encode 2; encode 3] [encode 2] = Abort /\
  k_equal [1%nat] [3%nat] [encode 2] [encode 1; encode 2; encode 3] = Value [false; true; false] /\
  k_equal [3%nat] [] [encode 1; encode 2; encode 3] [encode 2] = Value [false; true; false].
Proof. repeat split; vm_compute; reflexivity. Qed.
