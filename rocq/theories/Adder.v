(** Carry look-ahead on the bits of integers: block generate and propagate, and the Kogge-Stone and
    Sklansky rounds on plain words.  No model definitions. *)
From Verif Require Import Base Aby3Bits.
From Coq Require Import ZifyBool.

Section Blocks.
Context (x y : Z).
Definition gbit (j : Z) : bool := Z.testbit x j && Z.testbit y j.
Definition pbit (j : Z) : bool := xorb (Z.testbit x j) (Z.testbit y j).
(** Carry out of, and propagation through, the [k] bits from [lo]. *)
Fixpoint Gn (lo : Z) (k : nat) : bool :=
  match k with O => false | S k' => xorb (gbit (lo + Z.of_nat k')) (pbit (lo + Z.of_nat k') && Gn lo k') end.
Fixpoint Pn (lo : Z) (k : nat) : bool :=
  match k with O => true | S k' => pbit (lo + Z.of_nat k') && Pn lo k' end.
Definition GB (lo hi : Z) : bool := Gn lo (Z.to_nat (hi - lo)).
Definition PB (lo hi : Z) : bool := Pn lo (Z.to_nat (hi - lo)).

Lemma Gn_comp lo k1 k2 : Gn lo (k1 + k2) = xorb (Gn (lo + Z.of_nat k1) k2) (Pn (lo + Z.of_nat k1) k2 && Gn lo k1).
Proof.
  induction k2 as [|k2 IH].
  - rewrite Nat.add_0_r. cbn. destruct (Gn lo k1); reflexivity.
  - rewrite Nat.add_succ_r. cbn [Gn Pn]. rewrite IH.
    replace (lo + Z.of_nat (k1 + k2)) with (lo + Z.of_nat k1 + Z.of_nat k2) by lia.
    destruct (gbit _), (pbit _), (Gn (lo + Z.of_nat k1) k2), (Pn _ k2), (Gn lo k1); reflexivity.
Qed.
Lemma Pn_comp lo k1 k2 : Pn lo (k1 + k2) = Pn (lo + Z.of_nat k1) k2 && Pn lo k1.
Proof.
  induction k2 as [|k2 IH].
  - rewrite Nat.add_0_r. reflexivity.
  - rewrite Nat.add_succ_r. cbn [Pn]. rewrite IH.
    replace (lo + Z.of_nat (k1 + k2)) with (lo + Z.of_nat k1 + Z.of_nat k2) by lia. apply Bool.andb_assoc.
Qed.
Lemma GB_comp lo mid hi : lo <= mid <= hi -> GB lo hi = xorb (GB mid hi) (PB mid hi && GB lo mid).
Proof.
  intros H. unfold GB, PB. replace (Z.to_nat (hi - lo)) with (Z.to_nat (mid - lo) + Z.to_nat (hi - mid))%nat by lia.
  rewrite Gn_comp. replace (lo + Z.of_nat (Z.to_nat (mid - lo))) with mid by lia. reflexivity.
Qed.
Lemma PB_comp lo mid hi : lo <= mid <= hi -> PB lo hi = PB mid hi && PB lo mid.
Proof.
  intros H. unfold PB. replace (Z.to_nat (hi - lo)) with (Z.to_nat (mid - lo) + Z.to_nat (hi - mid))%nat by lia.
  rewrite Pn_comp. replace (lo + Z.of_nat (Z.to_nat (mid - lo))) with mid by lia. reflexivity.
Qed.
Lemma GB_one j : GB j (j + 1) = gbit j.
Proof. unfold GB. replace (Z.to_nat (j + 1 - j)) with 1%nat by lia. cbn. rewrite Z.add_0_r, Bool.andb_false_r. destruct (gbit j); reflexivity. Qed.
Lemma PB_one j : PB j (j + 1) = pbit j.
Proof. unfold PB. replace (Z.to_nat (j + 1 - j)) with 1%nat by lia. cbn. rewrite Z.add_0_r, Bool.andb_true_r. reflexivity. Qed.
Lemma GB_nil j : GB j j = false.
Proof. unfold GB. rewrite Z.sub_diag. reflexivity. Qed.

Lemma add_bit j : 0 <= j -> Z.testbit (x + y) j = xorb (pbit j) (GB 0 j).
Proof.
  intros Hj. destruct (Z.add_carry_bits x y false) as (c & Hs & Hc & H0).
  cbn [Z.b2z] in Hs. rewrite Z.add_0_r in Hs. rewrite Hs, !Z.lxor_spec. unfold pbit. f_equal.
  assert (E : forall k : nat, Z.testbit c (Z.of_nat k) = Gn 0 k).
  { induction k as [|k IH]; [exact H0|]. cbn [Gn]. rewrite Z.add_0_l, <- IH.
    rewrite Nat2Z.inj_succ. rewrite <- Z.div2_bits by lia. rewrite Hc.
    rewrite !Z.lor_spec, !Z.land_spec, Z.lor_spec. unfold gbit, pbit.
    destruct (Z.testbit x (Z.of_nat k)), (Z.testbit y (Z.of_nat k)), (Z.testbit c (Z.of_nat k)); reflexivity. }
  unfold GB. rewrite <- E. f_equal. lia.
Qed.
Lemma add_carry j : 0 <= j -> Z.b2z (GB 0 j) = (x mod 2 ^ j + y mod 2 ^ j) / 2 ^ j.
Proof.
  intros Hj. assert (Hp : 0 < 2 ^ j) by (apply pow2_pos; lia).
  assert (E : x mod 2 ^ j + y mod 2 ^ j = (x + y) mod 2 ^ j + Z.b2z (GB 0 j) * 2 ^ j).
  { pattern j. apply natlike_ind; [|intros k Hk IH|exact Hj].
    - rewrite GB_nil. cbn. rewrite !Z.mod_1_r. reflexivity.
    - assert (Hd : forall z, z mod 2 ^ Z.succ k = z mod 2 ^ k + Z.b2z (Z.testbit z k) * 2 ^ k).
      { intros z. rewrite Z.pow_succ_r by lia. rewrite (Z.mul_comm 2).
        rewrite Z.rem_mul_r by (pose proof (pow2_pos k); lia). rewrite Z.testbit_spec' by lia. ring. }
      rewrite !Hd. rewrite add_bit by lia.
      rewrite (GB_comp 0 k (Z.succ k)) by lia.
      change (Z.succ k) with (k + 1). rewrite GB_one, PB_one. rewrite Z.pow_add_r by lia.
      unfold gbit, pbit.
      destruct (Z.testbit x k), (Z.testbit y k), (GB 0 k); cbn [xorb andb Z.b2z] in *; lia. }
  rewrite E, Z.div_add by lia. rewrite Z.div_small by (apply Z.mod_pos_bound; lia). lia.
Qed.

(** ** Kogge-Stone *)

Definition KG (n s G : Z) : Prop := forall j, 0 <= j < n -> Z.testbit G j = GB (Z.max 0 (j + 1 - s)) (j + 1).
Definition KP_ (n s P : Z) : Prop := forall j, 0 <= j < n -> Z.testbit P j = PB (Z.max 0 (j + 1 - s)) (j + 1).

Lemma shl_bits n s G j : 0 < n -> 0 <= j < n ->
  Z.testbit (swrap n (Z.shiftl G s)) j = if j <? s then false else Z.testbit G (j - s).
Proof.
  intros Hn Hj. rewrite swrap_bits by lia. rewrite Z.min_l by lia. rewrite Z.shiftl_spec by lia.
  destruct (Z.ltb_spec j s); [apply Z.testbit_neg_r; lia|reflexivity].
Qed.
Lemma low_ones_bits s j : 0 <= s -> 0 <= j -> Z.testbit (2 ^ s - 1) j = (j <? s).
Proof.
  intros Hs Hj. replace (2 ^ s - 1) with (Z.ones s) by (rewrite Z.ones_equiv; lia).
  destruct (Z.ltb_spec j s); [apply Z.ones_spec_low; lia|apply Z.ones_spec_high; lia].
Qed.

Lemma ks_init n : KG n 1 (Z.land x y) /\ KP_ n 1 (Z.lxor x y).
Proof.
  split; intros j Hj; replace (Z.max 0 (j + 1 - 1)) with j by lia.
  - rewrite GB_one, Z.land_spec. reflexivity.
  - rewrite PB_one, Z.lxor_spec. reflexivity.
Qed.
Lemma ks_G n s G P : 0 < n -> 0 < s -> KG n s G -> KP_ n s P ->
  KG n (2 * s) (Z.lxor G (Z.land P (swrap n (Z.shiftl G s)))).
Proof.
  intros Hn Hs HG HP j Hj. rewrite Z.lxor_spec, Z.land_spec, shl_bits by lia. rewrite (HG j Hj), (HP j Hj).
  destruct (Z.ltb_spec j s).
  - rewrite Bool.andb_false_r, Bool.xorb_false_r. f_equal. lia.
  - rewrite (HG (j - s)) by lia. rewrite (GB_comp (Z.max 0 (j + 1 - 2 * s)) (j + 1 - s) (j + 1)) by lia.
    replace (Z.max 0 (j + 1 - s)) with (j + 1 - s) by lia.
    replace (j - s + 1) with (j + 1 - s) by lia.
    replace (Z.max 0 (j + 1 - s - s)) with (Z.max 0 (j + 1 - 2 * s)) by lia. reflexivity.
Qed.
Lemma ks_P n s P m : 0 < n -> 0 < s -> KP_ n s P -> (forall j, 0 <= j < n -> Z.testbit m j = (j <? s)) ->
  KP_ n (2 * s) (Z.land P (Z.lxor (swrap n (Z.shiftl P s)) m)).
Proof.
  intros Hn Hs HP Hm j Hj. rewrite Z.land_spec, Z.lxor_spec, shl_bits by lia. rewrite (HP j Hj), (Hm j Hj).
  destruct (Z.ltb_spec j s).
  - rewrite Bool.xorb_false_l, Bool.andb_true_r. f_equal. lia.
  - rewrite Bool.xorb_false_r, (HP (j - s)) by lia. rewrite (PB_comp (Z.max 0 (j + 1 - 2 * s)) (j + 1 - s) (j + 1)) by lia.
    replace (Z.max 0 (j + 1 - s)) with (j + 1 - s) by lia.
    replace (j - s + 1) with (j + 1 - s) by lia.
    replace (Z.max 0 (j + 1 - s - s)) with (Z.max 0 (j + 1 - 2 * s)) by lia. reflexivity.
Qed.
(** The sum from the prefix carries: correct on the low [k] bits. *)
Lemma prefix_sum n k G : 0 < n -> k <= n -> (forall j, 0 <= j < k -> Z.testbit G j = GB 0 (j + 1)) ->
  forall j, 0 <= j < k -> Z.testbit (Z.lxor (swrap n (Z.shiftl G 1)) (Z.lxor x y)) j = Z.testbit (x + y) j.
Proof.
  intros Hn Hk HG j Hj. rewrite !Z.lxor_spec, shl_bits, add_bit by lia. unfold pbit.
  destruct (Z.ltb_spec j 1).
  - replace j with 0 by lia. rewrite GB_nil. destruct (Z.testbit x 0), (Z.testbit y 0); reflexivity.
  - rewrite HG by lia. replace (j - 1 + 1) with j by lia.
    destruct (GB 0 j), (Z.testbit x j), (Z.testbit y j); reflexivity.
Qed.

(** ** Sklansky *)

(** Block of width [s] containing bit [j]. *)
Definition SG (n s G : Z) : Prop := forall j, 0 <= j < n -> Z.testbit G j = GB (j - j mod s) (j + 1).
Definition SP (n s P : Z) : Prop := forall j, 0 <= j < n -> Z.testbit P j = PB (j - j mod s) (j + 1).
Lemma sk_init n : SG n 1 (Z.land x y) /\ SP n 1 (Z.lxor x y).
Proof.
  split; intros j Hj; rewrite Z.mod_1_r, Z.sub_0_r.
  - rewrite GB_one, Z.land_spec. reflexivity.
  - rewrite PB_one, Z.lxor_spec. reflexivity.
Qed.
Lemma mod_double j s : 0 < s -> j mod (2 * s) = if j mod (2 * s) <? s then j mod s else j mod s + s.
Proof.
  intros Hs. assert (E : j mod s = (j mod (2 * s)) mod s).
  { rewrite (Z.mul_comm 2 s). rewrite Z.rem_mul_r by lia. rewrite Z.mul_comm, Z.mod_add by lia. symmetry; apply Z.mod_mod; lia. }
  rewrite E. pose proof (Z.mod_pos_bound j (2 * s)). destruct (Z.ltb_spec (j mod (2 * s)) s).
  - symmetry. apply Z.mod_small. lia.
  - replace ((j mod (2 * s)) mod s) with (j mod (2 * s) - s); [lia|].
    apply (Z.mod_unique _ _ 1); lia.
Qed.
(** [G1] holds, in the upper half of every block, the last bit of the lower half. *)
Lemma sk_step n s G P G1 P1 : 0 < n -> 0 < s -> SG n s G -> SP n s P ->
  (forall j, 0 <= j < n -> Z.testbit G1 j = if j mod (2 * s) <? s then false else Z.testbit G (j - j mod s - 1)) ->
  (forall j, 0 <= j < n -> Z.testbit P1 j = if j mod (2 * s) <? s then true else Z.testbit P (j - j mod s - 1)) ->
  SG n (2 * s) (Z.lxor G (Z.land P G1)) /\ SP n (2 * s) (Z.land P P1).
Proof.
  intros Hn Hs HG HP HG1 HP1. split; intros j Hj; pose proof (mod_double j s Hs) as Hd;
    pose proof (Z.mod_pos_bound j s Hs); pose proof (Z.mod_pos_bound j (2 * s) ltac:(lia));
    pose proof (Z.mod_le j s ltac:(lia) Hs); pose proof (Z.mod_le j (2 * s) ltac:(lia) ltac:(lia)).
  - rewrite Z.lxor_spec, Z.land_spec, (HG j Hj), (HP j Hj), (HG1 j Hj). destruct (Z.ltb_spec (j mod (2 * s)) s).
    + rewrite Bool.andb_false_r, Bool.xorb_false_r. f_equal. lia.
    + rewrite (HG (j - j mod s - 1)) by lia.
      rewrite (GB_comp (j - j mod (2 * s)) (j - j mod s) (j + 1)) by lia. do 2 f_equal. f_equal; [|lia].
      replace ((j - j mod s - 1) mod s) with (s - 1); [lia|].
      apply (Z.mod_unique _ _ (j / s - 1)); [lia|]. pose proof (Z.div_mod j s). lia.
  - rewrite Z.land_spec, (HP j Hj), (HP1 j Hj). destruct (Z.ltb_spec (j mod (2 * s)) s).
    + rewrite Bool.andb_true_r. f_equal. lia.
    + rewrite (HP (j - j mod s - 1)) by lia.
      rewrite (PB_comp (j - j mod (2 * s)) (j - j mod s) (j + 1)) by lia. f_equal. f_equal; [|lia].
      replace ((j - j mod s - 1) mod s) with (s - 1); [lia|].
      apply (Z.mod_unique _ _ (j / s - 1)); [lia|]. pose proof (Z.div_mod j s). lia.
Qed.
End Blocks.
