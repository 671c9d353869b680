(** Proofs about the bit kernels. *)
From Coq Require Import ZArith List Lia Bool.
From Verif Require Import Base Aby3Bits KernModel KernSpec KernProofs.
Import ListNotations.
Local Open Scope Z_scope.

(** ** Reversal *)

(** Where bit [i] of a swap stage comes from. *)
Definition source (s mask i : Z) : Z := if Z.testbit mask i then i + s else i - s.
(** The masks swap disjoint groups: a position outside the mask has its partner inside. *)
Definition pairs_up (s mask : Z) : bool :=
  forallb (fun n => let i := Z.of_nat n in
    if Z.testbit mask i then (i <? s) || negb (Z.testbit mask (i - s)) else (s <=? i) && Z.testbit mask (i - s)) (seq 0 32).
Lemma swap_stage_bit s mask v i : 0 <= s -> pairs_up s mask = true -> 0 <= i < 32 ->
  Z.testbit (swap_stage s mask v) i = Z.testbit v (source s mask i).
Proof.
  intros Hs Hp Hi. unfold pairs_up in Hp. rewrite forallb_forall in Hp.
  specialize (Hp (Z.to_nat i) ltac:(apply in_seq; lia)). cbv zeta in Hp. rewrite Z2Nat.id in Hp by lia.
  unfold swap_stage, source. rewrite Z.lor_spec, Z.land_spec, Z.shiftr_spec by lia. unfold uwrap.
  rewrite mod_pow2_bits by lia. replace (i <? 32) with true by (symmetry; apply Z.ltb_lt; lia). cbn [andb].
  rewrite Z.shiftl_spec by lia. rewrite Z.land_spec. destruct (Z.testbit mask i) eqn:Em.
  - rewrite andb_true_r. apply orb_prop in Hp. destruct Hp as [Hp|Hp].
    + apply Z.ltb_lt in Hp. rewrite (Z.testbit_neg_r v (i - s)) by lia. rewrite orb_false_r. reflexivity.
    + apply negb_true_iff in Hp. rewrite Hp, andb_false_r, orb_false_r. reflexivity.
  - apply andb_prop in Hp. destruct Hp as [_ Hp]. rewrite Hp, andb_true_r, andb_false_r. reflexivity.
Qed.
Lemma swap_stage_range s mask v : 0 <= s -> 0 <= mask < 2 ^ 32 -> 0 <= swap_stage s mask v < 2 ^ 32.
Proof.
  intros Hs Hm. unfold swap_stage. rewrite <- (Z.mod_small mask (2 ^ 32)) by exact Hm.
  assert (E : forall z, (forall i, 32 <= i -> Z.testbit z i = false) -> 0 <= z < 2 ^ 32).
  { intros z Hz. assert (z = z mod 2 ^ 32) as ->; [|apply Z.mod_pos_bound, pow2_pos; lia].
    apply Z.bits_inj'. intros i Hi. rewrite mod_pow2_bits by lia. destruct (Z.ltb_spec i 32); [reflexivity|apply Hz; lia]. }
  apply E. intros i Hi. rewrite Z.lor_spec, Z.land_spec. unfold uwrap. rewrite !mod_pow2_bits by lia.
  replace (i <? 32) with false by (symmetry; apply Z.ltb_ge; lia). rewrite andb_false_r. reflexivity.
Qed.
Definition walk (i : Z) : Z :=
  source 1 0x55555555 (source 2 0x33333333 (source 4 0x0F0F0F0F (source 8 0x00FF00FF (if i <? 16 then i + 16 else i - 16)))).
Lemma u32_reverse_bit v i : 0 <= v < 2 ^ 32 -> 0 <= i < 32 -> Z.testbit (u32_reverse v) i = Z.testbit v (31 - i).
Proof.
  intros Hv Hi. unfold u32_reverse. cbv zeta.
  set (v1 := swap_stage 1 _ v). set (v2 := swap_stage 2 _ v1). set (v3 := swap_stage 4 _ v2). set (v4 := swap_stage 8 _ v3).
  assert (R4 : 0 <= v4 < 2 ^ 32) by (apply swap_stage_range; lia).
  assert (T : forallb (fun n => let i := Z.of_nat n in
     let a := (if i <? 16 then i + 16 else i - 16) in let b := source 8 0x00FF00FF a in let c := source 4 0x0F0F0F0F b in
     let d := source 2 0x33333333 c in let e := source 1 0x55555555 d in
     (0 <=? a) && (a <? 32) && (0 <=? b) && (b <? 32) && (0 <=? c) && (c <? 32) && (0 <=? d) && (d <? 32) && (e =? 31 - i)) (seq 0 32) = true)
    by (vm_compute; reflexivity).
  rewrite forallb_forall in T. specialize (T (Z.to_nat i) ltac:(apply in_seq; lia)). cbv zeta in T. rewrite Z2Nat.id in T by lia.
  set (a := if i <? 16 then i + 16 else i - 16) in *. repeat rewrite andb_true_iff in T.
  destruct T as ((((((((A1 & A2) & B1) & B2) & C1) & C2) & D1) & D2) & E).
  apply Z.leb_le in A1, B1, C1, D1. apply Z.ltb_lt in A2, B2, C2, D2. apply Z.eqb_eq in E.
  transitivity (Z.testbit v4 a).
  - rewrite Z.lor_spec, Z.shiftr_spec by lia. unfold uwrap. rewrite mod_pow2_bits, Z.shiftl_spec by lia.
    replace (i <? 32) with true by (symmetry; apply Z.ltb_lt; lia). cbn [andb]. unfold a. destruct (Z.ltb_spec i 16).
    + rewrite (Z.testbit_neg_r v4 (i - 16)) by lia. apply orb_false_r.
    + rewrite <- (Z.mod_small v4 (2 ^ 32)) at 1 by exact R4. rewrite mod_pow2_bits by lia.
      replace (i + 16 <? 32) with false by (symmetry; apply Z.ltb_ge; lia). reflexivity.
  - unfold v4. rewrite swap_stage_bit; [|lia|vm_compute; reflexivity|split; assumption].
    unfold v3. rewrite swap_stage_bit; [|lia|vm_compute; reflexivity|split; assumption].
    unfold v2. rewrite swap_stage_bit; [|lia|vm_compute; reflexivity|split; assumption].
    unfold v1. rewrite swap_stage_bit; [|lia|vm_compute; reflexivity|split; assumption].
    rewrite E. reflexivity.
Qed.
Lemma u32_reverse_range v : 0 <= u32_reverse v < 2 ^ 32.
Proof.
  unfold u32_reverse. cbv zeta. set (v4 := swap_stage 8 _ _).
  assert (R4 : 0 <= v4 < 2 ^ 32) by (apply swap_stage_range; lia). clearbody v4.
  assert (E : Z.lor (Z.shiftr v4 16) (uwrap 32 (Z.shiftl v4 16)) = (Z.lor (Z.shiftr v4 16) (uwrap 32 (Z.shiftl v4 16))) mod 2 ^ 32).
  2:{ rewrite E. apply Z.mod_pos_bound, pow2_pos. lia. }
  apply Z.bits_inj'. intros i Hi. rewrite mod_pow2_bits by lia. destruct (Z.ltb_spec i 32); [reflexivity|].
  rewrite Z.lor_spec, Z.shiftr_spec by lia. unfold uwrap. rewrite mod_pow2_bits by lia.
  replace (i <? 32) with false by (symmetry; apply Z.ltb_ge; lia). cbn [andb]. rewrite orb_false_r.
  rewrite <- (Z.mod_small v4 (2 ^ 32)) by exact R4. rewrite mod_pow2_bits by lia.
  replace (i + 16 <? 32) with false by (symmetry; apply Z.ltb_ge; lia). reflexivity.
Qed.
Lemma raw32_bit v k i : 0 <= k -> 0 <= i < 32 -> Z.testbit (raw32 v k) i = Z.testbit v (32 * k + i).
Proof.
  intros Hk Hi. unfold raw32, uwrap. rewrite mod_pow2_bits, Z.shiftr_spec by lia.
  replace (i <? 32) with true by (symmetry; apply Z.ltb_lt; lia). cbn [andb]. f_equal. lia.
Qed.
Lemma unraw32_bit ws : Forall (fun x => 0 <= x < 2 ^ 32) ws -> forall k i, 0 <= i < 32 ->
  Z.testbit (unraw32 ws) (32 * Z.of_nat k + i) = Z.testbit (nth k ws 0) i.
Proof.
  induction 1 as [|x ws Hx H IH]; intros k i Hi.
  - cbn [unraw32 fold_right]. rewrite Z.bits_0. destruct k; cbn [nth]; rewrite Z.bits_0; reflexivity.
  - unfold unraw32 in *. cbn [fold_right]. set (acc := fold_right _ 0 ws) in *. destruct k as [|k]; cbn [nth].
    + rewrite <- (Z.mod_small x (2 ^ 32) Hx) at 2. replace x with ((x + 2 ^ 32 * acc) mod 2 ^ 32) at 2.
      2:{ rewrite Z.mul_comm, Z.mod_add by lia. apply Z.mod_small, Hx. }
      rewrite Z.mod_mod by lia. rewrite mod_pow2_bits by lia.
      replace (i <? 32) with true by (symmetry; apply Z.ltb_lt; lia). cbn [andb]. f_equal; lia.
    + rewrite <- IH by exact Hi. replace acc with ((x + 2 ^ 32 * acc) / 2 ^ 32) at 2.
      2:{ rewrite Z.mul_comm, Z.div_add by lia. rewrite Z.div_small by exact Hx. lia. }
      rewrite <- Z.shiftr_div_pow2, Z.shiftr_spec by lia. f_equal. lia.
Qed.
Lemma reverse64_bit x i : 0 <= i < 64 -> Z.testbit (reverse64 x) i = Z.testbit x (63 - i).
Proof.
  intros Hi. unfold reverse64. cbv zeta. rewrite swrap_bits by lia. rewrite Z.min_l by lia.
  assert (D : exists k j, 0 <= j < 32 /\ i = 32 * Z.of_nat k + j /\ (k < 2)%nat).
  { exists (Z.to_nat (i / 32)), (i mod 32). pose proof (Z.div_mod i 32 ltac:(lia)). pose proof (Z.mod_pos_bound i 32 ltac:(lia)).
    assert (0 <= i / 32 < 2) by (split; [apply Z.div_pos|apply Z.div_lt_upper_bound]; lia). rewrite Z2Nat.id by lia. lia. }
  destruct D as (k & j & Hj & -> & Hk).
  rewrite unraw32_bit; [|repeat constructor; apply u32_reverse_range|exact Hj].
  assert (C : k = 0%nat \/ k = 1%nat) by lia.
  assert (G : forall m, 0 <= m <= 1 -> Z.testbit (u32_reverse (raw32 (uwrap 64 x) m)) j = Z.testbit x (32 * m + (31 - j))).
  { intros m Hm. rewrite u32_reverse_bit; [|unfold raw32; apply uwrap_range; lia|exact Hj]. rewrite raw32_bit by lia. unfold uwrap.
    rewrite mod_pow2_bits by lia. replace (32 * m + (31 - j) <? 64) with true by (symmetry; apply Z.ltb_lt; lia). reflexivity. }
  destruct C as [-> | ->]; cbn [nth]; rewrite G by lia; f_equal; lia.
Qed.
Lemma reverse128_bit x v i : stands x v -> 0 <= i < 128 -> Z.testbit (view (reverse128 x)) i = Z.testbit v (127 - i).
Proof.
  intros Hx Hi. unfold reverse128. rewrite (stands_view _ _ Hx). cbv zeta.
  rewrite (stands_view _ (swrap 128 _) (store_stands _ (swrap_range 128 _ ltac:(lia)))).
  rewrite swrap_bits by lia. rewrite Z.min_l by lia.
  assert (D : exists k j, 0 <= j < 32 /\ i = 32 * Z.of_nat k + j /\ (k < 4)%nat).
  { exists (Z.to_nat (i / 32)), (i mod 32). pose proof (Z.div_mod i 32 ltac:(lia)). pose proof (Z.mod_pos_bound i 32 ltac:(lia)).
    assert (0 <= i / 32 < 4) by (split; [apply Z.div_pos|apply Z.div_lt_upper_bound]; lia). rewrite Z2Nat.id by lia. lia. }
  destruct D as (k & j & Hj & -> & Hk).
  rewrite unraw32_bit; [|repeat constructor; apply u32_reverse_range|exact Hj].
  assert (C : k = 0%nat \/ k = 1%nat \/ k = 2%nat \/ k = 3%nat) by lia.
  assert (G : forall m, 0 <= m <= 3 -> Z.testbit (u32_reverse (raw32 (uwrap 128 v) m)) j = Z.testbit v (32 * m + (31 - j))).
  { intros m Hm. rewrite u32_reverse_bit; [|unfold raw32; apply uwrap_range; lia|exact Hj]. rewrite raw32_bit by lia. unfold uwrap.
    rewrite mod_pow2_bits by lia. replace (32 * m + (31 - j) <? 128) with true by (symmetry; apply Z.ltb_lt; lia). reflexivity. }
  destruct C as [-> | [-> | [-> | ->]]]; cbn [nth]; rewrite G by lia; f_equal; lia.
Qed.

(** ** Gathering *)

Lemma gather_loop_bit fuel bits stride v : 0 < stride -> forall d i ans, 0 <= d -> 0 <= i -> bits - d <= Z.of_nat fuel ->
  (forall j, i <= j -> Z.testbit ans j = false) -> forall j, 0 <= j ->
  Z.testbit (gather_loop fuel bits stride d i v ans) j =
  if j <? i then Z.testbit ans j else (d + (j - i) * stride <? bits) && Z.testbit v (d + (j - i) * stride).
Proof.
  intros Hs. induction fuel as [|fuel IH]; intros d i ans Hd Hi Hf Ha j Hj; cbn [gather_loop].
  - destruct (Z.ltb_spec j i); [reflexivity|]. rewrite Ha by lia.
    replace (d + (j - i) * stride <? bits) with false; [reflexivity|]. symmetry. apply Z.ltb_ge. nia.
  - destruct (Z.ltb_spec d bits) as [L|L].
    + rewrite IH; [|lia|lia|lia| |exact Hj].
      * destruct (Z.ltb_spec j (i + 1)), (Z.ltb_spec j i); try lia.
        -- destruct (Z.testbit v d); [|reflexivity]. rewrite Z.lor_spec, Z.shiftl_1_l, Z.pow2_bits_false by lia. apply orb_false_r.
        -- replace j with i by lia. rewrite Z.sub_diag, Z.mul_0_l, Z.add_0_r.
           replace (d <? bits) with true by (symmetry; apply Z.ltb_lt; lia). cbn [andb].
           destruct (Z.testbit v d); [|apply Ha; lia]. rewrite Z.lor_spec, Z.shiftl_1_l, Z.pow2_bits_true by lia. apply orb_true_r.
        -- replace (d + stride + (j - (i + 1)) * stride) with (d + (j - i) * stride) by ring. reflexivity.
      * intros k Hk. destruct (Z.testbit v d); [|apply Ha; lia].
        rewrite Z.lor_spec, Z.shiftl_1_l, Z.pow2_bits_false by lia. rewrite Ha by lia. reflexivity.
    + destruct (Z.ltb_spec j i); [reflexivity|]. rewrite Ha by lia.
      replace (d + (j - i) * stride <? bits) with false; [reflexivity|]. symmetry. apply Z.ltb_ge. nia.
Qed.
Lemma gather_packed w start stride x : 0 < w -> 0 <= start -> 0 < stride ->
  packed w start stride x (swrap w (gather_loop (Z.to_nat w) w stride start 0 (uwrap w x) 0)).
Proof.
  intros Hw Hs Ht. split; [apply swrap_range; exact Hw|]. intros j Hj. rewrite swrap_bits by lia. rewrite Z.min_l by lia.
  rewrite gather_loop_bit; [|exact Ht|lia|lia|rewrite Z2Nat.id; lia|intros; apply Z.bits_0|lia].
  destruct (Z.ltb_spec j 0); [lia|]. rewrite Z.sub_0_r. destruct (Z.ltb_spec (start + j * stride) w); [|reflexivity]. cbn [andb].
  unfold uwrap. rewrite mod_pow2_bits by nia. replace (start + j * stride <? w) with true by (symmetry; apply Z.ltb_lt; lia). reflexivity.
Qed.
Lemma packed_unique w start stride x r r' : 0 < w -> packed w start stride x r -> packed w start stride x r' -> r = r'.
Proof.
  intros Hw [A B] [A' B']. apply (in_s_eqm_eq w); [exact Hw|exact A|exact A'|]. apply bits_eqm; [lia|].
  intros i Hi. rewrite B, B' by exact Hi. reflexivity.
Qed.
Lemma packed_ext w start stride x y r : 0 <= start -> 0 < stride -> (forall i, 0 <= i < w -> Z.testbit x i = Z.testbit y i) ->
  packed w start stride x r -> packed w start stride y r.
Proof.
  intros Hs Ht E [A B]. split; [exact A|]. intros j Hj. rewrite B by exact Hj.
  destruct (Z.ltb_spec (start + j * stride) w); [|reflexivity]. rewrite E by nia. reflexivity.
Qed.
Lemma gather128_loop_bit fuel stride : 0 < stride -> forall v d i ans, 0 <= v < 2 ^ (128 - d) -> d <= 128 -> 0 <= d -> 0 <= i -> 128 - d <= Z.of_nat fuel ->
  (forall j, i <= j -> Z.testbit ans j = false) -> forall j, 0 <= j ->
  Z.testbit (gather128_loop fuel stride d i v ans) j =
  if j <? i then Z.testbit ans j else Z.testbit v ((j - i) * stride).
Proof.
  intros Hs. induction fuel as [|fuel IH]; intros v d i ans Hv Hd1 Hd Hi Hf Ha j Hj; cbn [gather128_loop].
  - destruct (Z.ltb_spec j i); [reflexivity|]. rewrite Ha by lia. replace (128 - d) with 0 in Hv by lia.
    replace v with 0 by lia. rewrite Z.bits_0. reflexivity.
  - destruct (Z.ltb_spec 0 v) as [L|L]; cbn [andb].
    2:{ replace v with 0 by lia. rewrite Z.bits_0. destruct (Z.ltb_spec j i); [reflexivity|apply Ha; lia]. }
    destruct (Z.ltb_spec d 128) as [M|M].
    2:{ replace (128 - d) with 0 in Hv by lia. lia. }
    assert (Hd' : d + stride <= 128 \/ 128 < d + stride) by lia.
    assert (Ha' : forall j, i + 1 <= j -> Z.testbit (if Z.odd v then Z.lor ans (Z.shiftl 1 i) else ans) j = false).
    { intros k Hk. destruct (Z.odd v); [|apply Ha; lia]. rewrite Z.lor_spec, Z.shiftl_1_l, Z.pow2_bits_false by lia. rewrite Ha by lia. reflexivity. }
    assert (Hb : forall k, 0 <= k -> Z.testbit (Z.shiftr v stride) (k * stride) = Z.testbit v ((k + 1) * stride)).
    { intros k Hk. rewrite Z.shiftr_spec by nia. f_equal. ring. }
    assert (Hend : forall j, 0 <= j -> (if j <? i + 1 then Z.testbit (if Z.odd v then Z.lor ans (Z.shiftl 1 i) else ans) j
                                        else Z.testbit (Z.shiftr v stride) ((j - (i + 1)) * stride)) =
                    (if j <? i then Z.testbit ans j else Z.testbit v ((j - i) * stride))).
    { intros k Hk. destruct (Z.ltb_spec k (i + 1)), (Z.ltb_spec k i); try lia.
      - destruct (Z.odd v); [|reflexivity]. rewrite Z.lor_spec, Z.shiftl_1_l, Z.pow2_bits_false by lia. apply orb_false_r.
      - replace k with i by lia. rewrite Z.sub_diag, Z.mul_0_l, Z.bit0_odd.
        destruct (Z.odd v); [|apply Ha; lia]. rewrite Z.lor_spec, Z.shiftl_1_l, Z.pow2_bits_true by lia. apply orb_true_r.
      - rewrite Hb by lia. f_equal. ring. }
    destruct Hd' as [Hd'|Hd'].
    + rewrite IH; [apply Hend; exact Hj| |lia|lia|lia|lia|exact Ha'|exact Hj].
      rewrite Z.shiftr_div_pow2 by lia. split; [apply Z.div_pos; [lia|apply pow2_pos; lia]|].
      apply Z.div_lt_upper_bound; [apply pow2_pos; lia|]. rewrite <- pow2_split by lia. replace (stride + (128 - (d + stride))) with (128 - d) by lia. lia.
    + assert (Z0 : Z.shiftr v stride = 0).
      { rewrite Z.shiftr_div_pow2 by lia. apply Z.div_small. split; [lia|]. apply Z.lt_le_trans with (1 := proj2 Hv). apply Z.pow_le_mono_r; lia. }
      specialize (Hend j Hj). rewrite Z0 in *. rewrite Z.bits_0 in Hend.
      transitivity (Z.testbit (if Z.odd v then Z.lor ans (Z.shiftl 1 i) else ans) j).
      * destruct fuel; reflexivity.
      * rewrite <- Hend. destruct (Z.ltb_spec j (i + 1)); [reflexivity|apply Ha'; lia].
Qed.
Lemma gather128_packed x v start stride : stands x v -> 0 <= start < 128 -> 0 < stride ->
  exists r, stands (bit_gather128 start stride x) r /\ packed 128 start stride v r.
Proof.
  intros Hx Hs Ht. unfold bit_gather128. rewrite (stands_view _ _ Hx). eexists. split; [apply store_stands, swrap_range; lia|].
  split; [apply swrap_range; lia|]. intros j Hj. rewrite swrap_bits by lia. rewrite Z.min_l by lia.
  pose proof (uwrap_range 128 v ltac:(lia)) as U.
  rewrite gather128_loop_bit; [|exact Ht| |lia|lia|lia|lia|intros; apply Z.bits_0|lia].
  2:{ rewrite Z.shiftr_div_pow2 by lia. split; [apply Z.div_pos; [lia|apply pow2_pos; lia]|].
      apply Z.div_lt_upper_bound; [apply pow2_pos; lia|]. rewrite <- pow2_split by lia. replace (start + (128 - start)) with 128 by lia. lia. }
  destruct (Z.ltb_spec j 0); [lia|]. rewrite Z.sub_0_r. rewrite Z.shiftr_spec by nia. unfold uwrap.
  rewrite mod_pow2_bits by nia. rewrite (Z.add_comm (j * stride)). reflexivity.
Qed.

(** ** Indices *)

Lemma xor_loop_ok fuel : forall d v ans, 0 <= v < 2 ^ Z.of_nat fuel -> 0 <= d ->
  xor_loop fuel d v ans = Z.lxor ans (xor_all (map (Z.add d) (set_positions fuel v))).
Proof.
  induction fuel as [|fuel IH]; intros d v ans Hv Hd; cbn [xor_loop].
  - cbn. rewrite Z.lxor_0_r. reflexivity.
  - rewrite Nat2Z.inj_succ, Z.pow_succ_r in Hv by lia. unfold set_positions. cbn [seq map filter]. rewrite Z.bit0_odd.
    assert (Hsh : filter (Z.testbit v) (map Z.of_nat (seq 1 fuel)) = map (Z.add 1) (set_positions fuel (Z.shiftr v 1))).
    { unfold set_positions. rewrite <- seq_shift, map_map. induction (seq 0 fuel) as [|k l IHl]; [reflexivity|].
      cbn [map filter]. rewrite IHl. rewrite Z.shiftr_spec by lia. rewrite Nat2Z.inj_succ.
      replace (Z.of_nat k + 1) with (Z.succ (Z.of_nat k)) by lia. destruct (Z.testbit v (Z.succ (Z.of_nat k))); [|reflexivity].
      cbn [map]. f_equal. lia. }
    rewrite Hsh.
    assert (Hv' : 0 <= Z.shiftr v 1 < 2 ^ Z.of_nat fuel).
    { rewrite Z.shiftr_div_pow2 by lia. change (2 ^ 1) with 2. split; [apply Z.div_pos; lia|apply Z.div_lt_upper_bound; lia]. }
    assert (Hm : forall l, map (Z.add d) (map (Z.add 1) l) = map (Z.add (d + 1)) l).
    { intros l. rewrite map_map. apply map_ext. intros a. lia. }
    destruct (Z.ltb_spec 0 v) as [L|L].
    + rewrite IH by lia. destruct (Z.odd v); cbn [map]; rewrite Hm; [|reflexivity]. rewrite Z.add_0_r.
      unfold xor_all at 2. cbn [fold_right]. rewrite Z.lxor_assoc. reflexivity.
    + replace v with 0 by lia. cbn [Z.odd]. rewrite Hm. replace (set_positions fuel (Z.shiftr 0 1)) with (@nil Z).
      2:{ unfold set_positions. induction (map Z.of_nat (seq 0 fuel)) as [|k l IHl]; [reflexivity|]. cbn [filter]. rewrite Z.shiftr_0_l, Z.bits_0. exact IHl. }
      cbn. rewrite Z.lxor_0_r. reflexivity.
Qed.
Lemma set_positions_ext n x y : (forall i, 0 <= i < Z.of_nat n -> Z.testbit x i = Z.testbit y i) -> set_positions n x = set_positions n y.
Proof.
  intros E. unfold set_positions. apply filter_ext_in. intros a Ha. apply in_map_iff in Ha. destruct Ha as (k & <- & Hk).
  apply in_seq in Hk. apply E. lia.
Qed.
Lemma lxor_lt_pow2 a b k : 0 <= k -> 0 <= a < 2 ^ k -> 0 <= b < 2 ^ k -> 0 <= Z.lxor a b < 2 ^ k.
Proof.
  intros Hk Ha Hb. assert (E : Z.lxor a b = (Z.lxor a b) mod 2 ^ k); [|rewrite E; apply Z.mod_pos_bound, pow2_pos; lia].
  apply Z.bits_inj'. intros i Hi. rewrite mod_pow2_bits by lia. destruct (Z.ltb_spec i k); [reflexivity|].
  rewrite <- (Z.mod_small a (2 ^ k) Ha), <- (Z.mod_small b (2 ^ k) Hb). rewrite Z.lxor_spec, !mod_pow2_bits by lia.
  replace (i <? k) with false by (symmetry; apply Z.ltb_ge; lia). reflexivity.
Qed.
Lemma xor_all_range n x k : 0 <= k -> Z.of_nat n <= 2 ^ k -> 0 <= xor_all (set_positions n x) < 2 ^ k.
Proof.
  intros Hk Hn. unfold set_positions.
  assert (F : Forall (fun a => 0 <= a < 2 ^ k) (map Z.of_nat (seq 0 n))).
  { rewrite Forall_forall. intros a Ha. apply in_map_iff in Ha. destruct Ha as (j & <- & Hj). apply in_seq in Hj. lia. }
  induction F as [|a l Ha F IH]; cbn [filter].
  - unfold xor_all. cbn [fold_right]. pose proof (pow2_pos k Hk). lia.
  - destruct (Z.testbit x a); [|exact IH]. unfold xor_all. cbn [fold_right]. apply lxor_lt_pow2; [exact Hk|exact Ha|exact IH].
Qed.
Lemma xor_all_linear n x y : xor_all (set_positions n (Z.lxor x y)) = Z.lxor (xor_all (set_positions n x)) (xor_all (set_positions n y)).
Proof.
  unfold set_positions. induction (map Z.of_nat (seq 0 n)) as [|a l IH]; [reflexivity|].
  cbn [filter]. rewrite Z.lxor_spec.
  assert (C : forall p q r : Z, Z.lxor p (Z.lxor q r) = Z.lxor q (Z.lxor p r)).
  { intros p q r. rewrite <- !Z.lxor_assoc, (Z.lxor_comm p q). reflexivity. }
  destruct (Z.testbit x a), (Z.testbit y a); cbn [xorb]; unfold xor_all in *; cbn [fold_right]; rewrite IH.
  - rewrite Z.lxor_assoc, (C _ a), <- (Z.lxor_assoc a a), Z.lxor_nilpotent, Z.lxor_0_l. reflexivity.
  - rewrite Z.lxor_assoc. reflexivity.
  - apply C.
  - reflexivity.
Qed.
Lemma add0_map l : map (Z.add 0) l = l.
Proof. induction l as [|a l IH]; [reflexivity|]. cbn [map]. rewrite IH. reflexivity. Qed.
Lemma xor64_ok x : xor_indices64 x = xor_all (set_positions 64 x).
Proof.
  unfold xor_indices64. rewrite xor_loop_ok; [|apply uwrap_range; lia|lia]. rewrite Z.lxor_0_l, add0_map.
  rewrite (set_positions_ext 64 (uwrap 64 x) x).
  2:{ intros i Hi. unfold uwrap. rewrite mod_pow2_bits by lia. replace (i <? 64) with true by (symmetry; apply Z.ltb_lt; lia). reflexivity. }
  pose proof (xor_all_range 64 x 6 ltac:(lia) ltac:(vm_compute; discriminate)) as R. apply swrap_id; [lia|]. unfold in_s. lia.
Qed.
Lemma xor128_ok x v : stands x v -> stands (xor_indices128 x) (xor_all (set_positions 128 v)).
Proof.
  intros Hx. unfold xor_indices128. rewrite (stands_view _ _ Hx). rewrite xor_loop_ok; [|apply uwrap_range; lia|lia].
  rewrite Z.lxor_0_l, add0_map. rewrite (set_positions_ext 128 (uwrap 128 v) v).
  2:{ intros i Hi. unfold uwrap. rewrite mod_pow2_bits by lia. replace (i <? 128) with true by (symmetry; apply Z.ltb_lt; lia). reflexivity. }
  pose proof (xor_all_range 128 v 7 ltac:(lia) ltac:(vm_compute; discriminate)) as R.
  assert (I : in_s 128 (xor_all (set_positions 128 v))) by (unfold in_s; lia).
  rewrite (swrap_id 128 _ ltac:(lia) I). apply store_stands, I.
Qed.
