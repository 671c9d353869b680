(** Property theorems for int100.py. *)
From Verif Require Import Base Factory TensorModel TensorProofs CrtModel CrtProofs CrtFloat.

(** C12: residues determine the integer modulo the product, recombination inverts
    decomposition, and every vector of reduced residues is the decomposition of its
    recombination. *)
Theorem C12_crt_roundtrip : forall ms, crt_ok ms ->
  (forall v, crt_lagrange ms (crt_decompose ms v) = Some (v mod prodZ ms)) /\
  (forall a b, crt_decompose ms a = crt_decompose ms b <-> a mod prodZ ms = b mod prodZ ms) /\
  (forall x, crt_wf ms x -> exists v, 0 <= v < prodZ ms /\ crt_lagrange ms x = Some v /\ crt_decompose ms v = x).
Proof.
  intros ms Hok. split; [|split].
  - intros v. apply crt_lagrange_dec; exact Hok.
  - intros a b. apply crt_unique; exact Hok.
  - intros x W. destruct (crt_exists ms x Hok W) as (v & A & B & C). eauto.
Qed.
Print Assumptions C12_crt_roundtrip.
Theorem C12_int100_moduli_ok : crt_ok int100_moduli.
Proof. exact int100_ok. Qed.
Print Assumptions C12_int100_moduli_ok.
Example C12_nonvacuous : crt_decompose int100_moduli (-5) = [1196; 1428; 1212; 1232; 1316; 1098; 1124; 1362; 1088; 1034]
  /\ crt_lagrange int100_moduli [1196; 1428; 1212; 1232; 1316; 1098; 1124; 1362; 1088; 1034] = Some (prodZ int100_moduli - 5).
Proof. vm_compute. split; reflexivity. Qed.

(** C13: residue-wise add, sub, mul and negative are ring arithmetic modulo the product; in
    particular for the shipped moduli. *)
Theorem C13_crt_ring : forall ms, crt_ok ms -> lawful (crt_factory ms).
Proof. exact lawful_crt. Qed.
Print Assumptions C13_crt_ring.
Theorem C13_int100_ring : lawful (crt_factory int100_moduli).
Proof. exact (lawful_crt _ int100_ok). Qed.
Print Assumptions C13_int100_ring.
Example C13_nonvacuous :
  crt_lagrange int100_moduli (crt_mul int100_moduli (crt_decompose int100_moduli (- 123456789)) (crt_decompose int100_moduli 987654321))
  = Some (prodZ int100_moduli - 121932631112635269).
Proof. vm_compute. reflexivity. Qed.
(** C13, matrix products: each entry, for any inner dimension (including those that are split). *)
Theorem C13_matmul : forall ms vs us, crt_ok ms -> length vs = length us ->
  crt_dot ms (map (crt_decompose ms) vs) (map (crt_decompose ms) us) =
  crt_decompose ms (zsum (map (fun p => fst p * snd p) (combine vs us))).
Proof. exact crt_dot_dec. Qed.
Print Assumptions C13_matmul.
Example C13_matmul_nonvacuous :
  crt_dot int100_moduli (map (crt_decompose int100_moduli) (repeat (-1) 2100)) (map (crt_decompose int100_moduli) (repeat (-1) 2100))
  = crt_decompose int100_moduli 2100.
Proof. vm_compute. reflexivity. Qed.
(** C13, sums: exact while the int32 accumulator cannot overflow; past that they are wrong. *)
Theorem C13_reduce_sum : forall ms vs, crt_ok ms -> (forall m, In m ms -> Z.of_nat (length vs) * m < 2 ^ 31) ->
  crt_reduce_sum ms (map (crt_decompose ms) vs) = crt_decompose ms (zsum vs).
Proof. exact crt_reduce_sum_dec. Qed.
Print Assumptions C13_reduce_sum.
Example C13_reduce_sum_nonvacuous :
  crt_reduce_sum int100_moduli (map (crt_decompose int100_moduli) [-1; 5; 2 ^ 80]) = crt_decompose int100_moduli (4 + 2 ^ 80).
Proof. vm_compute. reflexivity. Qed.
Theorem C13_reduce_sum_unbounded_refuted : exists vs,
  crt_reduce_sum int100_moduli (map (crt_decompose int100_moduli) vs) <> crt_decompose int100_moduli (zsum vs).
Proof.
  exists (repeat (-1) (Z.to_nat (2 ^ 21))). rewrite zsum_repeat, Z2Nat.id by lia.
  intros E. apply (f_equal (fun l => nth 0 l 0)) in E. revert E.
  unfold crt_reduce_sum. cbn [int100_moduli length seq combine map nth fst snd].
  rewrite !map_repeat, zsum_repeat, Z2Nat.id by lia.
  vm_compute. discriminate.
Qed.
Print Assumptions C13_reduce_sum_unbounded_refuted.

(** C14: with reduced entries no prefix of the accumulation of a (possibly split) product of at
    most 1024 terms leaves int32; C13_matmul covers every inner dimension. *)
Theorem C14_no_overflow : forall ms m xs ys j, crt_ok ms -> In m ms ->
  (forall x, In x xs -> 0 <= x < m) -> (forall y, In y ys -> 0 <= y < m) ->
  Z.of_nat (length xs) <= MATMUL_THRESHOLD ->
  0 <= zsum (map (fun p => fst p * snd p) (combine (firstn j xs) (firstn j ys))) < 2 ^ 31.
Proof.
  intros ms m xs ys j Hok Hm Hx Hy HL. pose proof (crt_ok_each ms Hok) as F. rewrite Forall_forall in F.
  destruct (F m Hm). apply (acc_bound m); assumption.
Qed.
Print Assumptions C14_no_overflow.
(** C14: splitting is transparent: the split product equals the integer inner product modulo
    the ring for every inner dimension, while the unsplit product would already be wrong at 1100. *)
Theorem C14_split_transparent : forall ms vs us, crt_ok ms -> length vs = length us ->
  crt_lagrange ms (crt_dot ms (map (crt_decompose ms) vs) (map (crt_decompose ms) us)) =
  Some (zsum (map (fun p => fst p * snd p) (combine vs us)) mod prodZ ms).
Proof. intros ms vs us Hok HL. rewrite crt_dot_dec by assumption. apply crt_lagrange_dec; exact Hok. Qed.
Print Assumptions C14_split_transparent.
Example C14_nonvacuous :
  crt_dot_direct int100_moduli (map (crt_decompose int100_moduli) (repeat (-1) 1100)) (map (crt_decompose int100_moduli) (repeat (-1) 1100))
    <> crt_decompose int100_moduli 1100 /\
  crt_dot int100_moduli (map (crt_decompose int100_moduli) (repeat (-1) 1100)) (map (crt_decompose int100_moduli) (repeat (-1) 1100))
    = crt_decompose int100_moduli 1100.
Proof. split; vm_compute; [discriminate|reflexivity]. Qed.

(** The head-room that keeps the float32 quotient estimate exact: values within
    M/2 - M/2^17 - 1 of zero. *)
Definition int100_safe (v : Z) : Prop :=
  2 * Z.abs v < prodZ int100_moduli - 2 * (prodZ int100_moduli / 2 ^ 17 + 1).

(** C15: reduction modulo k acts on the signed representative, for every k = 2^s, s <= 31 and
    every k up to 176892, for every float32 summation order. *)
Theorem C15_mod : forall est v k, is_estimate32 int100_moduli est -> int100_safe v ->
  (0 < k <= 176892 \/ exists s, 0 <= s <= 31 /\ k = 2 ^ s) ->
  crt_mod est int100_moduli (crt_decompose int100_moduli v) k = Some (v mod k).
Proof.
  intros est v k He Hv Hk. apply (crt_mod_ok (prodZ int100_moduli / 2 ^ 17 + 1)).
  - exact int100_ok.
  - apply est32_ok; [exact int100_ok|cbn; lia|exact He].
  - vm_compute. discriminate.
  - exact Hv.
  - split; [destruct Hk as [|(s & H & ->)]; [lia|apply pow2_pos; lia]|].
    destruct Hk as [Hk|Hk]; [left|right; exact Hk]. change (zsum int100_moduli) with 12140. lia.
Qed.
Print Assumptions C15_mod.
Theorem C15_to_native : forall est v, is_estimate32 int100_moduli est -> int100_safe v ->
  crt_to_native est int100_moduli (crt_decompose int100_moduli v) = Some (swrap 32 v).
Proof.
  intros est v He Hv. apply (crt_to_native_spec (prodZ int100_moduli / 2 ^ 17 + 1)).
  - exact int100_ok.
  - apply est32_ok; [exact int100_ok|cbn; lia|exact He].
  - exact Hv.
Qed.
Print Assumptions C15_to_native.
Theorem C15_bits : forall est positive v, is_estimate32 int100_moduli est -> int100_safe v ->
  crt_bits est int100_moduli positive (crt_decompose int100_moduli v) =
  Some (map (fun i => Z.b2z (Z.testbit (if positive then v mod prodZ int100_moduli else v) (Z.of_nat i))) (seq 0 103)).
Proof.
  intros est positive v He Hv. rewrite (crt_bits_spec (prodZ int100_moduli / 2 ^ 17 + 1)).
  - f_equal. change (Z.to_nat (crt_bitsize int100_moduli)) with 103%nat.
    unfold binarize. apply map_ext. intros i. rewrite land1_mod, <- Z.bit0_mod, Z.shiftr_spec by lia.
    reflexivity.
  - exact int100_ok.
  - apply est32_ok; [exact int100_ok|cbn; lia|exact He].
  - vm_compute; discriminate.
  - vm_compute; reflexivity.
  - vm_compute; reflexivity.
  - vm_compute; discriminate.
  - exact Hv.
Qed.
Print Assumptions C15_bits.
(** Quotient estimates meeting the hypothesis exist, and the safe range contains, e.g., every
    |v| <= 2^101, so the three theorems apply to every fixed100 intermediate. *)
Example C15_nonvacuous : is_estimate32 int100_moduli (est32_seq int100_moduli) /\ int100_safe (- 2 ^ 101) /\ int100_safe (2 ^ 101)
  /\ bound_double fixed100 * 1024 * 2 ^ 40 <= 2 ^ 101.
Proof. split; [apply est32_exists; discriminate|]. vm_compute. repeat split; congruence. Qed.
(** C15: beyond those k the int32 accumulator wraps and the reduction is wrong. *)
Theorem C15_mod_large_k_refuted : forall est, is_estimate32 int100_moduli est ->
  crt_mod est int100_moduli (crt_decompose int100_moduli 295) (3 ^ 12) = Some 139161 /\ 295 mod 3 ^ 12 = 295.
Proof.
  intros est He. split; [|reflexivity].
  pose proof (est_exact (prodZ int100_moduli / 2 ^ 17 + 1) int100_moduli est 295 int100_ok
    ltac:(apply est32_ok; [exact int100_ok|cbn; lia|exact He]) ltac:(vm_compute; reflexivity)) as E.
  cbv zeta in E. unfold crt_mod. rewrite (crt_q_eq _ int100_ok). cbv zeta.
  set (t := crt_t _ _ _) in *.
  assert (Et : est t = (crt_num int100_moduli t - 295) / prodZ int100_moduli).
  { assert (P : 0 < prodZ int100_moduli) by reflexivity.
    replace (crt_num int100_moduli t - 295) with (est t * prodZ int100_moduli) by lia.
    symmetry. apply Z.div_mul. lia. }
  rewrite Et. vm_compute. reflexivity.
Qed.
Print Assumptions C15_mod_large_k_refuted.

(** C16 *)
Theorem C16_equality : forall ms a b, crt_ok ms ->
  crt_equal ms (crt_decompose ms a) (crt_decompose ms b) = (if a mod prodZ ms =? b mod prodZ ms then 1 else 0) /\
  crt_equal_zero ms (crt_decompose ms a) = (if a mod prodZ ms =? 0 then 1 else 0).
Proof. exact (fun ms a b H => conj (crt_equal_spec ms a b H) (crt_equal_zero_spec ms a H)). Qed.
Print Assumptions C16_equality.
Example C16_nonvacuous :
  crt_equal int100_moduli (crt_decompose int100_moduli (-3)) (crt_decompose int100_moduli (prodZ int100_moduli - 3)) = 1 /\
  crt_equal int100_moduli (crt_decompose int100_moduli 1201) (crt_decompose int100_moduli 0) = 0.
Proof. vm_compute. split; reflexivity. Qed.

(** C17: truncation is floor division of the signed value. *)
Theorem C17_truncate : forall est v amount base, is_estimate32 int100_moduli est -> int100_safe v ->
  0 < base -> 0 <= amount -> Z.gcd (base ^ amount) (prodZ int100_moduli) = 1 ->
  (base ^ amount <= 176892 \/ exists s, 0 <= s <= 31 /\ base ^ amount = 2 ^ s) ->
  crt_truncate est int100_moduli (crt_decompose int100_moduli v) amount base =
  Some (crt_decompose int100_moduli (v / base ^ amount)).
Proof.
  intros est v amount base He Hv Hb Ha Hg Hk.
  assert (Hf : 0 < base ^ amount) by (apply Z.pow_pos_nonneg; lia).
  apply (crt_truncate_spec (prodZ int100_moduli / 2 ^ 17 + 1)); try assumption.
  - exact int100_ok.
  - apply est32_ok; [exact int100_ok|cbn; lia|exact He].
  - vm_compute. discriminate.
  - split; [exact Hf|]. destruct Hk as [Hk|Hk]; [left|right; exact Hk].
    change (zsum int100_moduli) with 12140. lia.
Qed.
Print Assumptions C17_truncate.
(** The truncation used by fixed100 (2^16) meets every hypothesis. *)
Example C17_nonvacuous : Z.gcd (2 ^ 16) (prodZ int100_moduli) = 1 /\ 2 ^ 16 <= 176892 /\ int100_safe (- 2 ^ 90)
  /\ is_estimate32 int100_moduli (est32_seq int100_moduli).
Proof.
  split; [vm_compute; reflexivity|]. split; [vm_compute; congruence|]. split; [vm_compute; reflexivity|].
  apply est32_exists; discriminate.
Qed.
(** C17: for base 3 and amount 12 truncation is wrong although everything else holds. *)
Theorem C17_truncate_large_refuted : forall est, is_estimate32 int100_moduli est ->
  exists v, int100_safe v /\ Z.gcd (3 ^ 12) (prodZ int100_moduli) = 1 /\
  crt_truncate est int100_moduli (crt_decompose int100_moduli v) 12 3 <> Some (crt_decompose int100_moduli (v / 3 ^ 12)).
Proof.
  intros est He. exists 295. split; [vm_compute; reflexivity|]. split; [vm_compute; reflexivity|].
  unfold crt_truncate, crt_tmod. rewrite (proj1 (C15_mod_large_k_refuted est He)).
  vm_compute. discriminate.
Qed.
Print Assumptions C17_truncate_large_refuted.

(** C18, int100: [k - x] evaluates to [x - k] (compare C18_native_rsub). *)
Theorem C18_int100_rsub_refuted : exists k x, crt_wf int100_moduli x /\
  forall r, crt_op_rsub int100_moduli x (OpI k) = Some r ->
  crt_lagrange int100_moduli r <>
  Some ((k - match crt_lagrange int100_moduli x with Some v => v | None => 0 end) mod prodZ int100_moduli).
Proof.
  exists 10, (crt_decompose int100_moduli 3). split.
  - apply crt_dec_wf. apply int100_ok.
  - intros r E. injection E as <-. vm_compute. discriminate.
Qed.
Print Assumptions C18_int100_rsub_refuted.
(** C18, int100: what is computed instead, for every operand. *)
Theorem C18_int100_rsub_is_sub : forall ms k v, crt_ok ms ->
  crt_op_rsub ms (crt_decompose ms v) (OpI k) = Some (crt_decompose ms (v - k)) /\
  crt_op_sub ms (crt_decompose ms v) (OpI k) = Some (crt_decompose ms (v - k)).
Proof.
  intros ms k v Hok. unfold crt_op_rsub, crt_op_sub. cbn [crt_lift]. rewrite crt_sub_dec by exact Hok. auto.
Qed.
Print Assumptions C18_int100_rsub_is_sub.

(** C19: seeded sampling never returns a value whose residue modulo 1201 is 1100, whatever the
    generator does within its bounds; the unseeded sampler reaches every element. *)
Theorem C19_seeded_sampling_refuted : exists v, 0 <= v < prodZ int100_moduli /\
  forall draw, (forall i maxval, 0 < maxval -> 0 <= draw i maxval < maxval) ->
  crt_sample_seeded int100_moduli draw <> crt_decompose int100_moduli v.
Proof.
  exists 1100. split; [vm_compute; split; congruence|]. intros draw H E.
  pose proof (sample_seeded_residue int100_moduli draw 0 ltac:(cbn; lia)) as R. rewrite E in R.
  specialize (H 0%nat (last int100_moduli 0) ltac:(vm_compute; reflexivity)). rewrite <- R in H.
  vm_compute in H. destruct H as [_ H]. discriminate.
Qed.
Print Assumptions C19_seeded_sampling_refuted.
Theorem C19_unseeded_sampling_onto : forall ms v, crt_ok ms ->
  exists draw, (forall i maxval, 0 < maxval -> 0 <= draw i maxval < maxval) /\
  crt_sample_uniform ms draw = crt_decompose ms v.
Proof. intros ms v Hok. apply sample_uniform_onto, crt_dec_wf, Hok. Qed.
Print Assumptions C19_unseeded_sampling_onto.

(** C71: sample_bounded: the chunk draws (each below 2^size) correspond one to one to the
    integers below 2^bitlength, so independent uniform chunks give a uniform value. *)
Theorem C71_sample_bounded_bijection : forall ms bitlength, crt_ok ms -> 0 <= bitlength -> 2 ^ bitlength <= prodZ ms ->
  let sizes := chunk_sizes 30 bitlength in
  let ok values := Forall2 (fun s x => 0 <= x < 2 ^ s) sizes values in
  (forall values, ok values -> exists z, 0 <= z < 2 ^ bitlength /\ crt_from_chunks ms sizes values = crt_decompose ms z) /\
  (forall z, 0 <= z < 2 ^ bitlength -> exists values, ok values /\ crt_from_chunks ms sizes values = crt_decompose ms z) /\
  (forall v1 v2, ok v1 -> ok v2 -> crt_from_chunks ms sizes v1 = crt_from_chunks ms sizes v2 -> v1 = v2).
Proof.
  intros ms B Hok HB HM sizes ok.
  assert (Hs : forall s, In s sizes -> 0 <= s) by (intros s H; apply chunk_sizes_range in H; lia).
  assert (Hsum : zsum sizes = B) by (apply chunk_sizes_sum; lia).
  assert (HR : forall v, ok v -> 0 <= horner sizes v < 2 ^ B).
  { intros v Hv. pose proof (horner_range sizes v 0 0 Hs Hv ltac:(cbn; lia) ltac:(lia)) as H. rewrite Hsum in H. exact H. }
  split; [|split].
  - intros v Hv. exists (horner sizes v). split; [apply HR; exact Hv|apply crt_from_chunks_dec; exact Hok].
  - intros z Hz. destruct (horner_surj sizes Hs 0 z ltac:(rewrite Hsum; lia)) as (v & V1 & V2).
    exists v. split; [exact V1|]. rewrite crt_from_chunks_dec by exact Hok. unfold horner. rewrite V2. reflexivity.
  - intros v1 v2 H1 H2 E. rewrite !crt_from_chunks_dec in E by exact Hok. apply crt_unique in E; [|exact Hok].
    pose proof (HR v1 H1). pose proof (HR v2 H2). apply eqm_small in E; [|lia|lia].
    apply (horner_inj sizes Hs v1 v2 0 0 H1 H2) in E. tauto.
Qed.
Print Assumptions C71_sample_bounded_bijection.
Example C71_nonvacuous : chunk_sizes 30 87 = [30; 30; 27] /\
  crt_from_chunks int100_moduli [30; 30; 27] [1; 2; 3] = crt_decompose int100_moduli (2 ^ 57 + 2 * 2 ^ 27 + 3).
Proof. vm_compute. split; reflexivity. Qed.

(** C03: for every shipped configuration, (a) any sum of at most matmul_threshold raw products
    within the double-precision bound stays strictly inside half of the ring; (b) for the
    configurations that truncate interactively, the masked value of the interactive truncation
    (value shifted by the double-precision bound plus the largest mask) stays below the modulus. *)
Lemma zsum_abs_bound B l : (forall x, In x l -> Z.abs x <= B) -> Z.abs (zsum l) <= Z.of_nat (length l) * B.
Proof.
  induction l as [|a l IH]; intros H; cbn [zsum fold_right length]; [lia|].
  change (fold_right Z.add 0) with zsum. specialize (IH ltac:(intros; apply H; now right)).
  pose proof (H a (or_introl eq_refl)). lia.
Qed.
Theorem C03_headroom : forall c M ps, In (c, M) shipped_configs ->
  (forall p, In p ps -> Z.abs p <= bound_double c) -> Z.of_nat (length ps) <= matmul_threshold c ->
  2 * Z.abs (zsum ps) < M.
Proof.
  intros c M ps Hc Hp HL. pose proof (zsum_abs_bound _ _ Hp) as H.
  assert (Hb : 0 <= bound_double c /\ 2 * (matmul_threshold c * bound_double c) < M).
  { unfold shipped_configs in Hc.
    repeat (apply in_inv in Hc; destruct Hc as [E|Hc]; [apply pair_equal_spec in E; destruct E as [<- <-]; vm_compute; split; congruence|]). destruct Hc. }
  nia.
Qed.
Print Assumptions C03_headroom.
Theorem C03_mask_headroom : forall c M x r, In (c, M) shipped_configs ->
  Z.abs x <= bound_double c -> 0 <= r < 2 ^ trunc_mask_bits c ->
  0 <= x + bound_double c + r < M.
Proof.
  intros c M x r Hc Hx Hr.
  assert (Hb : 2 * bound_double c + 2 ^ trunc_mask_bits c < M).
  { unfold shipped_configs in Hc.
    repeat (apply in_inv in Hc; destruct Hc as [E|Hc]; [apply pair_equal_spec in E; destruct E as [<- <-]; vm_compute; congruence|]). destruct Hc. }
  lia.
Qed.
Print Assumptions C03_mask_headroom.
Example C03_nonvacuous : In (fixed64, 2 ^ 64) shipped_configs /\ bound_double fixed64 = 3 ^ 23 /\
  trunc_mask_bits fixed64 = 58 /\ Z.abs (zsum (repeat (- 3 ^ 23) 256)) = 256 * 3 ^ 23.
Proof. vm_compute. repeat split; auto. Qed.
(** C03: the library's own validation accepts all shipped configurations except the 128-bit one,
    and accepts configurations whose truncation mask does not fit the ring. *)
Theorem C03_validation : (forall c M, In (c, M) shipped_configs -> validate_config c M = negb (nbits c =? 128)).
Proof.
  intros c M Hc. unfold shipped_configs in Hc.
    repeat (apply in_inv in Hc; destruct Hc as [E|Hc]; [apply pair_equal_spec in E; destruct E as [<- <-]; vm_compute; reflexivity|]). destruct Hc.
Qed.
Print Assumptions C03_validation.
Theorem C03_validation_sufficient_refuted : exists c, nbits c = 64 /\ validate_config c (2 ^ 64) = true /\
  exists x r, Z.abs x <= bound_double c /\ 0 <= r < 2 ^ trunc_mask_bits c /\ 2 ^ 64 <= x + bound_double c + r.
Proof.
  exists (MkFp 2 64 7 8 256 40 false). split; [reflexivity|]. split; [vm_compute; reflexivity|].
  exists (2 ^ 23), (2 ^ 64 - 1). vm_compute. repeat split; congruence.
Qed.
Print Assumptions C03_validation_sufficient_refuted.
