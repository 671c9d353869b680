(** Properties C09, C10, C11 and C73: sampling. *)
From Verif Require Import Base RandModel RandSpec RandProofs RandSeed.

(** *** C09 *)

(** Every value of the interval has the same number of raw words, namely
    [2^w / size]; values outside have none. *)
Theorem C09_uniform :
  forall w low high v,
    2 <= w -> in_s w low -> in_s w high -> low <= high -> high - low + 1 < 2 ^ w ->
    how_many w (turns_into w low high v) =
    (if (low <=? v) && (v <=? high) then 2 ^ w / (high - low + 1) else 0).
Proof.
  intros w low high v Hw Hl Hh Hle Hr.
  erewrite how_many_ext by (intros x; apply turns_into_eq; assumption).
  destruct ((low <=? v) && (v <=? high)) eqn:E.
  - apply andb_prop in E. destruct E as [E1 E2]. apply Z.leb_le in E1, E2.
    apply count_residue; lia.
  - apply how_many_none. intros x.
    pose proof (Z.mod_pos_bound (uwrap w x) (high - low + 1)).
    destruct (Z.eqb_spec (uwrap w x mod (high - low + 1)) (v - low)) as [E'|E'];
      [|apply andb_false_r].
    exfalso. apply andb_false_iff in E. rewrite !Z.leb_gt in E. lia.
Qed.
Print Assumptions C09_uniform.

(** int8, interval [-3, 96]: 2 of the 256 words for every value, 56 rejected. *)
Example C09_uniform_ex :
  how_many 8 (turns_into 8 (-3) 96 17) = 2 /\
  how_many 8 (turns_into 8 (-3) 96 97) = 0 /\
  how_many 8 (asks_again 8 (-3) 96) = 56.
Proof. vm_compute. repeat split. Qed.

(** The sampler asks again for fewer than half of the words. *)
Theorem C09_rejections :
  forall w low high,
    2 <= w -> in_s w low -> in_s w high -> low <= high -> high - low + 1 < 2 ^ w ->
    how_many w (asks_again w low high) = 2 ^ w mod (high - low + 1) /\
    2 * how_many w (asks_again w low high) < 2 ^ w.
Proof.
  intros w low high Hw Hl Hh Hle Hr.
  assert (E : how_many w (asks_again w low high) = 2 ^ w mod (high - low + 1)).
  { erewrite how_many_ext by (intros x; apply asks_again_eq; assumption).
    apply count_reject; lia. }
  split; [exact E|]. rewrite E. set (r := high - low + 1) in *.
  pose proof (Z.div_mod (2 ^ w) r). pose proof (Z.mod_pos_bound (2 ^ w) r).
  assert (1 <= 2 ^ w / r) by (apply Z.div_le_lower_bound; lia). nia.
Qed.
Print Assumptions C09_rejections.

(** Whatever the generator (seeded or not), the kernel returns only values of the
    half-open interval, one per requested element, and it never divides by zero. *)
Theorem C09_range :
  forall (S : Type) (next : S -> Z * S) fuel w lo hi buf s,
    2 <= w -> in_s w lo -> in_s w hi ->
    match kernel next fuel w lo hi buf s with
    | Done (out, _) => lo < hi /\ length out = length buf /\
                       Forall (fun v => lo <= v < hi) out
    | Invalid => hi <= lo \/ buf = []
    | Diverged => lo < hi
    | Undefined => False
    end.
Proof.
  intros S next fuel w lo hi buf s Hw Hl Hh.
  destruct (Z.ltb_spec lo hi) as [Hlt|Hge].
  - destruct buf as [|b buf].
    + unfold kernel. destruct (lo <? hi); cbn [negb]; tauto.
    + rewrite kernel_fill by (try assumption; discriminate).
      destruct (fill_status next fuel w lo (hi - lo) (b :: buf) s) as [[[out s'] F]|F];
        rewrite F; [|exact Hlt].
      split; [exact Hlt|]. split; [eapply fill_length, F|].
      eapply fill_Forall, F. intros word _.
      pose proof (Z.mod_pos_bound (uwrap w word) (hi - lo)). unfold in_s in *.
      rewrite place_ok by (unfold in_s; lia). lia.
  - unfold kernel. destruct (Z.ltb_spec lo hi); [lia|]. cbn [negb]. left. lia.
Qed.
Print Assumptions C09_range.

(** A run with rejections: words 250 and 210 are refused for [0, 100). *)
Example C09_range_ex :
  kernel (fun s : nat => (Z.of_nat s, S s)) 5 8 0 100 [-6; 42; -46; 7] 197%nat =
  Done ([97; 42; 98; 7], 199%nat).
Proof. vm_compute. reflexivity. Qed.

(** The inclusive interval of full width would divide by zero; [C09_range] shows that
    no call of the kernels gets there. *)
Theorem C09_full_width :
  forall (S : Type) (next : S -> Z * S) fuel w buf s, 2 <= w ->
    uniform next fuel w (- 2 ^ (w - 1)) (2 ^ (w - 1) - 1) buf s = Undefined.
Proof.
  intros. unfold uniform. rewrite u_range_full by lia. reflexivity.
Qed.
Print Assumptions C09_full_width.

(** *** C10 *)

(** Prime-modulus and boolean factories: default samples are exactly the ring. *)
Theorem C10_prime_bool_cover :
  forall f v, shipped f -> (exists w p, f = FPrime w p) \/ f = FBool ->
    (exists ks fuel s, sample_uniform ks fuel f 1 = Done ([v], s)) <-> ring_element f v.
Proof.
  intros f v Hs Hf. destruct (shipped_draw f Hs) as (Hw & Hb & Hl & Hh & Hlt).
  unfold sample_uniform. rewrite draw_image by assumption.
  destruct Hf as [(w & p & ->)| ->]; reflexivity.
Qed.
Print Assumptions C10_prime_bool_cover.

Example C10_prime_bool_cover_ex : shipped (FPrime 8 107) /\ ring_element (FPrime 8 107) 106.
Proof. vm_compute. intuition congruence. Qed.

(** Native and 128-bit factories: every ring element except the largest. *)
Theorem C10_default_image :
  forall f v, shipped f -> (exists w, f = FNative w) \/ f = FInt128 ->
    (exists ks fuel s, sample_uniform ks fuel f 1 = Done ([v], s)) <->
    ring_element f v /\ v <> 2 ^ (draw_width f - 1) - 1.
Proof.
  intros f v Hs Hf. destruct (shipped_draw f Hs) as (Hw & Hb & Hl & Hh & Hlt).
  unfold sample_uniform. rewrite draw_image by assumption.
  destruct Hf as [(w & ->)| ->]; cbn [default_min default_max draw_width ring_element];
    unfold in_s; [|change (128 - 1) with 127]; lia.
Qed.
Print Assumptions C10_default_image.

Example C10_default_image_ex :
  shipped (FNative 64) /\ ring_element (FNative 64) (2 ^ 63 - 2) /\ 2 ^ 63 - 2 <> 2 ^ 63 - 1.
Proof. vm_compute. intuition congruence. Qed.

(** The property fails: the largest ring element never comes out, whatever the
    randomness, and however large the tensor. *)
Theorem C10_default_masks_refuted :
  forall f, shipped f -> (exists w, f = FNative w) \/ f = FInt128 ->
    exists m, ring_element f m /\
      forall ks fuel count out s,
        sample_uniform ks fuel f count = Done (out, s) -> ~ In m out.
Proof.
  intros f Hs Hf. destruct (shipped_draw f Hs) as (Hw & Hb & Hl & Hh & Hlt).
  exists (default_max f). split.
  - destruct Hf as [(w & ->)| ->]; cbn [ring_element default_max draw_width] in *; assumption.
  - intros ks fuel count out s H Hin. unfold sample_uniform in H.
    apply draw_Forall in H; [|assumption..]. rewrite Forall_forall in H.
    apply H in Hin. lia.
Qed.
Print Assumptions C10_default_masks_refuted.

(** What an observer of one masked value learns: for each secret there is a masked
    value it can never produce although every other secret can. *)
Theorem C10_mask_leaks_refuted :
  forall f, shipped f -> (exists w, f = FNative w) \/ f = FInt128 ->
    let w := draw_width f in
    forall x, in_s w x -> exists view, in_s w view /\
      (forall ks fuel r s, sample_uniform ks fuel f 1 = Done ([r], s) -> masked w x r <> view) /\
      (forall x', in_s w x' -> x' <> x ->
         exists ks fuel r s, sample_uniform ks fuel f 1 = Done ([r], s) /\ masked w x' r = view).
Proof.
  intros f Hs Hf w x Hx. destruct (shipped_draw f Hs) as (Hw & _). fold w in Hw.
  pose proof (C10_default_image f) as Im. fold w in Im.
  assert (Hr : forall v, ring_element f v <-> in_s w v).
  { intros v. unfold w. destruct Hf as [(w0 & ->)| ->]; reflexivity. }
  set (m := 2 ^ (w - 1) - 1) in *.
  exists (masked w x m). split; [apply swrap_range; lia|]. split.
  - intros ks fuel r s H E.
    assert (Hrm : ring_element f r /\ r <> m) by (apply Im; eauto).
    destruct Hrm as [H1 H2]. apply H2. apply Hr in H1.
    apply in_s_eqm_eq with (w := w); [lia|exact H1| |].
    + unfold m, in_s. pose proof (pow2_pos (w - 1)). lia.
    + assert (E' : eqm (2 ^ w) (x + r) (x + m)).
      { rewrite <- (swrap_eqm w (x + r)), <- (swrap_eqm w (x + m)) by lia.
        unfold masked in E. rewrite E. reflexivity. }
      replace r with (x + r - x) by ring. rewrite E'. apply eqm_eq. ring.
  - intros x' Hx' Hne. set (r := swrap w (x + m - x')).
    assert (Hir : in_s w r) by (apply swrap_range; lia).
    assert (E' : eqm (2 ^ w) (x' + r) (x + m)).
    { unfold r. rewrite swrap_eqm by lia. apply eqm_eq. ring. }
    assert (Hrm : r <> m).
    { intros E. apply Hne. apply in_s_eqm_eq with (w := w); [lia|exact Hx'|exact Hx|].
      replace x' with (x' + r - r) by ring. rewrite E'. rewrite E. apply eqm_eq. ring. }
    destruct (Im r Hs Hf) as [_ Im']. destruct Im' as (ks & fuel & s & H).
    { split; [apply Hr; exact Hir|exact Hrm]. }
    exists ks, fuel, r, s. split; [exact H|].
    unfold masked. apply in_s_eqm_eq with (w := w); [lia|apply swrap_range; lia..|].
    rewrite !swrap_eqm by lia. exact E'.
Qed.
Print Assumptions C10_mask_leaks_refuted.

(** *** C11 *)

(** However many rejections occur, no keystream position is looked at twice, and each
    output element is made from its own position (as long as the 32-bit block counter
    does not wrap: buffer blocks plus rejections below 2^32). *)
Theorem C11_positions :
  forall ks fuel w lo hi count out s,
    word_bytes (w / 8) -> 2 <= w -> in_s w lo -> in_s w hi ->
    seeded_uniform ks (w / 8) fuel w lo hi count = Done (out, s) ->
    Z.of_nat count / per_block (w / 8) + 1 + (Z.of_nat (length (used s)) - Z.of_nat count) < 2 ^ 32 ->
    NoDup (used s) /\
    exists ps, NoDup ps /\ incl ps (used s) /\ length ps = count /\
      out = map (fun p => lo + uwrap w (ks (fst p) (snd p)) mod (hi - lo)) ps.
Proof.
  intros ks fuel w lo hi count out s Hb Hw Hl Hh H Hlim.
  unfold seeded_uniform in H. unfold kernel in H.
  destruct (Z.ltb_spec lo hi) as [Hlt|]; [|discriminate]. cbn [negb] in H.
  destruct (main_buffer ks (w / 8) count) as [|b0 l0] eqn:Eb; [discriminate|].
  assert (K : kernel (next_seeded ks (w / 8)) fuel w lo hi (b0 :: l0) (start_seeded (w / 8) count)
              = Done (out, s)).
  { unfold kernel. destruct (Z.ltb_spec lo hi); [exact H|lia]. }
  rewrite kernel_fill in K by (try assumption; discriminate). clear H.
  rewrite <- Eb in K.
  pose proof (fill_suffix _ _ _ _ _ _ _ _ _ _ K) as [new Hnew].
  assert (Hlen : (count <= length (used s))%nat).
  { rewrite Hnew, app_length. cbn [start_seeded used]. rewrite rev_length, map_length, seq_length. lia. }
  pose proof (inv_start (w / 8) Hb count ltac:(lia)) as I0.
  pose proof (inv_fill (w / 8) Hb _ _ _ _ _ _ _ _ _ _ _ K Hlim I0) as (_ & _ & _ & Hn).
  split; [exact Hn|].
  rewrite main_buffer_map in K.
  destruct (fill_sources (w / 8) ks fuel w lo (hi - lo) (map (main_position (w / 8)) (seq 0 count))
              (start_seeded (w / 8) count) out s) as (ps & new' & S' & Hps & Hin & Ho).
  - apply main_NoDup, Hb.
  - intros p Hp. cbn [start_seeded used]. apply -> in_rev. exact Hp.
  - exact Hn.
  - exact K.
  - exists ps. split; [exact Hps|]. split.
    + intros p Hp. rewrite S'. apply in_or_app. destruct (Hin p Hp) as [Hq|Hq]; [right|left; exact Hq].
      cbn [start_seeded used]. apply -> in_rev. exact Hq.
    + split.
      * apply fill_length in K. rewrite !map_length, seq_length in K.
        rewrite Ho, map_length in K. exact K.
      * rewrite Ho. apply map_ext. intros p. unfold in_s in *.
        apply place_ok; unfold in_s; lia.
Qed.
Print Assumptions C11_positions.

(** int8, bounds [0, 100), five elements, a keystream with refused words: eight
    positions are looked at. *)
Example C11_positions_ex :
  match seeded_uniform (fun b i => swrap 8 (90 * i + 205 - 55 * b)) 1 20 8 0 100 5 with
  | Done (out, s) => out = [50; 39; 29; 74; 53] /\ length (used s) = 8%nat
  | _ => False
  end.
Proof. vm_compute. split; reflexivity. Qed.

(** The expansion is a function of the keystream, bounds and size only: whatever the
    two parties' patience, completed runs agree; and only the positions in the log
    matter. *)
Theorem C11_agree :
  forall ks ks' f1 f2 w lo hi count out1 s1 out2 s2,
    (forall b i, ks b i = ks' b i) ->
    seeded_uniform ks (w / 8) f1 w lo hi count = Done (out1, s1) ->
    seeded_uniform ks' (w / 8) f2 w lo hi count = Done (out2, s2) ->
    out1 = out2 /\ s1 = s2.
Proof.
  intros ks ks' f1 f2 w lo hi count out1 s1 out2 s2 Hk H1 H2.
  assert (Em : main_buffer ks' (w / 8) count = main_buffer ks (w / 8) count).
  { unfold main_buffer. apply map_ext. intros; symmetry; apply Hk. }
  unfold seeded_uniform, kernel, generate, uniform in *. rewrite Em in H2.
  destruct (negb (lo <? hi)); [discriminate|].
  destruct (main_buffer ks (w / 8) count) as [|b l]; [discriminate|].
  destruct (u_range w lo (swrap w (hi - 1)) =? 0); [discriminate|].
  apply fill_depends with (ks' := ks') in H1; [|intros; symmetry; apply Hk].
  pose proof (fill_mono _ _ _ _ _ _ _ _ _ _ H1 H2) as E.
  injection E as E1 E2. split; assumption.
Qed.
Print Assumptions C11_agree.

Theorem C11_depends :
  forall ks ks' fuel w lo hi count out s,
    seeded_uniform ks (w / 8) fuel w lo hi count = Done (out, s) ->
    (forall p, In p (used s) -> ks' (fst p) (snd p) = ks (fst p) (snd p)) ->
    seeded_uniform ks' (w / 8) fuel w lo hi count = Done (out, s).
Proof.
  intros ks ks' fuel w lo hi count out s H Hk.
  unfold seeded_uniform, kernel, generate, uniform in *.
  destruct (negb (lo <? hi)); [discriminate|].
  destruct (main_buffer ks (w / 8) count) as [|b l] eqn:E; [discriminate|].
  destruct (u_range w lo (swrap w (hi - 1)) =? 0) eqn:E0; [discriminate|].
  rewrite <- E in H.
  assert (Em : main_buffer ks' (w / 8) count = main_buffer ks (w / 8) count).
  { rewrite !main_buffer_map. apply map_ext_in. intros p Hp. apply Hk.
    apply fill_suffix in H. destruct H as [new ->]. apply in_or_app. right.
    cbn [start_seeded used]. apply -> in_rev. exact Hp. }
  rewrite Em, E, <- E.
  destruct (main_buffer ks (w / 8) count) as [|b' l'] eqn:E'; [discriminate|].
  apply (fill_depends _ ks ks' _ _ _ _ _ _ _ _ H Hk).
Qed.
Print Assumptions C11_depends.

(** The expansion finishes whenever acceptable words keep turning up. *)
Theorem C11_completes :
  forall ks w lo hi count,
    word_bytes (w / 8) -> 2 <= w -> in_s w lo -> in_s w hi -> lo < hi -> (0 < count)%nat ->
    (forall n, exists k, (n <= k)%nat /\
       asks_again w lo (hi - 1)
         (fst (next_seeded ks (w / 8) (after (w / 8) ks k (start_seeded (w / 8) count)))) = false) ->
    exists fuel out s, seeded_uniform ks (w / 8) fuel w lo hi count = Done (out, s).
Proof.
  intros ks w lo hi count Hb Hw Hl Hh Hlt Hc Hacc. unfold seeded_uniform.
  destruct (fill_completes (w / 8) ks w lo (hi - lo) (main_buffer ks (w / 8) count)
              (start_seeded (w / 8) count)) as (f & out & k & F).
  - intros n. destruct (Hacc n) as (k & Hk & Ha). exists k. split; [exact Hk|].
    rewrite asks_again_eq in Ha by (unfold in_s in *; pose proof (pow2_half w); lia).
    unfold rejected. replace (hi - lo) with (hi - 1 - lo + 1) by ring. exact Ha.
  - exists f, out. eexists. rewrite kernel_fill; [exact F|assumption..|].
    unfold main_buffer. destruct count; [lia|discriminate].
Qed.
Print Assumptions C11_completes.

Example C11_completes_ex :
  word_bytes (8 / 8) /\
  forall n, exists k, (n <= k)%nat /\
    asks_again 8 0 99 (fst (next_seeded (fun _ _ => 17) 1 (after 1 (fun _ _ => 17) k (start_seeded 1 3)))) = false.
Proof.
  split; [left; reflexivity|]. intros n. exists n. split; [lia|].
  assert (E : fst (next_seeded (fun _ _ => 17) 1 (after 1 (fun _ _ => 17) n (start_seeded 1 3))) = 17).
  { unfold next_seeded. destruct (_ =? _); reflexivity. }
  rewrite E. reflexivity.
Qed.

(** *** C73 *)

(** Native tensors: bounded samples are exactly uniform over [0, 2^bitlength). *)
Theorem C73_native_bounded :
  forall w bitlength v, 2 <= w -> 0 <= bitlength -> 2 ^ bitlength <= 2 ^ (w - 1) - 1 ->
    how_many w (native_bounded_turns_into w bitlength v) =
    (if (0 <=? v) && (v <? 2 ^ bitlength) then 2 ^ (w - bitlength) else 0) /\
    forall ks fuel count out s,
      sample_bounded_native ks fuel w bitlength count = Done (out, s) ->
      Forall (fun x => 0 <= x < 2 ^ bitlength) out.
Proof.
  intros w b v Hw Hb Hle. pose proof (pow2_pos b Hb). pose proof (pow2_half w ltac:(lia)).
  pose proof (pow2_pos (w - 1) ltac:(lia)).
  split.
  - rewrite (how_many_ext _ _ (turns_into w 0 (2 ^ b - 1) v)) by (intros x; apply native_bounded_one; lia).
    rewrite C09_uniform by (unfold in_s; lia).
    replace (2 ^ b - 1 - 0 + 1) with (2 ^ b) by ring.
    assert (Hbw : b < w).
    { apply (Z.pow_lt_mono_r_iff 2); lia. }
    replace (2 ^ w) with (2 ^ (w - b) * 2 ^ b)
      by (rewrite <- Z.pow_add_r by lia; f_equal; lia).
    rewrite Z.div_mul by lia.
    destruct (0 <=? v), (Z.leb_spec v (2 ^ b - 1)), (Z.ltb_spec v (2 ^ b)); cbn [andb]; lia.
  - intros ks fuel count out s H'. unfold sample_bounded_native in H'.
    destruct (2 ^ b <=? 2 ^ (w - 1) - 1); [|discriminate].
    eapply draw_Forall, H'; unfold in_s; lia.
Qed.
Print Assumptions C73_native_bounded.

Example C73_native_bounded_ex : 2 <= 64 /\ 0 <= 40 /\ 2 ^ 40 <= 2 ^ (64 - 1) - 1.
Proof. vm_compute. intuition congruence. Qed.

(** 128-bit tensors: exact counts; one value is short of one raw word. *)
Theorem C73_int128_counts :
  forall bitlength v, 1 <= bitlength <= 127 -> 0 <= v < 2 ^ bitlength ->
    how_many 128 (bounded_turns_into bitlength v) =
    2 ^ (128 - bitlength) - (if v =? 2 ^ (bitlength - 1) - 1 then 1 else 0).
Proof. intros. apply bounded_count; assumption. Qed.
(** Nothing else is returned. *)
Theorem C73_int128_bounds :
  forall ks fuel bitlength count out s, 1 <= bitlength <= 127 ->
    sample_bounded_128 ks fuel bitlength count = Done (out, s) ->
    Forall (fun x => 0 <= x < 2 ^ bitlength) out.
Proof.
  intros ks fuel b count out s Hb H. unfold sample_bounded_128 in H. rewrite (proj2 (Z.leb_le b 128)) in H by lia.
  destruct (sample_uniform ks fuel FInt128 count) as [[vs t]| | |]; try discriminate. injection H as <- <-.
  apply Forall_forall. intros x Hx. apply in_map_iff in Hx. destruct Hx as (v & <- & _).
  apply lrshift128_bounds, Hb.
Qed.
Print Assumptions C73_int128_bounds.
Print Assumptions C73_int128_counts.

Example C73_int128_counts_ex : 1 <= 1 <= 127 /\ 0 <= 0 < 2 ^ 1.
Proof. vm_compute. intuition congruence. Qed.

(** So bounded sampling of 128-bit tensors (and [sample_bits]) is not uniform. *)
Theorem C73_int128_bounded_refuted :
  forall bitlength, 1 <= bitlength <= 127 ->
    exists v v', 0 <= v < 2 ^ bitlength /\ 0 <= v' < 2 ^ bitlength /\
      how_many 128 (bounded_turns_into bitlength v) <>
      how_many 128 (bounded_turns_into bitlength v').
Proof.
  intros b Hb. pose proof (pow2_half b ltac:(lia)). pose proof (pow2_pos (b - 1) ltac:(lia)).
  exists (2 ^ (b - 1) - 1), (2 ^ (b - 1)).
  split; [lia|]. split; [lia|].
  rewrite !C73_int128_counts by lia. rewrite Z.eqb_refl.
  destruct (Z.eqb_spec (2 ^ (b - 1)) (2 ^ (b - 1) - 1)); lia.
Qed.
Print Assumptions C73_int128_bounded_refuted.
