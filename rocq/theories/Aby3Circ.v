(** The boolean circuits of ABY3: adders, carries, conversions, bit extraction, comparisons and
    the operations built on them. *)
From Verif Require Import Base TensorModel TensorProofs Aby3Model Aby3Spec Aby3Bits Aby3Proofs Aby3Trunc Adder.
From Coq Require Import ZifyBool.

(** * Masks *)

Lemma f64_mask_bits n i j : 0 < n -> (i <= 5)%nat -> 0 <= j < n ->
  Z.testbit (swrap n (f64_mask (2 ^ Z.of_nat i))) j = (j <? 2 ^ Z.of_nat i).
Proof.
  intros Hn Hi Hj. rewrite swrap_bits by lia. rewrite Z.min_l by lia. unfold f64_mask.
  assert (H : 2 ^ Z.of_nat i <= 2 ^ 5) by (apply Z.pow_le_mono_r; lia).
  destruct (Z.leb_spec (2 ^ Z.of_nat i) 53); [|change (2 ^ 5) with 32 in H; lia].
  apply low_ones_bits; [apply Z.pow_nonneg; lia|lia].
Qed.
Definition sk_check (n : Z) (i : nat) : bool :=
  forallb (fun t => let j := Z.of_nat t in
    Bool.eqb (Z.testbit (swrap n (sk_keep n i)) j) (j mod (2 * 2 ^ Z.of_nat i) <? 2 ^ Z.of_nat i) &&
    Bool.eqb (Z.testbit (swrap n (sk_copy n i)) j) (j mod (2 * 2 ^ Z.of_nat i) =? 2 ^ Z.of_nat i - 1)) (seq 0 (Z.to_nat n)).
Lemma sk_masks n i j : (n = 64 /\ (i < 6)%nat) \/ (n = 128 /\ (i < 7)%nat) -> 0 <= j < n ->
  Z.testbit (swrap n (sk_keep n i)) j = (j mod (2 * 2 ^ Z.of_nat i) <? 2 ^ Z.of_nat i) /\
  Z.testbit (swrap n (sk_copy n i)) j = (j mod (2 * 2 ^ Z.of_nat i) =? 2 ^ Z.of_nat i - 1).
Proof.
  intros Hni Hj.
  assert (C : sk_check n i = true).
  { destruct Hni as [[-> Hi] | [-> Hi]].
    - do 6 (destruct i as [|i]; [vm_compute; reflexivity|]). lia.
    - do 7 (destruct i as [|i]; [vm_compute; reflexivity|]). lia. }
  unfold sk_check in C. rewrite forallb_forall in C. specialize (C (Z.to_nat j)).
  rewrite Z2Nat.id in C by lia. cbv zeta in C.
  assert (Hin : In (Z.to_nat j) (seq 0 (Z.to_nat n))) by (apply in_seq; lia).
  apply C in Hin. apply Bool.andb_true_iff in Hin. destruct Hin as [A B].
  split; apply Bool.eqb_prop; assumption.
Qed.

(** * Adders *)

Section Circ.
Context (prf : fac -> key -> Z -> nat -> Z) (colo : bool) (Hprf : prf_words prf).

(** Binding a program with known postcondition. *)
Lemma yb {A B} (m : M A) (P : A -> Prop) (k : A -> M B) Q : yields m P -> (forall a, P a -> yields (k a) Q) -> yields (bind m k) Q.
Proof. exact (y_bind m k P Q). Qed.
Lemma const_ok f v sc : fok f -> yields (const colo f v sc) (fun q => public f q (fcast f v) /\ qsc q = sc).
Proof.
  intros Hf. unfold const. yrun. split; [|reflexivity]. apply (public_mk f sc). apply word_fcast, Hf.
Qed.

Lemma ks_round_ok n i G P g p sc : 0 < n -> boolean (FI n) G g -> boolean (FI n) P p -> psc G = sc -> psc P = sc ->
  let s := 2 ^ Z.of_nat i in
  yields (ks_round prf colo i G P) (fun gp => psc (fst gp) = sc /\ psc (snd gp) = sc /\
    boolean (FI n) (fst gp) (Z.lxor g (Z.land p (swrap n (Z.shiftl g s)))) /\
    boolean (FI n) (snd gp) (Z.land p (Z.lxor (swrap n (Z.shiftl p s)) (swrap n (f64_mask s))))).
Proof.
  intros Hn HG HP SG SP s. unfold ks_round. assert (Hf : pfc G = FI n) by apply HG. rewrite Hf. cbv zeta. fold s.
  apply (yb _ _ _ _ (const_ok (FI n) (f64_mask s) false Hn)). intros km (Hkm & _).
  apply (yb _ _ _ _ (lshift_bool_ok colo n G g s Hn HG)). intros G1 (HG1 & SG1).
  apply (yb _ _ _ _ (lshift_bool_ok colo n P p s Hn HP)). intros P1 (HP1 & SP1).
  apply (yb _ _ _ _ (xor_pq_ok colo (FI n) P1 km _ _ Hn HP1 Hkm)). intros P2 (HP2 & SP2).
  apply (yb _ _ _ _ (and_ok prf colo Hprf (FI n) P G1 _ _ Hn HP HG1)). intros t (Ht & St).
  apply (yb _ _ _ _ (xor_pp_ok colo (FI n) G t _ _ Hn HG Ht)). intros G' (HG' & SG').
  apply (yb _ _ _ _ (and_ok prf colo Hprf (FI n) P P2 _ _ Hn HP HP2)). intros P' (HP' & SP').
  apply y_ret. cbn [fst snd]. split; [congruence|]. split; [|split; assumption].
  rewrite SP', SP2, SP1, SP. apply Bool.orb_diag.
Qed.
Lemma ks_loop_ok n x y sc m : 0 < n -> forall i G P g p, (i + m <= 7)%nat ->
  boolean (FI n) G g -> boolean (FI n) P p -> psc G = sc -> psc P = sc ->
  KG x y n (2 ^ Z.of_nat i) g -> (m = O \/ KP_ x y n (2 ^ Z.of_nat i) p) ->
  yields (ks_loop prf colo m i G P) (fun gp => psc (fst gp) = sc /\ exists g',
    boolean (FI n) (fst gp) g' /\ KG x y n (2 ^ Z.of_nat (i + m)) g').
Proof.
  intros Hn. induction m as [|m IH]; intros i G P g p Him HG HP SG SP Ig Ip; cbn [ks_loop].
  - apply y_ret. rewrite Nat.add_0_r. split; [exact SG|]. exists g. auto.
  - destruct Ip as [Ip|Ip]; [discriminate|].
    apply (yb _ _ _ _ (ks_round_ok n i G P g p sc Hn HG HP SG SP)). intros gp (S1 & S2 & B1 & B2).
    assert (Hs : 0 < 2 ^ Z.of_nat i) by (apply pow2_pos; lia).
    assert (E2 : 2 ^ Z.of_nat (S i) = 2 * 2 ^ Z.of_nat i) by (rewrite Nat2Z.inj_succ, Z.pow_succ_r by lia; reflexivity).
    rewrite <- Nat.add_succ_comm. eapply IH; [lia|exact B1|exact B2|exact S1|exact S2| |].
    + rewrite E2. apply ks_G; assumption.
    + destruct m as [|m]; [left; reflexivity|right]. rewrite E2. apply ks_P; try assumption.
      intros j Hj. apply f64_mask_bits; lia.
Qed.

Lemma log2c_pow k : 0 < k -> k <= 2 ^ Z.of_nat (log2c k).
Proof.
  intros Hk. unfold log2c. rewrite Z2Nat.id by apply Z.log2_up_nonneg.
  destruct (Z.eq_dec k 1) as [->|Hne]; [vm_compute; congruence|]. pose proof (Z.log2_up_spec k). lia.
Qed.
Lemma log2c_le k e : 0 < k -> k <= 2 ^ Z.of_nat e -> (log2c k <= e)%nat.
Proof.
  intros Hk H. unfold log2c. apply Z.log2_up_le_mono in H. rewrite Z.log2_up_pow2 in H by lia. lia.
Qed.
Definition adder_size (n : Z) : Prop := n = 64 \/ n = 128.
Lemma adder_i64 n : adder_size n -> is_i64 (FI n) = true.
Proof. intros [-> | ->]; reflexivity. Qed.
Lemma b_in_s n x v : 0 < n -> boolean (FI n) x v -> in_s n v.
Proof. intros Hn (_ & _ & _ & _ & A & B & C & <-). apply in_s_lxor; [exact Hn| |exact C]. apply in_s_lxor; assumption. Qed.

Lemma ks_bits n k u v g : 0 < n -> 0 < k <= n -> KG u v n (2 ^ Z.of_nat (0 + log2c k)) g ->
  forall j, 0 <= j < k -> Z.testbit (Z.lxor (swrap n (Z.shiftl g 1)) (Z.lxor u v)) j = Z.testbit (u + v) j.
Proof.
  intros Hn Hk Ig. apply prefix_sum; [exact Hn|lia|]. intros j Hj. rewrite (Ig j) by lia. f_equal.
  pose proof (log2c_pow k ltac:(lia)). rewrite Nat.add_0_l. lia.
Qed.
Lemma mask_word n k : 0 <= k < n -> in_s n (2 ^ k - 1).
Proof.
  intros H. unfold in_s. assert (2 ^ k <= 2 ^ (n - 1)) by (apply Z.pow_le_mono_r; lia). pose proof (pow2_pos k); lia.
Qed.
Lemma ks_full n u v w : 0 < n -> in_s n w -> (forall j, 0 <= j < n -> Z.testbit w j = Z.testbit (u + v) j) -> w = swrap n (u + v).
Proof.
  intros Hn Hw H. apply (word_eq_bits n); [exact Hn|exact Hw|apply swrap_range, Hn|].
  intros j Hj. rewrite H by exact Hj. rewrite swrap_bits by lia. f_equal. lia.
Qed.
Lemma ppa_ks_ok n x y u v nb k : adder_size n -> boolean (FI n) x u -> boolean (FI n) y v -> psc y = psc x ->
  k = match nb with Some k => k | None => n end -> 0 < k <= n ->
  yields (ppa_ks prf colo x y nb) (fun z => psc z = psc x /\
    boolean (FI n) z (if k <? n then (u + v) mod 2 ^ k else swrap n (u + v))).
Proof.
  intros Ha Hx Hy Hs Hk Hkn. assert (Hn : 0 < n) by (destruct Ha; lia).
  assert (Fx : pfc x = FI n) by apply Hx. assert (Fy : pfc y = FI n) by apply Hy.
  unfold ppa_ks. rewrite Fx, Fy. apply y_assert; [apply Z.eqb_refl|]. rewrite adder_i64 by exact Ha. cbn [negb fbits].
  apply (yb _ _ _ _ (and_ok prf colo Hprf (FI n) x y u v Hn Hx Hy)). intros G (HG & SG).
  apply (yb _ _ _ _ (xor_pp_ok colo (FI n) x y u v Hn Hx Hy)). intros P (HP & SP).
  cbv zeta. rewrite <- Hk. destruct (ks_init u v n) as (I1 & I2).
  rewrite Hs, Bool.orb_diag in SG.
  assert (Hl : (log2c k <= 7)%nat) by (apply log2c_le; [lia|]; destruct Ha; subst n; change (2 ^ Z.of_nat 7) with 128; lia).
  apply (yb _ _ _ _ (ks_loop_ok n u v (psc x) (log2c k) Hn 0 G P _ _ Hl HG HP SG SP I1 (or_intror I2))).
  intros gp (Sg & g' & Hg & Ig).
  apply (yb _ _ _ _ (lshift_bool_ok colo n _ _ 1 Hn Hg)). intros C (HC & SC).
  apply (yb _ _ _ _ (xor_pp_ok colo (FI n) x y u v Hn Hx Hy)). intros P0 (HP0 & SP0).
  apply (yb _ _ _ _ (xor_pp_ok colo (FI n) C P0 _ _ Hn HC HP0)). intros z (Hz & Sz).
  pose proof (ks_bits n k u v g' Hn Hkn Ig) as Hbits.
  destruct (Z.ltb_spec k n) as [Hlt|Hge].
  - apply (yb _ _ _ _ (const_ok (FI n) (2 ^ k - 1) false Hn)). intros q (Hq & _).
    cbn [fcast] in Hq. rewrite swrap_id in Hq by first [exact Hn|apply mask_word; clear - Hlt Hkn; lia].
    eapply y_weaken; [exact (and_pq_ok colo (FI n) z q _ _ Hn Hz Hq)|]. intros r (Hr & Sr).
    split; [congruence|]. rewrite land_low in Hr by (clear - Hkn; lia).
    replace ((u + v) mod 2 ^ k) with (Z.lxor (swrap n (Z.shiftl g' 1)) (Z.lxor u v) mod 2 ^ k); [exact Hr|].
    apply (bits_eqm k); [clear - Hkn; lia|exact Hbits].
  - apply y_ret. split; [congruence|]. assert (Ekn : k = n) by (clear - Hkn Hge; lia). clear Hk. subst k.
    rewrite <- (ks_full n u v (Z.lxor (swrap n (Z.shiftl g' 1)) (Z.lxor u v))); [exact Hz|exact Hn|apply (b_in_s n z); assumption|exact Hbits].
Qed.

(** Sklansky *)
Lemma copy_bool b s r S : 0 < s -> xorb (((b <=? r - s) && (r - s <? b + s)) && S) (((b <=? r) && (r <? b + s)) && S) =
  ((b <=? r) && (r <? b + 2 * s)) && S.
Proof.
  intros Hs. clear prf Hprf colo. destruct (Z.leb_spec b (r - s)), (Z.ltb_spec (r - s) (b + s)), (Z.leb_spec b r), (Z.ltb_spec r (b + s)), (Z.ltb_spec r (b + 2 * s));
  try (exfalso; lia); destruct S; reflexivity.
Qed.
Lemma sk_copy_loop_ok n sc m : 0 < n -> forall t W w, boolean (FI n) W w -> psc W = sc ->
  forall src B b, 0 < B -> 0 <= b -> (b + 2 ^ Z.of_nat (t + m) <= B) ->
  (forall j, 0 <= j < n -> Z.testbit w j = ((b <=? j mod B) && (j mod B <? b + 2 ^ Z.of_nat t)) && src (j - j mod B)) ->
  yields (sk_copy_loop colo m t W) (fun W' => psc W' = sc /\ exists w', boolean (FI n) W' w' /\
    forall j, 0 <= j < n -> Z.testbit w' j = ((b <=? j mod B) && (j mod B <? b + 2 ^ Z.of_nat (t + m))) && src (j - j mod B)).
Proof.
  intros Hn. induction m as [|m IH]; intros t W w HW SW src B b HB Hb Hle Hw; cbn [sk_copy_loop].
  - apply y_ret. rewrite Nat.add_0_r. split; [exact SW|]. exists w. auto.
  - apply (yb _ _ _ _ (lshift_bool_ok colo n W w _ Hn HW)). intros T (HT & ST).
    apply (yb _ _ _ _ (xor_pp_ok colo (FI n) T W _ _ Hn HT HW)). intros W' (HW' & SW').
    rewrite <- Nat.add_succ_comm in *. eapply IH; [exact HW'|congruence|exact HB|exact Hb|exact Hle|].
    intros j Hj. rewrite Z.lxor_spec, shl_bits by lia. rewrite (Hw j Hj).
    assert (Hp : 0 < 2 ^ Z.of_nat t) by (apply pow2_pos; lia).
    assert (E2 : 2 ^ Z.of_nat (S t) = 2 * 2 ^ Z.of_nat t) by (rewrite Nat2Z.inj_succ, Z.pow_succ_r by lia; reflexivity).
    assert (Hle' : 2 ^ Z.of_nat (S t) <= 2 ^ Z.of_nat (S t + m)) by (apply Z.pow_le_mono_r; lia).
    pose proof (Z.mod_pos_bound j B HB) as Hm. pose proof (Z.mod_le j B ltac:(lia) HB) as Hml.
    set (s := 2 ^ Z.of_nat t) in *. rewrite E2.
    destruct (Z.ltb_spec j s) as [Hjs|Hjs].
    { destruct (Z.leb_spec b (j mod B)), (Z.ltb_spec (j mod B) (b + s)), (Z.ltb_spec (j mod B) (b + 2 * s)); cbn [andb xorb]; try lia; try reflexivity; destruct (src _); reflexivity. }
    rewrite (Hw (j - s)) by lia.
    destruct (Z.lt_ge_cases (j mod B) s) as [Hlow|Hlow].
    { (* j - s falls in the previous block, above the copied range *)
      assert (E : (j - s) mod B = j mod B - s + B).
      { symmetry. apply (Z.mod_unique _ _ (j / B - 1)); [lia|]. pose proof (Z.div_mod j B). lia. }
      rewrite E. destruct (Z.ltb_spec (j mod B - s + B) (b + s)); [lia|]. rewrite Bool.andb_false_r. cbn [andb xorb].
      destruct (Z.leb_spec b (j mod B)), (Z.ltb_spec (j mod B) (b + s)), (Z.ltb_spec (j mod B) (b + 2 * s)); cbn [andb xorb]; try lia; try reflexivity; destruct (src _); reflexivity. }
    assert (E : (j - s) mod B = j mod B - s).
    { symmetry. apply (Z.mod_unique _ _ (j / B)); [lia|]. pose proof (Z.div_mod j B). lia. }
    rewrite E. replace (j - s - (j mod B - s)) with (j - j mod B) by lia.
    apply copy_bool; assumption.
Qed.
(** One lane of a round: the last bit of each lower half is copied over the upper half. *)
Lemma sk_spread_bits n i v0 s j : (n = 64 /\ (i < 6)%nat) \/ (n = 128 /\ (i < 7)%nat) -> s = 2 ^ Z.of_nat i -> 0 <= j < n ->
  Z.testbit (swrap n (Z.shiftl (Z.land v0 (swrap n (sk_copy n i))) 1)) j =
  ((s <=? j mod (2 * s)) && (j mod (2 * s) <? s + 2 ^ Z.of_nat 0)) && Z.testbit v0 (j - j mod (2 * s) + s - 1).
Proof.
  intros Hni Es Hj. assert (Hn : 0 < n) by lia. assert (Hs : 0 < s) by (subst s; apply pow2_pos; lia).
  rewrite shl_bits by lia. change (2 ^ Z.of_nat 0) with 1.
  pose proof (Z.mod_pos_bound j (2 * s) ltac:(lia)).
  destruct (Z.ltb_spec j 1) as [Hj0|Hj0].
  - replace j with 0 by lia. rewrite Z.mod_0_l by lia. destruct (Z.leb_spec s 0); [lia|reflexivity].
  - rewrite Z.land_spec. rewrite (proj2 (sk_masks n i (j - 1) Hni ltac:(lia))). rewrite <- Es.
    destruct (Z.eq_dec (j mod (2 * s)) 0) as [E0|E0].
    { assert (E : (j - 1) mod (2 * s) = 2 * s - 1).
      { symmetry. apply (Z.mod_unique _ _ (j / (2 * s) - 1)); [lia|]. pose proof (Z.div_mod j (2 * s)). lia. }
      rewrite E, E0. destruct (Z.eqb_spec (2 * s - 1) (s - 1)); [lia|]. destruct (Z.leb_spec s 0); [lia|]. cbn [andb]. apply Bool.andb_false_r. }
    assert (E : (j - 1) mod (2 * s) = j mod (2 * s) - 1).
    { symmetry. apply (Z.mod_unique _ _ (j / (2 * s))); [lia|]. pose proof (Z.div_mod j (2 * s)). lia. }
    rewrite E. destruct (Z.eqb_spec (j mod (2 * s) - 1) (s - 1)).
    { replace (j - j mod (2 * s) + s - 1) with (j - 1) by lia.
      destruct (Z.leb_spec s (j mod (2 * s))); [|lia]. destruct (Z.ltb_spec (j mod (2 * s)) (s + 1)); [|lia]. cbn [andb]. apply Bool.andb_true_r. }
    { rewrite Bool.andb_false_r. destruct (Z.leb_spec s (j mod (2 * s))), (Z.ltb_spec (j mod (2 * s)) (s + 1)); cbn [andb]; try lia; reflexivity. }
Qed.
Lemma sk_spread_out v0 s j : 0 < s -> 0 <= j ->
  ((s <=? j mod (2 * s)) && (j mod (2 * s) <? s + s)) && Z.testbit v0 (j - j mod (2 * s) + s - 1) =
  if j mod (2 * s) <? s then false else Z.testbit v0 (j - j mod s - 1).
Proof.
  intros Hs Hj. pose proof (Z.mod_pos_bound j (2 * s) ltac:(lia)). pose proof (mod_double j s Hs) as Hd.
  destruct (Z.ltb_spec (j mod (2 * s)) s).
  - destruct (Z.leb_spec s (j mod (2 * s))); [lia|reflexivity].
  - destruct (Z.leb_spec s (j mod (2 * s))); [|lia]. destruct (Z.ltb_spec (j mod (2 * s)) (s + s)); [|lia]. cbn [andb]. f_equal. lia.
Qed.
Lemma sk_spread_ok n i sc V v0 vb : (n = 64 /\ (i < 6)%nat) \/ (n = 128 /\ (i < 7)%nat) -> let s := 2 ^ Z.of_nat i in
  boolean (FI n) V vb -> vb = swrap n (Z.shiftl (Z.land v0 (swrap n (sk_copy n i))) 1) -> psc V = sc ->
  yields (sk_copy_loop colo i 0 V) (fun W => psc W = sc /\ exists w, boolean (FI n) W w /\
    forall j, 0 <= j < n -> Z.testbit w j = if j mod (2 * s) <? s then false else Z.testbit v0 (j - j mod s - 1)).
Proof.
  intros Hni s HV Hvb SV. assert (Hn : 0 < n) by lia. assert (Hs : 0 < s) by (apply pow2_pos; lia).
  eapply y_weaken.
  - apply (sk_copy_loop_ok n sc i Hn 0 V vb HV SV (fun base => Z.testbit v0 (base + s - 1)) (2 * s) s).
    + clear - Hs; lia.
    + clear - Hs; lia.
    + rewrite Nat.add_0_l. fold s. clear; lia.
    + intros j Hj. rewrite Hvb. apply (sk_spread_bits n i); [exact Hni|reflexivity|exact Hj].
  - intros W (SW & w & HW & Hw). split; [exact SW|]. exists w. split; [exact HW|]. intros j Hj. rewrite (Hw j Hj).
    rewrite Nat.add_0_l. apply sk_spread_out; [exact Hs|apply Hj].
Qed.
Lemma sk_round_ok n x y i G P g p sc : (n = 64 /\ (i < 6)%nat) \/ (n = 128 /\ (i < 7)%nat) ->
  boolean (FI n) G g -> boolean (FI n) P p -> psc G = sc -> psc P = sc ->
  SG x y n (2 ^ Z.of_nat i) g -> SP x y n (2 ^ Z.of_nat i) p ->
  yields (sk_round prf colo i G P) (fun gp => psc (fst gp) = sc /\ psc (snd gp) = sc /\ exists g' p',
    boolean (FI n) (fst gp) g' /\ boolean (FI n) (snd gp) p' /\
    SG x y n (2 ^ Z.of_nat (S i)) g' /\ SP x y n (2 ^ Z.of_nat (S i)) p').
Proof.
  intros Hni HG HP SG_ SP_ IG IP. assert (Hn : 0 < n) by lia. unfold sk_round. assert (Hf : pfc G = FI n) by apply HG. rewrite Hf. cbv zeta. cbn [fbits].
  assert (Hs : 0 < 2 ^ Z.of_nat i) by (apply pow2_pos; lia).
  assert (E2 : 2 ^ Z.of_nat (S i) = 2 * 2 ^ Z.of_nat i) by (rewrite Nat2Z.inj_succ, Z.pow_succ_r by lia; reflexivity).
  apply (yb _ _ _ _ (const_ok (FI n) (sk_copy n i) false Hn)). intros cm (Hcm & _).
  apply (yb _ _ _ _ (const_ok (FI n) (sk_keep n i) false Hn)). intros km (Hkm & _). cbn [fcast] in Hcm, Hkm.
  (* the two lanes are interleaved in the code *)
  apply (yb _ _ _ _ (and_pq_ok colo (FI n) G cm _ _ Hn HG Hcm)). intros ga (Hga & Sga).
  apply (yb _ _ _ _ (lshift_bool_ok colo n ga _ 1 Hn Hga)). intros gb (Hgb & Sgb).
  apply (yb _ _ _ _ (and_pq_ok colo (FI n) P cm _ _ Hn HP Hcm)). intros pa (Hpa & Spa).
  apply (yb _ _ _ _ (lshift_bool_ok colo n pa _ 1 Hn Hpa)). intros pb (Hpb & Spb).
  set (s := 2 ^ Z.of_nat i) in *.
  apply (yb _ _ _ _ (sk_spread_ok n i sc gb g _ Hni Hgb eq_refl ltac:(congruence))). intros G1 (SG1 & g1 & HG1 & Hg1).
  apply (yb _ _ _ _ (sk_spread_ok n i sc pb p _ Hni Hpb eq_refl ltac:(congruence))). intros P1 (SP1 & p1 & HP1 & Hp1).
  apply (yb _ _ _ _ (xor_pq_ok colo (FI n) P1 km _ _ Hn HP1 Hkm)). intros P2 (HP2 & SP2).
  apply (yb _ _ _ _ (and_ok prf colo Hprf (FI n) P G1 _ _ Hn HP HG1)). intros t (Ht & St).
  apply (yb _ _ _ _ (xor_pp_ok colo (FI n) G t _ _ Hn HG Ht)). intros G' (HG' & SG').
  apply (yb _ _ _ _ (and_ok prf colo Hprf (FI n) P P2 _ _ Hn HP HP2)). intros P' (HP' & SP').
  apply y_ret. cbn [fst snd]. split; [congruence|]. split. { rewrite SP', SP2, SP1, SP_. apply Bool.orb_diag. }
  do 2 eexists. split; [exact HG'|]. split; [exact HP'|]. rewrite E2.
  apply (sk_step x y n s g p g1); try assumption.
  intros j Hj. rewrite Z.lxor_spec, (Hp1 j Hj), (proj1 (sk_masks n i j Hni Hj)). fold s.
  destruct (j mod (2 * s) <? s); [reflexivity|apply Bool.xorb_false_r].
Qed.
Lemma sk_loop_ok n x y sc m : forall i G P g p, (n = 64 /\ (i + m <= 6)%nat) \/ (n = 128 /\ (i + m <= 7)%nat) ->
  boolean (FI n) G g -> boolean (FI n) P p -> psc G = sc -> psc P = sc ->
  SG x y n (2 ^ Z.of_nat i) g -> SP x y n (2 ^ Z.of_nat i) p ->
  yields (sk_loop prf colo m i G P) (fun gp => psc (fst gp) = sc /\ exists g',
    boolean (FI n) (fst gp) g' /\ SG x y n (2 ^ Z.of_nat (i + m)) g').
Proof.
  induction m as [|m IH]; intros i G P g p Him HG HP SG_ SP_ Ig Ip; cbn [sk_loop].
  - apply y_ret. rewrite Nat.add_0_r. split; [exact SG_|]. exists g. auto.
  - assert (Hni : (n = 64 /\ (i < 6)%nat) \/ (n = 128 /\ (i < 7)%nat)) by lia.
    apply (yb _ _ _ _ (sk_round_ok n x y i G P g p sc Hni HG HP SG_ SP_ Ig Ip)). intros gp (S1 & S2 & g' & p' & B1 & B2 & J1 & J2).
    rewrite <- Nat.add_succ_comm. eapply IH; [lia|exact B1|exact B2|exact S1|exact S2|exact J1|exact J2].
Qed.
Lemma sk_bits n k u v g : 0 < n -> 0 < k <= n -> SG u v n (2 ^ Z.of_nat (0 + log2c k)) g ->
  forall j, 0 <= j < k -> Z.testbit (Z.lxor (swrap n (Z.shiftl g 1)) (Z.lxor u v)) j = Z.testbit (u + v) j.
Proof.
  intros Hn Hk Ig. apply prefix_sum; [exact Hn|lia|]. intros j Hj. rewrite (Ig j) by lia. f_equal.
  pose proof (log2c_pow k ltac:(lia)). rewrite Nat.add_0_l. rewrite Z.mod_small by lia. lia.
Qed.
Lemma sk_size n k : adder_size n -> 0 < k <= n -> (n = 64 /\ (0 + log2c k <= 6)%nat) \/ (n = 128 /\ (0 + log2c k <= 7)%nat).
Proof.
  intros [-> | ->] Hk; [left|right]; (split; [reflexivity|]); apply log2c_le; lia.
Qed.
(** Only the low [k] bits of the result are meaningful. *)
Lemma ppa_sk_ok n x y u v nb k : adder_size n -> boolean (FI n) x u -> boolean (FI n) y v -> psc y = psc x ->
  k = match nb with Some k => k | None => n end -> 0 < k <= n ->
  yields (ppa_sk prf colo x y nb) (fun z => psc z = psc x /\ exists w,
    boolean (FI n) z w /\ w mod 2 ^ k = (u + v) mod 2 ^ k).
Proof.
  intros Ha Hx Hy Hs Hk Hkn. assert (Hn : 0 < n) by (destruct Ha; lia).
  assert (Fx : pfc x = FI n) by apply Hx. assert (Fy : pfc y = FI n) by apply Hy.
  unfold ppa_sk. rewrite Fx, Fy. apply y_assert; [apply Z.eqb_refl|]. rewrite adder_i64 by exact Ha. cbn [negb fbits].
  apply (yb _ _ _ _ (and_ok prf colo Hprf (FI n) x y u v Hn Hx Hy)). intros G (HG & SG_).
  apply (yb _ _ _ _ (xor_pp_ok colo (FI n) x y u v Hn Hx Hy)). intros P (HP & SP_).
  cbv zeta. rewrite <- Hk. destruct (sk_init u v n) as (I1 & I2).
  rewrite Hs, Bool.orb_diag in SG_.
  assert (Hl : (n = 64 /\ (0 + log2c k <= 6)%nat) \/ (n = 128 /\ (0 + log2c k <= 7)%nat)).
  { exact (sk_size n k Ha Hkn). }
  apply (yb _ _ _ _ (sk_loop_ok n u v (psc x) (log2c k) 0 G P _ _ Hl HG HP SG_ SP_ I1 I2)).
  intros gp (Sg & g' & Hg & Ig).
  apply (yb _ _ _ _ (lshift_bool_ok colo n _ _ 1 Hn Hg)). intros C (HC & SC).
  apply (yb _ _ _ _ (xor_pp_ok colo (FI n) x y u v Hn Hx Hy)). intros P0 (HP0 & SP0).
  eapply y_weaken; [exact (xor_pp_ok colo (FI n) C P0 _ _ Hn HC HP0)|]. intros z (Hz & Sz).
  split; [congruence|]. eexists. split; [exact Hz|]. apply (bits_eqm k); [clear - Hkn; lia|].
  exact (sk_bits n k u v g' Hn Hkn Ig).
Qed.
End Circ.
