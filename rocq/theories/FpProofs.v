(** Lemmas about the fixed-point programs of [FpModel]: bits, conversions and normalisation. *)
From Verif Require Import Base TensorModel TensorProofs Aby3Model Aby3Spec Aby3Bits Aby3Proofs Aby3Trunc Adder Aby3Circ Aby3Cmp Aby3Net FpModel FpSpec.
From Coq Require Import ZifyBool.

(** * Reversing the bits of a word *)
Lemma rev_fold n v c : forall acc, 0 <= acc ->
  (forall j, 0 <= j -> Z.testbit (fold_left (fun acc t => if Z.testbit v (n - 1 - Z.of_nat t) then Z.lor acc (Z.shiftl 1 (Z.of_nat t)) else acc) (seq 0 c) acc) j =
    (Z.testbit acc j || ((j <? Z.of_nat c) && Z.testbit v (n - 1 - j)))) /\
  0 <= fold_left (fun acc t => if Z.testbit v (n - 1 - Z.of_nat t) then Z.lor acc (Z.shiftl 1 (Z.of_nat t)) else acc) (seq 0 c) acc.
Proof.
  induction c as [|c IH]; intros acc Ha.
  - cbn [seq fold_left]. split; [|exact Ha]. intros j Hj. destruct (Z.ltb_spec j (Z.of_nat 0)); [lia|]. cbn. rewrite Bool.orb_false_r. reflexivity.
  - rewrite seq_S, fold_left_app. cbn [fold_left]. destruct (IH acc Ha) as [I1 I2]. rewrite Nat.add_0_l.
    set (w := fold_left _ (seq 0 c) acc) in *. clearbody w. clear IH.
    destruct (Z.testbit v (n - 1 - Z.of_nat c)) eqn:E.
    + split.
      * intros j Hj. rewrite Z.lor_spec, (I1 j Hj), Z.shiftl_1_l. rewrite Z.pow2_bits_eqb by lia.
        destruct (Z.eqb_spec (Z.of_nat c) j) as [Ej|Ej].
        { subst j. rewrite E. destruct (Z.ltb_spec (Z.of_nat c) (Z.of_nat (S c))); [|lia]. cbn [andb]. rewrite !Bool.orb_true_r. reflexivity. }
        { rewrite Bool.orb_false_r. f_equal. f_equal. lia. }
      * apply Z.lor_nonneg. split; [exact I2|]. apply Z.shiftl_nonneg. lia.
    + split; [|exact I2]. intros j Hj. rewrite (I1 j Hj).
      destruct (Z.eqb_spec (Z.of_nat c) j) as [Ej|Ej].
      * subst j. rewrite E. rewrite !Bool.andb_false_r. reflexivity.
      * f_equal. f_equal. lia.
Qed.
Lemma rev_bits_spec n v i : 0 < n -> 0 <= i -> Z.testbit (rev_bits n v) i = Z.testbit v (n - 1 - Z.min i (n - 1)).
Proof.
  intros Hn Hi. unfold rev_bits. rewrite swrap_bits by assumption.
  rewrite (proj1 (rev_fold n v _ 0 ltac:(lia))) by lia. rewrite Z.testbit_0_l. cbn [orb].
  destruct (Z.ltb_spec (Z.min i (n - 1)) (Z.of_nat (Z.to_nat n))); [reflexivity|lia].
Qed.
Lemma rev_bits_in n v : 0 < n -> in_s n (rev_bits n v).
Proof. intros. apply swrap_range. assumption. Qed.
Lemma rev_bits_lxor n a b : 0 < n -> rev_bits n (Z.lxor a b) = Z.lxor (rev_bits n a) (rev_bits n b).
Proof. intros Hn. apply Z.bits_inj'. intros i Hi. rewrite Z.lxor_spec, !rev_bits_spec, Z.lxor_spec by assumption. reflexivity. Qed.

(** * Running ORs *)
Fixpoint or_val (r : nat) (e w : Z) : Z := match r with O => w | S r => or_val r (2 * e) (Z.lor w (Z.shiftr w e)) end.
(** Bit [i] of [w] tells whether one of the [c] bits of [w0] from [i] upwards is set. *)
Definition covers (c w0 w : Z) : Prop := forall i, 0 <= i -> (Z.testbit w i = true <-> exists l, i <= l < i + c /\ Z.testbit w0 l = true).
Lemma covers_double c w0 w : 0 < c -> covers c w0 w -> covers (2 * c) w0 (Z.lor w (Z.shiftr w c)).
Proof.
  intros Hc H i Hi. rewrite Z.lor_spec, Z.shiftr_spec, Bool.orb_true_iff by exact Hi. rewrite (H i Hi), (H (i + c) ltac:(lia)). split.
  - intros [(l & A & B) | (l & A & B)]; exists l; split; try assumption; lia.
  - intros (l & A & B). destruct (Z.lt_ge_cases l (i + c)); [left|right]; exists l; split; try assumption; lia.
Qed.
Lemma or_val_covers r : forall e w0 w, 0 < e -> covers e w0 w -> covers (e * 2 ^ Z.of_nat r) w0 (or_val r e w).
Proof.
  induction r as [|r IH]; intros e w0 w He H.
  - cbn [or_val]. replace (e * 2 ^ Z.of_nat 0) with e by (cbn; lia). exact H.
  - cbn [or_val]. rewrite Nat2Z.inj_succ, Z.pow_succ_r by lia. replace (e * (2 * 2 ^ Z.of_nat r)) with (2 * e * 2 ^ Z.of_nat r) by ring.
    apply IH; [lia|]. apply covers_double; assumption.
Qed.
Lemma covers_1 w : covers 1 w w.
Proof. intros i Hi. split; [intros H; exists i; split; [lia|exact H]|]. intros (l & A & B). replace i with l by lia. exact B. Qed.

Lemma neg_bits m w l : 0 < m -> - 2 ^ (m - 1) <= w -> w < 0 -> m - 1 <= l -> Z.testbit w l = true.
Proof.
  intros Hm Hw Hn Hl. rewrite <- (Z.opp_involutive w), Z.bits_opp by lia. apply Bool.negb_true_iff.
  destruct (Z.eq_dec (- w) 1) as [->|Hne]; [apply Z.testbit_0_l|].
  apply Z.bits_above_log2; [lia|]. apply Z.log2_lt_pow2; [lia|]. eapply Z.lt_le_trans; [|apply Z.pow_le_mono_r with (b := m - 1); lia]. lia.
Qed.
(** The highest set bit of a positive word; 0 for the others. *)
Definition top (w : Z) : Z := if 0 <? w then 2 ^ Z.log2 w else 0.
Lemma top_ok m w : 0 < m -> in_s m w ->
  let y := or_val (log2c m) 1 w in Z.lxor y (Z.shiftr y 1) = top w.
Proof.
  intros Hm Hw y.
  assert (Hc : covers (1 * 2 ^ Z.of_nat (log2c m)) w y) by (apply or_val_covers; [lia|apply covers_1]).
  rewrite Z.mul_1_l in Hc. pose proof (log2c_pow m Hm) as Hl. set (c := 2 ^ Z.of_nat (log2c m)) in *. clearbody c y.
  unfold top. destruct (Z.ltb_spec 0 w) as [Hp|Hp].
  - pose proof (Z.log2_spec w Hp) as [L1 L2]. pose proof (Z.log2_nonneg w) as L0.
    assert (Hj : Z.log2 w < m). { apply Z.log2_lt_pow2; [exact Hp|]. destruct Hw as [_ Hw]. eapply Z.lt_le_trans; [exact Hw|]. apply Z.pow_le_mono_r; lia. }
    assert (Hy : forall i, 0 <= i -> Z.testbit y i = (i <=? Z.log2 w)).
    { intros i Hi. destruct (Z.leb_spec i (Z.log2 w)).
      - apply Hc; [exact Hi|]. exists (Z.log2 w). split; [lia|]. apply Z.bit_log2. exact Hp.
      - apply Bool.not_true_iff_false. intros E. apply Hc in E; [|exact Hi]. destruct E as (l & A & B).
        rewrite Z.bits_above_log2 in B by lia. discriminate. }
    apply Z.bits_inj'. intros i Hi. rewrite Z.lxor_spec, Z.shiftr_spec by exact Hi. rewrite !Hy by lia.
    rewrite Z.pow2_bits_eqb by exact L0. destruct (Z.leb_spec i (Z.log2 w)), (Z.leb_spec (i + 1) (Z.log2 w)), (Z.eqb_spec (Z.log2 w) i); try reflexivity; lia.
  - apply Z.bits_inj'. intros i Hi. rewrite Z.lxor_spec, Z.shiftr_spec, Z.bits_0 by exact Hi.
    destruct (Z.eq_dec w 0) as [->|Hne].
    + assert (Hy : forall i, 0 <= i -> Z.testbit y i = false).
      { intros l Hli. apply Bool.not_true_iff_false. intros E. apply Hc in E; [|exact Hli]. destruct E as (l' & A & B). rewrite Z.testbit_0_l in B. discriminate. }
      rewrite !Hy by lia. reflexivity.
    + assert (Hy : forall i, 0 <= i -> Z.testbit y i = true).
      { intros l Hli. apply Hc; [exact Hli|]. exists (l + c - 1). split; [lia|].
        apply neg_bits with m; [lia|destruct Hw; lia|lia|lia]. }
      rewrite !Hy by lia. reflexivity.
Qed.

(** * Exact products *)
Section Ops.
Context (prf : fac -> key -> Z -> nat -> Z) (colo : bool) (Hprf : prf_words prf).

(** The truncation of a product of two scaled values: rounded down or up, exact for a multiple. *)
Definition fits (n X : Z) : Prop := - 2 ^ (n - 2) <= X < 2 ^ (n - 2).
Definition rounded (k X r : Z) : Prop := (r = X / 2 ^ k \/ r = X / 2 ^ k + 1) /\ (X mod 2 ^ k = 0 -> r = X / 2 ^ k).
Lemma mul_round n k x y u v : 1 < n -> 0 <= k -> k + k <= n - 2 ->
  arith n x u -> arith n y v -> psc x = true -> psc y = true -> fits n (u * v) ->
  yields (mul_pp prf colo k x y) (fun z => psc z = true /\ exists r, rounded k (u * v) r /\ arith n z r).
Proof.
  intros Hn Hk Hb Hx Hy Sx Sy HX. unfold mul_pp.
  apply (y_bind _ _ _ _ (mul_raw_ok prf colo Hprf n x y u v ltac:(lia) Hx Hy)).
  intros z (Hz & Sz). rewrite Sx, Sy in *. cbn in Sz |- *. set (X := u * v) in *. clearbody X. unfold fits in HX.
  assert (E1 : 2 ^ (n - 1) = 2 * 2 ^ (n - 2)) by (rewrite (pow2_half (n - 1)) by lia; do 2 f_equal; lia).
  rewrite swrap_id in Hz; [|lia|unfold in_s; lia]. intros s.
  destruct (heuristic_at prf colo Hprf n k k z X s Hn Hk Hk ltac:(rewrite Sz; exact Hb) Hz) as (t & Et & St & Ht). cbv zeta in Ht.
  exists t. split; [exact Et|]. split; [congruence|].
  assert (EY : swrap n (X + 2 ^ (n - 2)) = X + 2 ^ (n - 2)) by (apply swrap_id; [lia|]; unfold in_s; lia).
  rewrite EY in Ht. set (r := sq8_mask prf n s) in *.
  replace (sq8_g n (X + 2 ^ (n - 2)) r) with 0 in Ht by (unfold sq8_g; destruct (Z.ltb_spec (X + 2 ^ (n - 2)) 0); [lia|reflexivity]).
  assert (E2 : 2 ^ (n - 2) = 2 ^ (n - 2 - k) * 2 ^ k) by (rewrite <- pow2_split by lia; f_equal; lia).
  pose proof (pow2_pos k ltac:(lia)) as Hp.
  assert (ED : (X + 2 ^ (n - 2)) / 2 ^ k = X / 2 ^ k + 2 ^ (n - 2 - k)) by (rewrite E2, Z.div_add by lia; reflexivity).
  rewrite ED in Ht. set (e := sq8_e k (X + 2 ^ (n - 2)) r) in *.
  replace (X / 2 ^ k + 2 ^ (n - 2 - k) + e + 0 * 2 ^ (n - k) - 2 ^ (n - 2 - k)) with (X / 2 ^ k + e) in Ht by ring.
  assert (He : e = 0 \/ e = 1) by (unfold e, sq8_e; destruct (_ <=? _); auto).
  assert (He0 : X mod 2 ^ k = 0 -> e = 0).
  { intros H0. unfold e, sq8_e. rewrite E2, Z.mod_add, H0 by lia. pose proof (Z.mod_pos_bound r (2 ^ k) Hp). destruct (Z.leb_spec (2 ^ k) (0 + r mod 2 ^ k)); [lia|reflexivity]. }
  assert (X / 2 ^ k < 2 ^ (n - 2)). { apply Z.div_lt_upper_bound; nia. }
  assert (- 2 ^ (n - 2) <= X / 2 ^ k). { apply Z.div_le_lower_bound; nia. }
  rewrite swrap_id in Ht; [|lia|unfold in_s; lia].
  exists (X / 2 ^ k + e). split; [|exact Ht]. split; [lia|]. intros Hm. specialize (He0 Hm). lia.
Qed.

Lemma mul_exact n k x y u v r : 1 < n -> 0 <= k -> k + k <= n - 2 ->
  arith n x u -> arith n y v -> psc x = true -> psc y = true -> fits n (u * v) -> u * v = r * 2 ^ k ->
  yields (mul_pp prf colo k x y) (fun z => psc z = true /\ arith n z r).
Proof.
  intros Hn Hk Hb Hx Hy Sx Sy HX Hr. pose proof (pow2_pos k ltac:(lia)) as Hp.
  eapply y_weaken; [exact (mul_round n k x y u v Hn Hk Hb Hx Hy Sx Sy HX)|]. intros z (Sz & r' & (_ & Hr') & Hz).
  split; [exact Sz|]. rewrite Hr in Hr'. rewrite Z.mod_mul, Z.div_mul in Hr' by lia. rewrite (Hr' eq_refl) in Hz. exact Hz.
Qed.

(** * Conversions *)
Lemma scale_as_arith n sc x v : arith n x v -> arith n (scale_as sc x) v.
Proof. exact (fun H => H). Qed.
Lemma unscale_boolean f x v : boolean f x v -> boolean f (unscale x) v.
Proof. exact (fun H => H). Qed.

Lemma b2z_lxor a b i : Z.b2z (Z.testbit (Z.lxor a b) i) = Z.lxor (Z.b2z (Z.testbit a i)) (Z.b2z (Z.testbit b i)).
Proof. rewrite Z.lxor_spec. destruct (Z.testbit a i), (Z.testbit b i); reflexivity. Qed.
Lemma bit_of_ok n i x u : 0 < n -> boolean (FI n) x u ->
  yields (bit_of colo i x) (fun z => boolean FB z (Z.b2z (Z.testbit u i)) /\ psc z = false).
Proof.
  intros Hn Hx. unfold bit_of. apply y_assert. { unfold is_arith. destruct Hx as (_ & -> & _). reflexivity. }
  eapply yb; [apply (sharewise_bool_ok colo (fun v => Z.b2z (Z.testbit v i)) (FI n) FB x u Hx)|].
  - intros a _. cbn. destruct (Z.testbit a i); auto.
  - intros a b _ _. apply b2z_lxor.
  - exact Hn.
  - intros z (Hz & _). apply y_ret. split; [apply unscale_boolean, Hz|reflexivity].
Qed.
Lemma b2a_term_ok n i x u : 1 < n -> 0 <= i < n - 1 -> boolean (FI n) x u ->
  yields (b2a_term prf colo (FI n) i x) (fun z => arith n z (Z.b2z (Z.testbit u i) * 2 ^ i) /\ psc z = false).
Proof.
  intros Hn Hi Hx. unfold b2a_term.
  eapply yb; [apply (bit_of_ok n i x u); [lia|exact Hx]|]. intros b (Hb & Sb).
  eapply yb; [apply (b2a_single_ok prf colo Hprf n b _ Hn (proj2 Hb))|]. intros a (Ha & Sa).
  eapply yb; [apply (const_ok colo (FI n)); cbn; lia|]. intros w (Hw & Sw).
  assert (P : 2 ^ i < 2 ^ (n - 1)) by (apply Z.pow_lt_mono_r; lia). pose proof (pow2_pos i ltac:(lia)).
  cbn [fcast] in Hw. rewrite swrap_id in Hw; [|lia|unfold in_s; lia].
  eapply y_weaken; [apply (mul_pq_unscaled_ok prf colo n 0 a w _ _ ltac:(lia) Ha Hw); rewrite Sa; reflexivity|].
  intros z (Hz & Sz). rewrite swrap_id in Hz; [|lia|]. 2:{ unfold in_s. destruct (Z.testbit u i); cbn [Z.b2z]; lia. }
  split; [exact Hz|]. rewrite Sz, Sa, Sw. reflexivity.
Qed.
Lemma mod_pow_step u i : 0 <= i -> u mod 2 ^ (i + 1) = u mod 2 ^ i + Z.b2z (Z.testbit u i) * 2 ^ i.
Proof.
  intros Hi. pose proof (pow2_pos i Hi). rewrite Z.pow_add_r by lia. change (2 ^ 1) with 2. rewrite Z.rem_mul_r by lia.
  rewrite Z.testbit_odd, Z.shiftr_div_pow2 by lia. rewrite (Zmod_odd (u / 2 ^ i)). destruct (Z.odd _); cbn [Z.b2z]; ring.
Qed.
Lemma b2a_sum_ok n x u : 1 < n -> boolean (FI n) x u -> forall c i acc, 0 <= i -> i + Z.of_nat c < n ->
  arith n acc (u mod 2 ^ i) -> psc acc = false ->
  yields (b2a_sum prf colo (FI n) c i x acc) (fun z => arith n z (u mod 2 ^ (i + Z.of_nat c)) /\ psc z = false).
Proof.
  intros Hn Hx. induction c as [|c IH]; intros i acc Hi Hc Ha Sa; cbn [b2a_sum].
  - apply y_ret. rewrite Z.add_0_r. auto.
  - eapply yb; [apply (b2a_term_ok n i x u); [exact Hn|lia|exact Hx]|]. intros t (Ht & St).
    eapply yb; [apply (add_pp_ok colo n acc t _ _ ltac:(lia) Ha Ht)|]. intros acc' (Ha' & Sa').
    rewrite <- mod_pow_step in Ha' by exact Hi.
    assert (P : 2 ^ (i + 1) <= 2 ^ (n - 1)) by (apply Z.pow_le_mono_r; lia).
    pose proof (Z.mod_pos_bound u (2 ^ (i + 1)) (pow2_pos (i + 1) ltac:(lia))).
    rewrite swrap_id in Ha'; [|lia|unfold in_s; lia].
    replace (i + Z.of_nat (S c)) with (i + 1 + Z.of_nat c) by lia. apply IH; [lia|lia|exact Ha'|congruence].
Qed.
Lemma b2a_bits_ok n k x u : 1 < n -> 0 < k < n -> boolean (FI n) x u ->
  yields (b2a_bits prf colo k x) (fun z => arith n z (u mod 2 ^ k) /\ psc z = psc x).
Proof.
  intros Hn Hk Hx. unfold b2a_bits. assert (Fx : pfc x = FI n) by apply Hx. rewrite Fx. cbn [fbits].
  destruct (Z.eqb_spec k n); [lia|].
  apply y_assert. { unfold is_arith. destruct Hx as (_ & -> & _). reflexivity. }
  eapply yb; [apply (b2a_term_ok n 0 x u Hn ltac:(lia) Hx)|]. intros t (Ht & St).
  eapply yb.
  - apply (b2a_sum_ok n x u Hn Hx (Z.to_nat (k - 1)) 1 t); [lia|lia| |exact St].
    replace 1 with (0 + 1) at 1 by reflexivity. rewrite mod_pow_step by lia. change (2 ^ 0) with 1 in *. rewrite Z.mod_1_r. exact Ht.
  - intros z (Hz & _). apply y_ret. replace (1 + Z.of_nat (Z.to_nat (k - 1))) with k in Hz by lia. split; [apply scale_as_arith, Hz|reflexivity].
Qed.

Lemma bit_reverse_ok n x u : 0 < n -> boolean (FI n) x u ->
  yields (bit_reverse colo x) (fun z => boolean (FI n) z (rev_bits n u) /\ psc z = psc x).
Proof.
  intros Hn Hx. unfold bit_reverse. apply y_assert. { unfold is_arith. destruct Hx as (_ & -> & _). reflexivity. }
  assert (Fx : pfc x = FI n) by apply Hx. rewrite Fx. cbn [fbits].
  apply (sharewise_bool_ok colo (rev_bits n) (FI n) (FI n) x u Hx); [| |exact Hn].
  - intros a _. apply rev_bits_in, Hn.
  - intros a b _ _. apply rev_bits_lxor, Hn.
Qed.

Lemma or_loop_ok n : 0 < n -> forall r e b u, 0 <= e -> boolean (FI n) b u ->
  yields (or_loop prf colo r e b) (fun z => boolean (FI n) z (or_val r e u) /\ psc z = psc b).
Proof.
  intros Hn. induction r as [|r IH]; intros e b u He Hb; cbn [or_loop or_val].
  - apply y_ret. auto.
  - eapply yb; [apply (rshift_bool_ok colo n b u e Hn He Hb)|]. intros t (Ht & St).
    eapply yb; [apply (or_ok prf colo Hprf (FI n) b t _ _ Hn Hb Ht)|]. intros b' (Hb' & Sb').
    eapply y_weaken; [apply (IH (2 * e) b' _ ltac:(lia) Hb')|]. intros z (Hz & Sz). split; [exact Hz|congruence].
Qed.

(** * Normalisation *)
Lemma low_bits n m v : 0 < m < n -> Z.shiftr (swrap n (Z.shiftl (v mod 2 ^ m) (n - m))) (n - m) = swrap m v.
Proof.
  intros Hm. apply Z.bits_inj'. intros i Hi. rewrite Z.shiftr_spec by exact Hi. rewrite !swrap_bits by lia.
  rewrite Z.shiftl_spec by lia. rewrite mod_pow2_bits by lia.
  replace (Z.min (i + (n - m)) (n - 1) - (n - m)) with (Z.min i (m - 1)) by lia.
  destruct (Z.ltb_spec (Z.min i (m - 1)) m); [reflexivity|lia].
Qed.
Lemma top_bit_ok n m x v : adder_size n -> 0 < m < n -> arith n x v ->
  yields (top_bit prf colo m x) (fun z => boolean (FI n) z (top (swrap m v)) /\ psc z = psc x).
Proof.
  intros Ha Hm Hx. assert (Hn : 0 < n) by lia. unfold top_bit. assert (Fx : pfc x = FI n) by apply Hx. rewrite Fx. cbn [fbits].
  eapply yb; [apply (a2b_ok prf colo Hprf n x v (Some m) m Ha Hx eq_refl); lia|]. intros b (Sb & Hb).
  destruct (Z.ltb_spec m n); [|lia].
  eapply yb; [apply (lshift_bool_ok colo n b _ (n - m) Hn Hb)|]. intros b1 (Hb1 & Sb1).
  eapply yb; [apply (rshift_bool_ok colo n b1 _ (n - m) Hn ltac:(lia) Hb1)|]. intros b2 (Hb2 & Sb2).
  rewrite low_bits in Hb2 by exact Hm.
  eapply yb; [apply (or_loop_ok n Hn (log2c m) 1 b2 _ ltac:(lia) Hb2)|]. intros y (Hy & Sy).
  eapply yb; [apply (rshift_bool_ok colo n y _ 1 Hn ltac:(lia) Hy)|]. intros y1 (Hy1 & Sy1).
  eapply y_weaken; [apply (xor_pp_ok colo (FI n) y y1 _ _ Hn Hy Hy1)|]. intros z (Hz & Sz).
  assert (M0 : 0 < m) by (clear - Hm; lia). rewrite (top_ok m (swrap m v) M0 (swrap_range m v M0)) in Hz. split; [exact Hz|congruence].
Qed.

(** 2^(2k-1-j) for a word whose highest bit is [j]. *)
Definition expo (k w : Z) : Z := if 0 <? w then 2 ^ (2 * k - 1 - Z.log2 w) else 0.
Lemma expo_ok n k w : 0 < k -> 2 * k < n -> w < 2 ^ (2 * k) -> Z.shiftr (rev_bits n (top w)) (n - 2 * k) mod 2 ^ (2 * k) = expo k w.
Proof.
  intros Hk Hn Hw. apply Z.bits_inj'. intros i Hi. rewrite mod_pow2_bits by lia. rewrite Z.shiftr_spec by exact Hi. rewrite rev_bits_spec by lia.
  unfold top, expo. destruct (Z.ltb_spec 0 w) as [Hp|Hp].
  - assert (Hl : Z.log2 w < 2 * k) by (apply Z.log2_lt_pow2; assumption). pose proof (Z.log2_nonneg w).
    rewrite Z.pow2_bits_eqb by lia. destruct (Z.ltb_spec i (2 * k)).
    + rewrite Z.pow2_bits_eqb by lia. cbn [andb]. lia.
    + rewrite Z.pow2_bits_eqb by lia. cbn [andb]. symmetry. apply Z.eqb_neq. lia.
  - rewrite !Z.testbit_0_l. apply Bool.andb_false_r.
Qed.

Lemma sgn_one p v : p - (if v <? 0 then 1 else 0) * (2 * p) = Z.sgn (2 * v + 1) * p.
Proof. destruct (Z.ltb_spec v 0); [rewrite Z.sgn_neg by lia|rewrite Z.sgn_pos by lia]; ring. Qed.
Lemma sgn_mul p v : Z.sgn (2 * v + 1) * p * v = Z.abs v * p.
Proof. destruct (Z.ltb_spec v 0); [rewrite Z.sgn_neg, Z.abs_neq by lia|rewrite Z.sgn_pos, Z.abs_eq by lia]; ring. Qed.
Lemma sgn_in n p v : 0 < p -> p < 2 ^ (n - 1) -> in_s n (Z.sgn (2 * v + 1) * p).
Proof. intros Hp Hn. unfold in_s. destruct (Z.sgn_spec (2 * v + 1)) as [[_ ->] | [[? ->] | [_ ->]]]; lia. Qed.
Lemma sign_abs_ok n k m b v : pow2_size n -> 0 < k -> 0 < m -> k + k <= n - 2 -> k + m < n - 2 -> arith n b v -> psc b = true -> - 2 ^ m <= v < 2 ^ m ->
  yields (sign_abs prf colo k m b) (fun p => arith n (fst p) (Z.sgn (2 * v + 1) * 2 ^ k) /\ psc (fst p) = true /\ arith n (snd p) (Z.abs v) /\ psc (snd p) = true).
Proof.
  intros Hsz Hk Hm Hkk Hkm Hb Sb Hv. assert (Hn8 : 8 <= n) by (destruct Hsz as (e & _ & H); exact H). unfold sign_abs.
  assert (Fb : pfc b = FI n) by apply Hb. rewrite Fb.
  assert (Pk : 2 ^ (k + 1) <= 2 ^ (n - 2)) by (apply Z.pow_le_mono_r; lia). rewrite Z.pow_add_r in Pk by lia. change (2 ^ 1) with 2 in Pk.
  assert (E1 : 2 ^ (n - 1) = 2 * 2 ^ (n - 2)) by (rewrite (pow2_half (n - 1)) by lia; do 2 f_equal; lia).
  pose proof (pow2_pos k ltac:(zl)) as Pk0. pose proof (pow2_pos m ltac:(zl)) as Pm0.
  assert (Pkm : 2 ^ k * 2 ^ m < 2 ^ (n - 2)) by (rewrite <- Z.pow_add_r by lia; apply Z.pow_lt_mono_r; lia).
  eapply yb; [apply (bit_extract_ok prf colo Hprf n b v m Hsz Hb); lia|]. intros t (Ht & St).
  eapply yb; [apply (const_ok colo (FI n) (2 * 2 ^ k) true); cbn; zl|]. intros two (Htwo & Stwo).
  cbn [fcast] in Htwo. rewrite swrap_id in Htwo; [|zl|unfold in_s; zl].
  eapply yb; [apply (mul_ab_qp_ok prf colo Hprf n two t _ _ ltac:(zl) Htwo (proj2 Ht))|]. intros t2 (Ht2 & St2).
  assert (EB : Z.b2z (Z.testbit v m) = if v <? 0 then 1 else 0).
  { destruct (Z.ltb_spec v 0).
    - rewrite (neg_bits (m + 1)); [reflexivity|lia|replace (m + 1 - 1) with m by lia; lia|lia|lia].
    - assert (Z.testbit v m = false) as ->; [|reflexivity]. apply Z.testbit_false; [lia|]. rewrite Z.div_small by lia. reflexivity. }
  rewrite EB in Ht2.
  rewrite swrap_id in Ht2; [|zl|unfold in_s; destruct (v <? 0); zl].
  eapply yb; [apply (const_ok colo (FI n) (2 ^ k) true); cbn; zl|]. intros one (Hone & Sone).
  cbn [fcast] in Hone. rewrite swrap_id in Hone; [|zl|unfold in_s; zl].
  eapply yb; [apply (sub_qp_ok colo n one t2 _ _ ltac:(zl) Ht2 Hone)|]. intros sg (Hsg & Ssg).
  rewrite sgn_one in Hsg. rewrite swrap_id in Hsg; [|zl|apply sgn_in; zl].
  pose proof (sgn_mul (2 ^ k) v) as EA.
  eapply yb; [apply (mul_exact n k sg b _ v (Z.abs v) ltac:(zl) ltac:(zl) Hkk Hsg Hb); [congruence|exact Sb| |exact EA]|].
  - unfold fits. rewrite EA. clear - Hv Pkm Pk0 Pm0. assert (Z.abs v <= 2 ^ m) by lia. nia.
  - intros x (Sx & Hx). apply y_ret. cbn [fst snd]. repeat split; try assumption; try apply Hsg; try apply Hx; congruence.
Qed.

Lemma adder_pow2 n : adder_size n -> pow2_size n.
Proof. intros [-> | ->]; [exists 6%nat|exists 7%nat]; split; reflexivity || discriminate. Qed.
Definition sign_of (nonsigned : bool) (v : Z) : Z := if nonsigned then 1 else Z.sgn (2 * v + 1).

Lemma swrap_below m a : 0 < m -> 0 <= a < 2 ^ (m - 1) -> swrap m a = a.
Proof. intros Hm Ha. apply swrap_id; [exact Hm|]. unfold in_s. lia. Qed.
Lemma swrap_above m a : 0 < m -> 2 ^ (m - 1) <= a <= 2 ^ m -> swrap m a <= 0.
Proof.
  intros Hm Ha. pose proof (pow2_half m Hm) as E. unfold swrap. pose proof (pow2_pos (m - 1) ltac:(lia)).
  destruct (Z.eq_dec a (2 ^ m)) as [->|Hne].
  - replace (2 ^ m + 2 ^ (m - 1)) with (2 ^ (m - 1) + 1 * 2 ^ m) by ring. rewrite Z.mod_add, Z.mod_small by lia. lia.
  - replace (a + 2 ^ (m - 1)) with (a - 2 ^ (m - 1) + 1 * 2 ^ m) by lia. rewrite Z.mod_add, Z.mod_small by lia. lia.
Qed.
Lemma expo_above k m a : 0 < m -> 2 ^ (m - 1) <= a <= 2 ^ m -> expo k (swrap m a) = 0.
Proof. intros Hm Ha. pose proof (swrap_above m a Hm Ha). unfold expo. destruct (Z.ltb_spec 0 (swrap m a)); [lia|reflexivity]. Qed.

Lemma expo_mul k m a : 0 < k -> 0 < m < 2 * k -> 0 <= a <= 2 ^ m -> 0 <= a * expo k (swrap m a) < 2 ^ (2 * k).
Proof.
  intros Hk Hm Ha. destruct (Z.lt_ge_cases a (2 ^ (m - 1))) as [Hl|Hg].
  2:{ rewrite expo_above by lia. rewrite Z.mul_0_r. pose proof (pow2_pos (2 * k) ltac:(lia)). lia. }
  rewrite swrap_below by lia. unfold expo. pose proof (pow2_pos (2 * k) ltac:(lia)). destruct (Z.ltb_spec 0 a) as [Hp|Hp]; [|lia].
  pose proof (Z.log2_nonneg a). pose proof (Z.log2_spec a Hp) as [L1 L2].
  assert (Z.log2 a < m - 1) by (apply Z.log2_lt_pow2; assumption).
  assert (E : 2 ^ (2 * k) = 2 ^ (Z.succ (Z.log2 a)) * 2 ^ (2 * k - 1 - Z.log2 a)) by (rewrite <- Z.pow_add_r by lia; f_equal; lia).
  rewrite E. pose proof (pow2_pos (2 * k - 1 - Z.log2 a) ltac:(lia)). split; [nia|]. apply Z.mul_lt_mono_pos_r; assumption.
Qed.
Lemma expo_bound k m a : 0 < k -> 0 < m < 2 * k -> 0 <= a <= 2 ^ m -> 0 <= expo k (swrap m a) < 2 ^ (2 * k).
Proof.
  intros Hk Hm Ha. pose proof (pow2_pos (2 * k) ltac:(lia)) as P. destruct (Z.eq_dec a 0) as [->|Hne].
  - rewrite swrap_below by (try split; try lia; apply pow2_pos; lia). change (expo k 0) with 0. lia.
  - pose proof (expo_mul k m a Hk Hm Ha) as H. unfold expo in *. destruct (0 <? swrap m a); [|lia].
    set (e := 2 * k - 1 - Z.log2 (swrap m a)) in *. assert (0 <= 2 ^ e) by (apply Z.pow_nonneg; lia). nia.
Qed.

Lemma normalize_ok n k m b v nonsigned : fp_config n k m -> arith n b v -> psc b = true -> ranged m nonsigned v ->
  yields (fp_normalize prf colo k m b nonsigned) (fun p => let E := expo k (swrap m (Z.abs v)) in
    psc (fst p) = true /\ psc (snd p) = true /\ (exists g, rounded k (Z.abs v * E) g /\ arith n (fst p) g) /\ arith n (snd p) (sign_of nonsigned v * E)).
Proof.
  intros (Ha & Hk & Hm & Hn) Hb Sb Hv. cbv zeta. change (adder_size n) in Ha.
  assert (Hn0 : 8 <= n) by (clear - Ha; destruct Ha; lia).
  assert (Habs : 0 <= Z.abs v <= 2 ^ m) by (clear - Hv; destruct nonsigned; cbn in Hv; lia).
  assert (F1 : 1 < n /\ 0 < n /\ 0 <= k /\ k + k <= n - 2 /\ 0 < m < n /\ 0 <= n - 2 * k /\ 0 < 2 * k < n /\ 0 < k /\ 0 < m /\ k + m < n - 2) by (clear - Hk Hm Hn Hn0; lia).
  destruct F1 as (N1 & N0 & K0 & KK & M0 & NK & K2 & K1 & M1 & KM).
  set (a := Z.abs v) in *. set (w := swrap m a).
  assert (Hw : w < 2 ^ (2 * k)).
  { pose proof (swrap_range m a M1) as [_ H]. eapply Z.lt_le_trans; [exact H|]. apply Z.pow_le_mono_r; clear - Hk Hm; lia. }
  assert (P2 : 2 ^ (2 * k) < 2 ^ (n - 2)) by (apply Z.pow_lt_mono_r; clear - Hk Hm Hn; lia).
  pose proof (expo_mul k m a K1 (conj M1 Hm) Habs) as B1. pose proof (expo_bound k m a K1 (conj M1 Hm) Habs) as B2. fold w in B1, B2.
  assert (G1 : fits n (a * expo k w)) by (unfold fits; clear - B1 P2; lia).
  assert (G2 : fits n (sign_of false v * 2 ^ k * expo k w)).
  { assert (P3 : 2 ^ k * 2 ^ (2 * k) < 2 ^ (n - 2)) by (rewrite <- Z.pow_add_r by lia; apply Z.pow_lt_mono_r; lia).
    pose proof (pow2_pos k ltac:(lia)) as Pk. assert (S3 : Z.abs (sign_of false v) <= 1) by (cbn; lia).
    unfold fits. clear - P3 Pk S3 B2. set (E := expo k w) in *. set (p := 2 ^ k) in *. set (q := 2 ^ (2 * k)) in *. set (N := 2 ^ (n - 2)) in *. set (t := sign_of false v) in *. clearbody E p q N t.
    assert (p * E < N) by nia. assert (t = -1 \/ t = 0 \/ t = 1) as [-> | [-> | ->]] by lia; nia. }
  unfold fp_normalize. rewrite Sb. apply y_assert; [reflexivity|]. apply y_assert; [apply Z.ltb_lt, Hm|].
  assert (Fb : pfc b = FI n) by apply Hb. rewrite Fb. cbn [fbits].
  eapply yb with (P := fun p => (nonsigned = false -> arith n (fst p) (sign_of nonsigned v * 2 ^ k)) /\ psc (fst p) = true /\ arith n (snd p) a /\ psc (snd p) = true).
  { destruct nonsigned; cbn in Hv.
    - apply y_ret. cbn [fst snd]. unfold a. rewrite Z.abs_eq by (clear - Hv; lia). split; [discriminate|]. auto.
    - eapply y_weaken; [apply (sign_abs_ok n k m b v (adder_pow2 n Ha)); assumption|]. intros p (A & B & C & D). auto. }
  intros [sg x]. cbn [fst snd]. intros (Hsg & Ssg & Hx & Sx).
  eapply yb; [apply (top_bit_ok n m x a Ha M0 Hx)|]. intros z (Hz & Sz). fold w in Hz.
  eapply yb; [apply (bit_reverse_ok n z _ N0 Hz)|]. intros r (Hr & Sr).
  eapply yb; [apply (rshift_bool_ok colo n r _ (n - 2 * k) N0 NK Hr)|]. intros r1 (Hr1 & Sr1).
  eapply yb; [apply (b2a_bits_ok n (2 * k) r1 _ N1 K2 Hr1)|]. intros e (He & Se).
  rewrite (expo_ok n k w K1 (proj2 K2) Hw) in He.
  assert (He' : arith n (rescale e) (expo k w)) by exact He.
  eapply yb; [apply (mul_round n k x (rescale e) a (expo k w) N1 K0 KK Hx He' Sx eq_refl G1)|].
  intros sgf (Ssgf & g & Hg & Hsgf).
  eapply yb with (P := fun y => psc y = true /\ arith n y (sign_of nonsigned v * expo k w)).
  { destruct nonsigned.
    - apply y_ret. split; [reflexivity|]. cbn [sign_of]. rewrite Z.mul_1_l. exact He'.
    - apply (mul_exact n k sg (rescale e) _ (expo k w) (sign_of false v * expo k w) N1 K0 KK (Hsg eq_refl) He' Ssg eq_refl G2). ring. }
  intros ex (Sex & Hex). apply y_ret. cbn [fst snd]. split; [exact Ssgf|]. split; [exact Sex|]. split; [exists g; auto|exact Hex].
Qed.
End Ops.
