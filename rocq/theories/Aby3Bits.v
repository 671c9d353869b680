(** Bits of machine words: no model definitions, only facts about [swrap] and bitwise operations. *)
From Verif Require Import Base.

Lemma in_s_bits n v : 0 < n -> in_s n v -> forall i, n - 1 <= i -> Z.testbit v i = Z.testbit v (n - 1).
Proof.
  intros Hn [Hl Hh] i Hi.
  destruct (Z.lt_ge_cases v 0) as [Hv|Hv].
  - assert (Hb : forall j, n - 1 <= j -> Z.testbit v j = true).
    { intros j Hj. rewrite <- (Z.opp_involutive v). rewrite Z.bits_opp by lia.
      replace (Z.pred (- v)) with (- v - 1) by lia.
      apply Bool.negb_true_iff. apply Z.testbit_false; [lia|].
      rewrite Z.div_small; [reflexivity|]. split; [lia|].
      apply Z.lt_le_trans with (2 ^ (n - 1)); [lia|]. apply Z.pow_le_mono_r; lia. }
    rewrite !Hb by lia. reflexivity.
  - assert (Hb : forall j, n - 1 <= j -> Z.testbit v j = false).
    { intros j Hj. rewrite Z.testbit_false by lia.
      rewrite Z.div_small; [reflexivity|]. split; [lia|].
      apply Z.lt_le_trans with (2 ^ (n - 1)); [lia|]. apply Z.pow_le_mono_r; lia. }
    rewrite !Hb by lia. reflexivity.
Qed.

Lemma mod_pow2_bits m x i : 0 <= m -> 0 <= i -> Z.testbit (x mod 2 ^ m) i = (i <? m) && Z.testbit x i.
Proof.
  intros Hm Hi. destruct (Z.ltb_spec i m).
  - rewrite Z.mod_pow2_bits_low by lia. reflexivity.
  - rewrite Z.mod_pow2_bits_high by lia. reflexivity.
Qed.

Lemma eqm_bits m a b : 0 <= m -> eqm (2 ^ m) a b -> forall i, 0 <= i < m -> Z.testbit a i = Z.testbit b i.
Proof.
  intros Hm H i Hi. unfold eqm in H.
  rewrite <- (Z.mod_pow2_bits_low a m i), <- (Z.mod_pow2_bits_low b m i), H by lia. reflexivity.
Qed.
Lemma bits_eqm m a b : 0 <= m -> (forall i, 0 <= i < m -> Z.testbit a i = Z.testbit b i) -> eqm (2 ^ m) a b.
Proof.
  intros Hm H. unfold eqm. apply Z.bits_inj'. intros i Hi. rewrite !mod_pow2_bits by lia.
  destruct (Z.ltb_spec i m); [|reflexivity]. cbn. apply H; lia.
Qed.

Lemma swrap_bits n x i : 0 < n -> 0 <= i -> Z.testbit (swrap n x) i = Z.testbit x (Z.min i (n - 1)).
Proof.
  intros Hn Hi.
  assert (He : forall j, 0 <= j < n -> Z.testbit (swrap n x) j = Z.testbit x j).
  { intros j Hj. apply (eqm_bits n); [lia|apply swrap_eqm; lia|lia]. }
  destruct (Z.lt_ge_cases i n).
  - rewrite He by lia. f_equal. lia.
  - rewrite (in_s_bits n) by (try apply swrap_range; lia). rewrite He by lia. f_equal. lia.
Qed.

Lemma word_eq_bits n a b : 0 < n -> in_s n a -> in_s n b ->
  (forall i, 0 <= i < n -> Z.testbit a i = Z.testbit b i) -> a = b.
Proof. intros Hn Ha Hb H. apply (in_s_eqm_eq n); try assumption. apply bits_eqm; [lia|assumption]. Qed.

Lemma in_s_of_bits n v : 0 < n -> (forall i, n - 1 <= i -> Z.testbit v i = Z.testbit v (n - 1)) -> in_s n v.
Proof.
  intros Hn H. replace v with (swrap n v); [apply swrap_range; lia|].
  apply Z.bits_inj'. intros i Hi. rewrite swrap_bits by lia.
  destruct (Z.lt_ge_cases i (n - 1)); [f_equal; lia|].
  rewrite (H i) by lia. f_equal. lia.
Qed.

Lemma in_s_lxor n a b : 0 < n -> in_s n a -> in_s n b -> in_s n (Z.lxor a b).
Proof.
  intros Hn Ha Hb. apply in_s_of_bits; [lia|]. intros i Hi. rewrite !Z.lxor_spec.
  rewrite (in_s_bits n a Hn Ha i Hi), (in_s_bits n b Hn Hb i Hi). reflexivity.
Qed.
Lemma in_s_land n a b : 0 < n -> in_s n a -> in_s n b -> in_s n (Z.land a b).
Proof.
  intros Hn Ha Hb. apply in_s_of_bits; [lia|]. intros i Hi. rewrite !Z.land_spec.
  rewrite (in_s_bits n a Hn Ha i Hi), (in_s_bits n b Hn Hb i Hi). reflexivity.
Qed.
Lemma in_s_lnot n a : 0 < n -> in_s n a -> in_s n (Z.lnot a).
Proof.
  intros Hn Ha. apply in_s_of_bits; [lia|]. intros i Hi. rewrite !Z.lnot_spec by lia.
  rewrite (in_s_bits n a Hn Ha i Hi). reflexivity.
Qed.
Lemma in_s_shiftr n a k : 0 < n -> 0 <= k -> in_s n a -> in_s n (Z.shiftr a k).
Proof.
  intros Hn Hk Ha. apply in_s_of_bits; [lia|]. intros i Hi. rewrite !Z.shiftr_spec by lia.
  rewrite (in_s_bits n a Hn Ha (i + k)), (in_s_bits n a Hn Ha (n - 1 + k)) by lia. reflexivity.
Qed.

Lemma swrap_lxor n a b : 0 < n -> swrap n (Z.lxor a b) = Z.lxor (swrap n a) (swrap n b).
Proof.
  intros Hn. apply Z.bits_inj'. intros i Hi. rewrite Z.lxor_spec, !swrap_bits by lia. apply Z.lxor_spec.
Qed.
Lemma shiftl_lxor a b k : Z.shiftl (Z.lxor a b) k = Z.lxor (Z.shiftl a k) (Z.shiftl b k).
Proof. apply Z.shiftl_lxor. Qed.

Lemma b2z_01 b : Z.b2z b = 0 \/ Z.b2z b = 1.
Proof. destruct b; cbn; lia. Qed.
Lemma bit_lxor a b : a = 0 \/ a = 1 -> b = 0 \/ b = 1 -> Z.lxor a b = 0 \/ Z.lxor a b = 1.
Proof. intros [->| ->] [->| ->]; cbn; lia. Qed.
Lemma bit_land a b : a = 0 \/ a = 1 -> b = 0 \/ b = 1 -> Z.land a b = 0 \/ Z.land a b = 1.
Proof. intros [->| ->] [->| ->]; cbn; lia. Qed.

(** Decides equalities between xor/and/or/not combinations bit by bit. *)
Ltac bitblast :=
  apply Z.bits_inj'; let i := fresh "i" in let Hi := fresh "Hi" in intros i Hi;
  repeat first [rewrite Z.lxor_spec | rewrite Z.land_spec | rewrite Z.lor_spec | rewrite Z.bits_0
               | rewrite Z.lnot_spec by exact Hi];
  repeat match goal with |- context[Z.testbit ?a ?j] => let b := fresh "b" in
    set (b := Z.testbit a j); clearbody b; destruct b end; reflexivity.

Lemma land1 x : Z.land x 1 = Z.b2z (Z.testbit x 0).
Proof.
  apply Z.bits_inj'. intros i Hi. rewrite Z.land_spec.
  destruct (Z.eq_dec i 0) as [->|Hne].
  - rewrite Z.bit0_odd, Bool.andb_true_r. destruct (Z.odd x); reflexivity.
  - replace (Z.testbit 1 i) with false; [|symmetry; apply (Z.bits_above_log2 1); cbn; lia].
    rewrite Bool.andb_false_r. destruct (Z.testbit x 0); cbn [Z.b2z]; [|symmetry; apply Z.bits_0].
    symmetry. apply (Z.bits_above_log2 1); cbn; lia.
Qed.

Lemma swrap_eqm_all n z : eqm (2 ^ n) (swrap n z) z.
Proof.
  destruct (Z.lt_trichotomy n 0) as [H|[->|H]].
  - unfold swrap, eqm. rewrite !Z.pow_neg_r by lia. rewrite !Zmod_0_r. lia.
  - unfold eqm. rewrite !Z.mod_1_r. reflexivity.
  - apply swrap_eqm, H.
Qed.
(** Lets congruences be rewritten below a wrap-around. *)
#[export] Instance swrap_proper n : Proper (eqm (2 ^ n) ==> eqm (2 ^ n)) (swrap n).
Proof. intros a b H. rewrite !swrap_eqm_all. exact H. Qed.
