(** The private comparison, lsb and msb protocols of SecureNN. *)
From Coq Require Import ZArith Lia List Bool Znumtheory.
From Verif Require Import Base Factory TensorModel TensorProofs PondModel PondSpec PondProofs SnnModel SnnSpec SnnProofs SnnLift.
Import ListNotations.

(** ** The comparison on plain bit lists *)
Fixpoint ham (xs ss : list Z) : Z :=
  match xs, ss with x :: xs, s :: ss => x + s - x * s * 2 + ham xs ss | _, _ => 0 end.
Fixpoint cvec (sg : Z) (xs ss : list Z) : list Z :=
  match xs, ss with x :: xs, s :: ss => (s - x) * sg + 1 + ham xs ss :: cvec sg xs ss | _, _ => [] end.

Lemma ham_bounds xs : forall ss, Forall bit xs -> Forall bit ss -> 0 <= ham xs ss <= Z.of_nat (length xs).
Proof.
  induction xs as [|x xs IH]; intros ss Hx Hs; [cbn; lia|]. destruct ss as [|s ss]; [cbn [ham length]; lia|].
  inversion Hx; inversion Hs; subst. specialize (IH ss H2 H6). cbn [ham length].
  destruct H1, H5; subst; lia.
Qed.
Lemma ham_zero xs : forall ss, length xs = length ss -> Forall bit xs -> Forall bit ss -> (ham xs ss = 0 <-> xs = ss).
Proof.
  induction xs as [|x xs IH]; intros ss Hl Hx Hs; destruct ss as [|s ss]; try discriminate; [cbn; tauto|].
  inversion Hx; inversion Hs; subst. specialize (IH ss ltac:(cbn in Hl; lia) H2 H6). cbn [ham].
  pose proof (ham_bounds xs ss H2 H6). destruct H1, H5; subst; split; intros E.
  - f_equal. apply IH. lia.
  - inversion E; subst. rewrite (proj2 IH eq_refl). lia.
  - lia.
  - discriminate.
  - lia.
  - discriminate.
  - f_equal. apply IH. lia.
  - inversion E; subst. rewrite (proj2 IH eq_refl). lia.
Qed.
Lemma cvec_length sg xs : forall ss, length xs = length ss -> length (cvec sg xs ss) = length xs.
Proof. induction xs; intros [|s ss] H; try discriminate; [reflexivity|]. cbn. f_equal. apply IHxs. cbn in H; lia. Qed.
Lemma cvec_bounds sg xs : sg = 1 \/ sg = -1 -> forall ss, length xs = length ss -> Forall bit xs -> Forall bit ss ->
  Forall (fun c => 0 <= c <= Z.of_nat (length xs) + 1) (cvec sg xs ss).
Proof.
  intros Hg. induction xs as [|x xs IH]; intros ss Hl Hx Hs; [constructor|]. destruct ss as [|s ss]; [constructor|].
  inversion Hx; inversion Hs; subst. cbn [cvec]. constructor.
  - pose proof (ham_bounds xs ss H2 H6). cbn [length]. destruct H1, H5, Hg; subst; lia.
  - eapply Forall_impl; [|apply IH; try assumption; cbn in Hl; lia]. cbn beta. cbn [length]. intros; lia.
Qed.
Lemma bits_value_bounds xs : Forall bit xs -> 0 <= bits_value xs < 2 ^ Z.of_nat (length xs).
Proof.
  induction xs as [|x xs IH]; intros H; [cbn; lia|]. inversion H; subst. specialize (IH H3). cbn [bits_value length].
  rewrite Nat2Z.inj_succ, Z.pow_succ_r by lia. destruct H2; subst; lia.
Qed.
Lemma bits_value_inj xs : forall ss, length xs = length ss -> Forall bit xs -> Forall bit ss -> bits_value xs = bits_value ss -> xs = ss.
Proof.
  induction xs as [|x xs IH]; intros ss Hl Hx Hs E; destruct ss as [|s ss]; try discriminate; [reflexivity|].
  inversion Hx; inversion Hs; subst. cbn [bits_value] in E. 
  assert (x = s) by (destruct H1, H5; subst; lia). subst. f_equal. apply IH; try assumption; [cbn in Hl; lia|lia].
Qed.

Definition nzero (cs : list Z) : Z := zsum (map n_equal_zero cs).
Lemma cvec_zeros sg xs : sg = 1 \/ sg = -1 -> forall ss, length xs = length ss -> Forall bit xs -> Forall bit ss ->
  nzero (cvec sg xs ss) = Z.b2z (if sg =? 1 then bits_value ss <? bits_value xs else bits_value xs <? bits_value ss).
Proof.
  intros Hg. induction xs as [|x xs IH]; intros ss Hl Hx Hs; destruct ss as [|s ss]; try discriminate.
  { cbn. destruct (sg =? 1); reflexivity. }
  inversion Hx; inversion Hs; subst. assert (Hl' : length xs = length ss) by (cbn in Hl; lia).
  specialize (IH ss Hl' H2 H6). cbn [cvec]. unfold nzero in *. cbn [map]. unfold zsum in *. cbn [fold_right]. rewrite IH.
  pose proof (ham_bounds xs ss H2 H6) as HB. pose proof (ham_zero xs ss Hl' H2 H6) as HZ.
  assert (HI := bits_value_inj xs ss Hl' H2 H6).
  cbn [bits_value]. unfold n_equal_zero.
  destruct (Z.eq_dec (ham xs ss) 0) as [E0|E0].
  - apply HZ in E0. subst ss. rewrite Z.ltb_irrefl, (proj2 HZ eq_refl).
    replace (if sg =? 1 then false else false) with false by (destruct (sg =? 1); reflexivity).
    destruct Hg as [->| ->]; cbn [Z.eqb Pos.eqb];
    match goal with |- context [Z.ltb ?a ?b] => destruct (Z.ltb_spec a b) end;
    match goal with |- context [Z.eqb ?a ?b] => destruct (Z.eqb_spec a b) end;
    destruct H1, H5; subst; cbn [Z.b2z]; lia.
  - assert (bits_value xs <> bits_value ss) by (intros E; apply E0, HZ, HI, E).
    replace ((s - x) * sg + 1 + ham xs ss =? 0) with false
      by (symmetry; apply Z.eqb_neq; destruct H1, H5, Hg; subst; lia).
    destruct Hg as [->| ->]; cbn [Z.eqb Pos.eqb]; rewrite Z.add_0_l; f_equal;
    match goal with |- Z.ltb ?a ?b = Z.ltb ?c ?d => destruct (Z.ltb_spec a b), (Z.ltb_spec c d) end;
    destruct H1, H5; subst; try reflexivity; lia.
Qed.

Lemma cvec_nth sg xs : forall ss j, length xs = length ss -> (j < length xs)%nat ->
  nth j (cvec sg xs ss) 0 = (nth j ss 0 - nth j xs 0) * sg + 1 +
    zsum (map (fun k => nth k xs 0 + nth k ss 0 - nth k xs 0 * nth k ss 0 * 2) (seq (S j) (length xs - S j))).
Proof.
  assert (HH : forall xs ss, length xs = length ss -> ham xs ss =
    zsum (map (fun k => nth k xs 0 + nth k ss 0 - nth k xs 0 * nth k ss 0 * 2) (seq 0 (length xs)))).
  { clear. induction xs as [|x xs IH]; intros ss Hl; destruct ss as [|s ss]; try discriminate; [reflexivity|].
    cbn [ham length seq map]. unfold zsum. cbn [fold_right nth]. f_equal.
    rewrite (IH ss) by (cbn in Hl; lia). rewrite <- seq_shift, map_map. reflexivity. }
  induction xs as [|x xs IH]; intros ss j Hl Hj; destruct ss as [|s ss]; try discriminate; [cbn in Hj; lia|].
  assert (Hl' : length xs = length ss) by (cbn in Hl; lia).
  destruct j as [|j].
  - cbn [cvec nth length]. rewrite (HH xs ss Hl'). rewrite Nat.sub_succ, Nat.sub_0_r.
    rewrite <- seq_shift, map_map. reflexivity.
  - cbn [cvec nth length]. rewrite (IH ss j Hl' ltac:(cbn in Hj; lia)).
    rewrite Nat.sub_succ. rewrite <- (seq_shift (length xs - S j) (S j)), map_map. reflexivity.
Qed.

(** ** Flat index arithmetic *)
Lemma nth_flat {A B} (f : A -> list B) m l da db i j : (forall a, length (f a) = m) -> (i < length l)%nat -> (j < m)%nat ->
  nth (i * m + j) (flat_map f l) db = nth j (f (nth i l da)) db.
Proof.
  intros Hm. revert i. induction l as [|a l IH]; intros i Hi Hj; [cbn in Hi; lia|]. cbn [flat_map].
  destruct i as [|i].
  - cbn [nth Nat.mul Nat.add]. apply app_nth1. rewrite Hm. exact Hj.
  - rewrite app_nth2; rewrite Hm; [|cbn; lia]. cbn [nth]. replace (S i * m + j - m)%nat with (i * m + j)%nat by (cbn; lia).
    apply IH; [cbn in Hi; lia|exact Hj].
Qed.
Lemma flat_length {A B} (f : A -> list B) m l : (forall a, length (f a) = m) -> length (flat_map f l) = (length l * m)%nat.
Proof. intros Hm. induction l; [reflexivity|]. cbn. rewrite app_length, Hm, IHl. reflexivity. Qed.
Lemma flat_split m k n : (0 < m)%nat -> (k < n * m)%nat -> exists i j, k = (i * m + j)%nat /\ (i < n)%nat /\ (j < m)%nat.
Proof.
  intros Hm Hk. exists (k / m)%nat, (k mod m)%nat. pose proof (Nat.div_mod k m ltac:(lia)).
  pose proof (Nat.mod_upper_bound k m ltac:(lia)).
  split; [rewrite Nat.mul_comm; exact H|]. split; [|assumption]. apply Nat.div_lt_upper_bound; [lia|]. rewrite Nat.mul_comm. exact Hk.
Qed.
Lemma div_flat m i j : (j < m)%nat -> ((i * m + j) / m)%nat = i.
Proof. intros. rewrite Nat.div_add_l by lia. rewrite Nat.div_small by lia. lia. Qed.
Lemma mod_flat m i j : (j < m)%nat -> ((i * m + j) mod m)%nat = j.
Proof. intros. rewrite Nat.add_comm, Nat.mod_add by lia. apply Nat.mod_small; lia. Qed.

Section Cmp.
Context (wn : nat) (p : Z) (cfg : fpconfig).
Notation w := (Z.of_nat wn).
Notation FR := (native (MkN w None)).
Notation FO := (odd w).
Notation FP := (native (MkN w (Some p))).
Context (Hw : (1 < wn)%nat) (Hp : prime p) (Hpw : w + 1 < p) (Hps : p * p <= 2 ^ (w - 1)).

Lemma n_okR : n_ok (MkN w None).
Proof. split; cbn; [lia|exact I]. Qed.
Lemma n_okP : n_ok (MkN w (Some p)).
Proof. split; cbn; [lia|]. pose proof (prime_ge_2 p Hp). try split; try lia; nia. Qed.
Lemma LR : lawful FR. Proof. apply lawful_native, n_okR. Qed.
Lemma LO : lawful FO. Proof. apply lawful_odd. lia. Qed.
Lemma LP : lawful FP. Proof. apply lawful_native, n_okP. Qed.

Lemma fmodR : fmod FR = 2 ^ w. Proof. reflexivity. Qed.
Lemma fmodP : fmod FP = p. Proof. reflexivity. Qed.

Lemma ent_nth G (x : list Z) i : @ent (native G) i x = nth i x (f0 (native G)). Proof. reflexivity. Qed.
Lemma f0_native G : n_ok G -> f0 (native G) = 0.
Proof.
  intros [H1 H2]. unfold f0, native, fof. destruct (nmodulus G); [apply Z.mod_0_l; lia|]. apply swrap_id; [assumption|].
  unfold in_s. pose proof (pow2_pos (nw G - 1) ltac:(lia)). lia.
Qed.
Lemma tval_native G (x : list Z) i : n_ok G -> tval (native G) x i = nth i x 0 mod n_modulus G.
Proof. intros H. unfold tval. rewrite ent_nth, f0_native by assumption. reflexivity. Qed.

(** Bits as a flat value function. *)
Definition bitf (V : nat -> Z) (k : nat) : Z := Z.b2z (Z.testbit (V (k / wn)%nat) (Z.of_nat (k mod wn))).
Lemma bitf_at V i j : (j < wn)%nat -> bitf V (i * wn + j) = Z.b2z (Z.testbit (V i) (Z.of_nat j)).
Proof. intros. unfold bitf. rewrite div_flat, mod_flat by assumption. reflexivity. Qed.

(** A factory that can hold bits. *)
Definition holds_bits (G : ncfg) : Prop := n_ok G /\ 1 < n_modulus G /\ n_wf G 0 /\ n_wf G 1.
Lemma holdsR : holds_bits (MkN w None).
Proof.
  pose proof (Z.pow_le_mono_r 2 1 (w - 1) ltac:(lia) ltac:(lia)). pose proof (pow2_half w ltac:(lia)).
  split; [exact n_okR|]. unfold n_wf, n_modulus, in_s; cbn [nmodulus nw]. lia.
Qed.
Lemma holdsP : holds_bits (MkN w (Some p)).
Proof. pose proof (prime_ge_2 p Hp). split; [exact n_okP|]. unfold n_wf, n_modulus; cbn [nmodulus nw]. lia. Qed.
Lemma okT_bits G n x : holds_bits G -> length x = n -> Forall bit x -> okT (native G) n x.
Proof.
  intros (_ & _ & H0 & H1) Hl H. split; [exact Hl|]. eapply Forall_impl; [|exact H]. intros a [-> | ->]; assumption.
Qed.
Lemma tval_bits G x i : holds_bits G -> Forall bit x -> tval (native G) x i = nth i x 0.
Proof.
  intros (Hg & H1 & _) H. rewrite tval_native by assumption.
  assert (bit (nth i x 0)). { destruct (nth_in_or_default i x 0) as [Q| ->]; [|left; reflexivity]. rewrite Forall_forall in H. auto. }
  apply Z.mod_small. destruct H0 as [-> | ->]; lia.
Qed.

Lemma binarize_bit n x : Forall bit (binarize n x).
Proof. apply Forall_forall. intros b Hb. exact (binarize_bits n x b Hb). Qed.
Lemma all_bits_bit x : Forall bit (all_bits wn x).
Proof. unfold all_bits. apply Forall_flat_map, Forall_forall. intros; apply binarize_bit. Qed.
Lemma all_bits_length x : length (all_bits wn x) = (length x * wn)%nat.
Proof. unfold all_bits. apply flat_length. intros; apply binarize_length. Qed.
Lemma all_bits_nth x i j : (i < length x)%nat -> (j < wn)%nat ->
  nth (i * wn + j) (all_bits wn x) 0 = Z.b2z (Z.testbit (nth i x 0) (Z.of_nat j)).
Proof.
  intros Hi Hj. unfold all_bits. rewrite (nth_flat _ wn _ 0 0 i j) by (assumption || (intros; apply binarize_length)).
  apply binarize_nth; assumption.
Qed.
Lemma testbit_eqm a b j : (j < wn)%nat -> a mod 2 ^ w = b mod 2 ^ w -> Z.testbit a (Z.of_nat j) = Z.testbit b (Z.of_nat j).
Proof.
  intros Hj E. rewrite <- (Z.mod_pow2_bits_low a w) by lia. rewrite E. apply Z.mod_pow2_bits_low. lia.
Qed.

Lemma bits_public_st G n x0 x1 V : holds_bits G -> length x0 = n -> length x1 = n ->
  (forall i, (i < n)%nat -> nth i x0 0 mod 2 ^ w = V i mod 2 ^ w /\ nth i x1 0 mod 2 ^ w = V i mod 2 ^ w) ->
  ryields (bits_public wn G x0 x1) (fun z => stands (n * wn) z true false (bitf V)).
Proof.
  intros HG H0 H1 HV. unfold bits_public.
  eapply ryields_imp; [|apply (pub_st (native G) (n * wn) (all_bits wn x0) (all_bits wn x1) false (bitf V))].
  - intros z [_ H]. exact H.
  - apply okT_bits; [assumption| |apply all_bits_bit]. rewrite all_bits_length. congruence.
  - apply okT_bits; [assumption| |apply all_bits_bit]. rewrite all_bits_length. congruence.
  - intros k Hk. destruct (flat_split wn k n ltac:(lia) Hk) as (i & j & -> & Hi & Hj).
    rewrite !tval_bits by (assumption || apply all_bits_bit). rewrite !all_bits_nth, bitf_at by (congruence || assumption).
    destruct (HV i Hi) as [A B]. rewrite (testbit_eqm _ _ j Hj A), (testbit_eqm _ _ j Hj B). split; reflexivity.
Qed.

Lemma spread_length n : length (spread wn n) = (n * wn)%nat.
Proof. unfold spread. rewrite (flat_length _ wn), seq_length; [reflexivity|]. intros; apply repeat_length. Qed.
Lemma spread_nth n i j : (i < n)%nat -> (j < wn)%nat -> nth (i * wn + j) (spread wn n) None = Some i.
Proof.
  intros Hi Hj. unfold spread. rewrite (nth_flat _ wn _ O None i j); [|intros; apply repeat_length|rewrite seq_length; exact Hi|exact Hj].
  rewrite seq_nth by assumption. rewrite Nat.add_0_l. rewrite (nth_indep _ None (Some i)) by (rewrite repeat_length; exact Hj). apply nth_repeat.
Qed.
Lemma spread_rng n : Forall (in_rng n) (spread wn n).
Proof.
  unfold spread. apply Forall_flat_map, Forall_forall. intros i Hi. apply in_seq in Hi.
  apply Forall_forall. intros o Ho. apply repeat_spec in Ho. subst. cbn. lia.
Qed.
Lemma tile_length n : length (tile wn n) = (n * wn)%nat.
Proof. unfold tile. rewrite (flat_length _ wn), seq_length; [reflexivity|]. intros; rewrite map_length; apply seq_length. Qed.
Lemma tile_nth n i j : (i < n)%nat -> (j < wn)%nat -> nth (i * wn + j) (tile wn n) None = Some j.
Proof.
  intros Hi Hj. unfold tile. rewrite (nth_flat _ wn _ O None i j); [|intros; rewrite map_length; apply seq_length|rewrite seq_length; exact Hi|exact Hj].
  rewrite (nth_indep _ None (Some O)) by (rewrite map_length, seq_length; exact Hj).
  rewrite map_nth, seq_nth by assumption. reflexivity.
Qed.
Lemma tile_rng n : Forall (in_rng wn) (tile wn n).
Proof.
  unfold tile. apply Forall_flat_map, Forall_forall. intros i Hi.
  apply Forall_forall. intros o Ho. apply in_map_iff in Ho. destruct Ho as (j & <- & Hj). apply in_seq in Hj. cbn. lia.
Qed.
Lemma firsts_length n : length (firsts wn n) = n.
Proof. unfold firsts. rewrite map_length. apply seq_length. Qed.
Lemma firsts_nth n i : (i < n)%nat -> nth i (firsts wn n) None = Some (i * wn)%nat.
Proof.
  intros Hi. unfold firsts. rewrite (nth_indep _ None (Some (0 * wn)%nat)) by (rewrite map_length, seq_length; exact Hi).
  change (Some (0 * wn)%nat) with ((fun i => Some (i * wn)%nat) 0%nat). rewrite map_nth, seq_nth by assumption. reflexivity.
Qed.
Lemma firsts_rng n : Forall (in_rng (n * wn)) (firsts wn n).
Proof.
  unfold firsts. apply Forall_forall. intros o Ho. apply in_map_iff in Ho. destruct Ho as (j & <- & Hj). apply in_seq in Hj. cbn [in_rng]. nia.
Qed.
Lemma above_length n : length (above_rows wn n) = (n * wn)%nat.
Proof. unfold above_rows. rewrite (flat_length _ wn), seq_length; [reflexivity|]. intros; rewrite map_length; apply seq_length. Qed.
Lemma above_nth n i j : (i < n)%nat -> (j < wn)%nat -> nth (i * wn + j) (above_rows wn n) [] = seq (i * wn + S j) (wn - S j).
Proof.
  intros Hi Hj. unfold above_rows. rewrite (nth_flat _ wn _ O [] i j); [|intros; rewrite map_length; apply seq_length|rewrite seq_length; exact Hi|exact Hj].
  rewrite seq_nth by assumption.
  rewrite (nth_indep _ [] ((fun j => seq ((0 + i) * wn + S j) (wn - S j)) O)) by (rewrite map_length, seq_length; exact Hj).
  rewrite (map_nth (fun j => seq ((0 + i) * wn + S j) (wn - S j))), seq_nth by assumption. reflexivity.
Qed.
Lemma above_rng n : Forall (Forall (fun i => (i < n * wn)%nat)) (above_rows wn n).
Proof.
  unfold above_rows. apply Forall_flat_map, Forall_forall. intros i Hi. apply in_seq in Hi.
  apply Forall_forall. intros r Hr. apply in_map_iff in Hr. destruct Hr as (j & <- & Hj). apply in_seq in Hj.
  apply Forall_forall. intros k Hk. apply in_seq in Hk. nia.
Qed.
Lemma bit_rows_length n : length (bit_rows wn n) = n.
Proof. unfold bit_rows. rewrite map_length. apply seq_length. Qed.
Lemma bit_rows_nth n i : (i < n)%nat -> nth i (bit_rows wn n) [] = seq (i * wn) wn.
Proof.
  intros Hi. unfold bit_rows. rewrite (nth_indep _ [] ((fun i => seq (i * wn) wn) O)) by (rewrite map_length, seq_length; exact Hi).
  rewrite (map_nth (fun i => seq (i * wn) wn)), seq_nth by assumption. reflexivity.
Qed.

(** The row of [wn] values server 2 searches for a zero, before the multiplicative mask. *)
Definition crow (X R B : Z) : list Z :=
  if (B =? 1) && (R =? 2 ^ w - 1) then 0 :: repeat 1 (wn - 1)
  else cvec (1 - 2 * B) (binarize wn X) (binarize wn (R + B)).

Lemma crow_length X R B : length (crow X R B) = wn.
Proof.
  unfold crow. destruct (_ && _).
  - cbn [length]. rewrite repeat_length. lia.
  - rewrite cvec_length; rewrite !binarize_length; reflexivity.
Qed.
Lemma crow_bounds X R B : bit B -> Forall (fun c => 0 <= c <= w + 1) (crow X R B).
Proof.
  intros HB. unfold crow. destruct (_ && _).
  - constructor; [lia|]. apply Forall_forall. intros x Hx. apply repeat_spec in Hx. lia.
  - assert (Q : Forall (fun c => 0 <= c <= Z.of_nat (length (binarize wn X)) + 1) (cvec (1 - 2 * B) (binarize wn X) (binarize wn (R + B))));
      [|rewrite binarize_length in Q; exact Q].
    apply cvec_bounds.
    + destruct HB as [-> | ->]; [left|right]; reflexivity.
    + rewrite !binarize_length; reflexivity.
    + apply binarize_bit.
    + apply binarize_bit.
Qed.
Lemma nzero_ones k : nzero (repeat 1 k) = 0.
Proof. induction k; [reflexivity|]. unfold nzero in *. cbn [repeat map]. unfold zsum in *. cbn [fold_right]. rewrite IHk. reflexivity. Qed.
Lemma crow_zeros X R B : bit B -> 0 <= X < 2 ^ w -> 0 <= R < 2 ^ w ->
  nzero (crow X R B) = Z.b2z (xorb (R <? X) (B =? 1)).
Proof.
  intros HB HX HR. unfold crow.
  destruct HB as [-> | ->]; cbn [Z.eqb Pos.eqb andb].
  - rewrite cvec_zeros; [|left; reflexivity|rewrite !binarize_length; reflexivity|apply binarize_bit|apply binarize_bit].
    rewrite !binarize_value, !Z.mod_small by lia. cbn [Z.sub Z.mul Z.eqb Pos.eqb Z.add Z.opp]. rewrite xorb_false_r, Z.add_0_r. reflexivity.
  - destruct (Z.eqb_spec R (2 ^ w - 1)) as [->|N].
    + replace (2 ^ w - 1 <? X) with false by (symmetry; apply Z.ltb_ge; lia).
      transitivity (1 + nzero (repeat 1 (wn - 1))); [reflexivity|]. rewrite nzero_ones. reflexivity.
    + rewrite cvec_zeros; [|right; reflexivity|rewrite !binarize_length; reflexivity|apply binarize_bit|apply binarize_bit].
      rewrite !binarize_value, !Z.mod_small by lia. change (1 - 2 * 1 =? 1) with false. cbv iota. f_equal.
      rewrite xorb_true_r. destruct (Z.ltb_spec X (R + 1)), (Z.ltb_spec R X); reflexivity || lia.
Qed.

(** Raw words of a public tensor. *)
Lemma pub_words G n (t : ptensor (native G)) sc v : n_ok G -> stands n t true sc v ->
  exists v0 v1, t = Pub (@MkPv (native G) Srv0 v0) (@MkPv (native G) Srv1 v1) sc /\ okT (native G) n v0 /\ okT (native G) n v1 /\
    forall i, (i < n)%nat -> nth i v0 0 mod n_modulus G = v i mod n_modulus G /\ nth i v1 0 mod n_modulus G = v i mod n_modulus G.
Proof.
  intros HG [D K]. destruct t as [[d0 v0] [d1 v1] s| |]; cbn in K; try discriminate. cbn [denotes pdev pval] in D.
  destruct D as (-> & -> & -> & W0 & W1 & H). exists v0, v1. split; [reflexivity|]. split; [exact W0|]. split; [exact W1|].
  intros i Hi. destruct (H i Hi) as [A B]. rewrite !tval_native in A, B by assumption. unfold eqm in A, B. change (fmod (native G)) with (n_modulus G) in A, B.
  rewrite !Zmod_mod in A, B. split; assumption.
Qed.

Lemma zoi_spread n i j v : (i < n)%nat -> (j < wn)%nat -> zoi (nth (i * wn + j) (spread wn n) None) v = v i.
Proof. intros. rewrite spread_nth by assumption. reflexivity. Qed.
Lemma zoi_tile n i j v : (i < n)%nat -> (j < wn)%nat -> zoi (nth (i * wn + j) (tile wn n) None) v = v j.
Proof. intros. rewrite tile_nth by assumption. reflexivity. Qed.

(** The value of the comparison row at bit [j] of entry [i], as the protocol computes it. *)
Definition cval (X R B : nat -> Z) (k : nat) : Z :=
  let i := (k / wn)%nat in let j := (k mod wn)%nat in nth j (crow (X i) (R i) (B i)) 0.
Lemma cval_at X R B i j : (j < wn)%nat -> cval X R B (i * wn + j) = nth j (crow (X i) (R i) (B i)) 0.
Proof. intros. unfold cval. rewrite div_flat, mod_flat by assumption. reflexivity. Qed.

Lemma n_equal_zero_scaled c m : 0 <= c <= w + 1 -> 0 < m < p -> n_equal_zero ((c * m) mod p) = n_equal_zero c.
Proof.
  intros Hc Hm. unfold n_equal_zero. destruct (Z.eqb_spec c 0) as [->|N]; [reflexivity|].
  destruct (Z.eqb_spec ((c * m) mod p) 0) as [E|]; [|reflexivity]. exfalso.
  apply Z.mod_divide in E; [|lia]. apply prime_mult in E; [|assumption].
  destruct E as [E|E]; apply Z.divide_pos_le in E; lia.
Qed.

Lemma zsum_seq_shift (f : nat -> Z) a k : zsum (map f (seq a k)) = zsum (map (fun j => f (a + j)%nat) (seq 0 k)).
Proof.
  f_equal. replace (seq a k) with (map (fun j => (a + j)%nat) (seq 0 k)); [rewrite map_map; reflexivity|].
  revert a. induction k; intros a; [reflexivity|]. cbn [seq map]. rewrite Nat.add_0_r. f_equal.
  rewrite <- seq_shift, map_map, <- (IHk (S a)). apply map_ext. intros; lia.
Qed.
Lemma zsum_map_nth (f : Z -> Z) l : zsum (map f l) = zsum (map (fun j => f (nth j l 0)) (seq 0 (length l))).
Proof.
  f_equal. induction l; [reflexivity|]. cbn [map length seq nth]. f_equal. rewrite <- seq_shift, map_map. exact IHl.
Qed.

Lemma eqz_word a s : in_s w a -> a mod 2 ^ w = s -> (s =? 0) = (a =? 0).
Proof.
  intros Ha <-. rewrite unsigned_cases by (lia || assumption). unfold in_s in Ha.
  pose proof (pow2_half w ltac:(lia)). pose proof (pow2_pos (w - 1) ltac:(lia)).
  destruct (Z.ltb_spec a 0); [|reflexivity]. rewrite (proj2 (Z.eqb_neq a 0)) by lia. apply Z.eqb_neq. lia.
Qed.

(** Everything up to the multiplicative mask. *)
Lemma crow_at X R B i j : bit (B i) -> 0 <= R i < 2 ^ w -> (j < wn)%nat ->
  let S := fun i => (R i + B i) mod 2 ^ w in
  let e := B i * n_equal_zero (S i) in
  let cx := (Z.b2z (Z.testbit (S i) (Z.of_nat j)) - Z.b2z (Z.testbit (X i) (Z.of_nat j))) * (-2 * B i + 1) + 1 +
     zsum (map (fun k => bitf X k + bitf S k - bitf X k * bitf S k * 2) (seq (i * wn + Datatypes.S j) (wn - Datatypes.S j))) in
  (nth j (0 :: repeat 1 (wn - 1)) 0 - cx) * e + cx = nth j (crow (X i) (R i) (B i)) 0.
Proof.
  intros HB HR Hj S e cx.
  assert (HS : S i = if (B i =? 1) && (R i =? 2 ^ w - 1) then 0 else R i + B i).
  { unfold S. destruct HB as [E|E]; rewrite E; cbn [Z.eqb Pos.eqb andb].
    - apply Z.mod_small; lia.
    - destruct (Z.eqb_spec (R i) (2 ^ w - 1)) as [->|]; [|apply Z.mod_small; lia].
      replace (2 ^ w - 1 + 1) with (2 ^ w) by ring. apply Z_mod_same_full. }
  assert (He : e = Z.b2z ((B i =? 1) && (R i =? 2 ^ w - 1))).
  { unfold e. rewrite HS. destruct HB as [E|E]; rewrite E; cbn [Z.eqb Pos.eqb andb]; [reflexivity|].
    unfold n_equal_zero. destruct (R i =? 2 ^ w - 1); [reflexivity|]. cbn [Z.b2z].
    destruct (Z.eqb_spec (R i + 1) 0); [lia|reflexivity]. }
  rewrite He. unfold crow. destruct ((B i =? 1) && (R i =? 2 ^ w - 1)) eqn:EE; cbn [Z.b2z].
  - rewrite Z.mul_1_r, Z.sub_add. reflexivity.
  - rewrite Z.mul_0_r, Z.add_0_l. rewrite cvec_nth by (rewrite !binarize_length; lia).
    rewrite !binarize_length, !binarize_nth by assumption. unfold cx. rewrite HS. f_equal; [f_equal; f_equal; ring|].
    rewrite (zsum_seq_shift _ (i * wn + _)), (zsum_seq_shift _ (Datatypes.S j)). f_equal. apply map_ext_in. intros k Hk. apply in_seq in Hk.
    rewrite <- Nat.add_assoc. rewrite !bitf_at by lia. rewrite !binarize_nth by lia. rewrite HS. reflexivity.
Qed.

Lemma private_compare_ok rd n xb r bl X R : (length bl = n /\ Forall bit bl) ->
  okT FP wn (l_edge rd) -> (length (l_mask rd) = (n * wn)%nat /\ Forall (fun m => 0 < m < p) (l_mask rd)) -> okT FR n (l_res rd) ->
  stands (n * wn) xb false false (bitf X) -> stands n r true false R ->
  (forall i, (i < n)%nat -> 0 <= X i < 2 ^ w) -> (forall i, (i < n)%nat -> 0 <= R i < 2 ^ w) ->
  let B := fun i => nth i bl 0 in
  ryields (private_compare wn p cfg rd n xb r (Pub (@MkPv FP Srv0 bl) (@MkPv FP Srv1 bl) false))
   (fun q => stands n (snd q) false false (fun i => Z.b2z (xorb (R i <? X i) (B i =? 1))) /\
      length (fst q) = (n * wn)%nat /\
      forall k, (k < n * wn)%nat -> nth k (fst q) 0 = (cval X R B k * nth k (l_mask rd) 0) mod p).
Proof.
  intros [Lb Hb] Hedge [Lm Hm] Hres Hx Hr HX HR B.
  assert (HBb : forall i, (i < n)%nat -> bit (B i)).
  { intros i Hi. rewrite Forall_forall in Hb. apply Hb, nth_In. lia. }
  pose proof LR as LR'. pose proof LP as LP'. pose proof holdsR as HhR. pose proof holdsP as HhP.
  assert (Hbeta : stands n (Pub (@MkPv FP Srv0 bl) (@MkPv FP Srv1 bl) false) true false B).
  { split; [|reflexivity]. cbn [denotes pdev pval]. pose proof (okT_bits _ n bl HhP Lb Hb).
    repeat (split; [reflexivity|]). split; [assumption|]. split; [assumption|]. intros i Hi.
    rewrite (tval_bits _ bl i HhP Hb). split; reflexivity. }
  unfold private_compare.
  (* cast of beta *)
  eapply rbind_ok.
  { instantiate (1 := fun z => stands n z true false B). cbn [cast_public pdev pval].
    eapply ryields_imp; [|apply (pub_st FR n bl bl false B); [apply okT_bits; assumption..|]].
    - intros z [_ H]; exact H.
    - intros i Hi. rewrite (tval_bits _ bl i HhR Hb). split; reflexivity. }
  intros beta_r Hbr.
  eapply rbind_ok; [exact (add_st FR LR' n r _ true true false R _ Hr (pconst_ok FR LR' n 1 false))|]. intros r1 Hr1.
  eapply rbind_ok.
  { apply (select_st FR LR' (ncfg_fix (MkN w None)) cfg n nornd beta_r r r1 true true true false B R (fun i => R i + 1) Hbr Hr Hr1).
    left; reflexivity. }
  intros s Hs. cbn [andb] in Hs.
  set (S := fun i => (R i + B i) mod 2 ^ w).
  assert (Hs' : stands n s true false S).
  { eapply (stands_ext FR); [|exact Hs]. intros i Hi. unfold S. change (fmod FR) with (2 ^ w).
    rewrite eqm_mod_l. apply eqm_eq. ring. }
  destruct (pub_words _ n s false S n_okR Hs') as (s0 & s1 & -> & W0 & W1 & HS). cbn [pval].
  change (n_modulus (MkN w None)) with (2 ^ w) in HS.
  eapply rbind_ok; [exact (bits_public_st (MkN w (Some p)) n s0 s1 S HhP (proj1 W0) (proj1 W1) HS)|].
  intros s_bits Hsb.
  eapply rbind_ok; [apply (bitwise_xor_st FP LP' (n * wn) nornd xb s_bits false true (bitf X) (bitf S) Hx Hsb); left; reflexivity|].
  intros w_bits Hwb. cbn [andb] in Hwb.
  eapply rbind_ok; [exact (reduce_st FP LP' (n * wn) (above_rows wn n) w_bits false false _ (above_rng n) Hwb)|].
  intros w_sum Hws. rewrite above_length in Hws.
  eapply rbind_ok; [apply (mul_st FP LP' n nornd _ _ true true false false _ B (pconst_ok FP LP' n (-2) false) Hbeta); left; reflexivity|].
  intros sg Hsg. cbn [andb orb] in Hsg.
  eapply rbind_ok; [exact (add_st FP LP' n sg _ true true false _ _ Hsg (pconst_ok FP LP' n 1 false))|]. intros sign Hsign. cbn [andb] in Hsign.
  eapply rbind_ok; [exact (transform_st FP LP' n (spread wn n) sign true false _ (spread_rng n) Hsign)|].
  intros sign' Hsign'. rewrite spread_length in Hsign'.
  eapply rbind_ok; [exact (sub_st FP LP' (n * wn) s_bits xb true false false _ _ Hsb Hx)|]. intros e1 He1. cbn [andb] in He1.
  eapply rbind_ok; [apply (mul_st FP LP' (n * wn) nornd e1 sign' false true false false _ _ He1 Hsign'); left; reflexivity|].
  intros e2 He2. cbn [andb orb] in He2.
  eapply rbind_ok; [exact (add_st FP LP' (n * wn) e2 _ false true false _ _ He2 (pconst_ok FP LP' (n * wn) 1 false))|]. intros e3 He3. cbn [andb] in He3.
  eapply rbind_ok; [exact (add_st FP LP' (n * wn) e3 w_sum false false false _ _ He3 Hws)|]. intros cx Hcx. cbn [andb] in Hcx.
  (* edge cases *)
  eapply rbind_ok.
  { instantiate (1 := fun z => stands n z true false (fun i => n_equal_zero (S i))). unfold equal_zero_public.
    assert (Q : forall l : list Z, okT FR n l -> (forall i, (i < n)%nat -> nth i l 0 mod 2 ^ w = S i mod 2 ^ w) ->
      Forall bit (map n_equal_zero l) /\ forall i, (i < n)%nat -> nth i (map n_equal_zero l) 0 = n_equal_zero (S i)).
    { intros l [Ll Wl] Hl. change (@length Z l = n) in Ll. split.
      - apply Forall_forall. intros a Ha. apply in_map_iff in Ha. destruct Ha as (b & <- & _). unfold n_equal_zero, bit. destruct (b =? 0); lia.
      - intros i Hi. rewrite (nth_indep _ 0 (n_equal_zero 0)) by (rewrite map_length; lia). rewrite map_nth.
        specialize (Hl i Hi). rewrite Forall_forall in Wl. specialize (Wl (nth i l 0) (@nth_In Z i l 0 ltac:(lia))).
        unfold n_equal_zero. rewrite <- (eqz_word (nth i l 0) (S i)); [reflexivity|exact Wl|].
        rewrite Hl. unfold S. apply Zmod_mod. }
    destruct (Q s0 W0 (fun i Hi => proj1 (HS i Hi))) as [Q0 Q0']. destruct (Q s1 W1 (fun i Hi => proj2 (HS i Hi))) as [Q1 Q1'].
    eapply ryields_imp; [|apply (pub_st FP n (map n_equal_zero s0) (map n_equal_zero s1) false (fun i => n_equal_zero (S i)))].
    - intros z [_ H]; exact H.
    - apply okT_bits; [assumption|rewrite map_length; apply W0|assumption].
    - apply okT_bits; [assumption|rewrite map_length; apply W1|assumption].
    - intros i Hi. rewrite !tval_bits, Q0', Q1' by assumption. split; reflexivity. }
  intros z Hz.
  eapply rbind_ok; [apply (bitwise_and_st FP LP' n nornd _ z true true B _ Hbeta Hz); left; reflexivity|]. intros edge Hedge1. cbn [andb] in Hedge1.
  eapply rbind_ok; [exact (transform_st FP LP' n (spread wn n) edge true false _ (spread_rng n) Hedge1)|].
  intros edge' Hedge2. rewrite spread_length in Hedge2.
  assert (Hrow : Forall bit (0 :: repeat 1 (wn - 1))).
  { constructor; [left; reflexivity|]. apply Forall_forall. intros a Ha. apply repeat_spec in Ha. right; exact Ha. }
  eapply rbind_ok.
  { apply (share_st FP LP' wn (0 :: repeat 1 (wn - 1)) (l_edge rd) (l_edge_swap rd) false (fun j => nth j (0 :: repeat 1 (wn - 1)) 0)).
    - apply okT_bits; [assumption| |assumption]. cbn [length]. rewrite repeat_length. lia.
    - assumption.
    - intros i Hi. rewrite tval_bits by assumption. reflexivity. }
  intros ce Hce.
  eapply rbind_ok; [exact (transform_st FP LP' wn (tile wn n) ce false false _ (tile_rng n) Hce)|]. intros ce' Hce'. rewrite tile_length in Hce'.
  eapply rbind_ok.
  { apply (select_st FP LP' (ncfg_fix (MkN w (Some p))) cfg (n * wn) nornd edge' cx ce' true false false false _ _ _ Hedge2 Hcx Hce'). left; reflexivity. }
  intros c Hc. cbn [andb] in Hc.
  assert (Hc' : stands (n * wn) c false false (cval X R B)).
  { eapply (stands_ext FP); [|exact Hc]. intros k Hk. apply eqm_eq. cbn beta.
    destruct (flat_split wn k n ltac:(lia) Hk) as (i & j & -> & Hi & Hj).
    rewrite !zoi_spread, zoi_tile, above_nth, cval_at, !bitf_at by assumption. unfold zrow.
    exact (crow_at X R B i j (HBb i Hi) (HR i Hi) Hj). }
  assert (Hmw : okT FP (n * wn) (l_mask rd)).
  { split; [exact Lm|]. eapply Forall_impl; [|exact Hm]. intros a Ha. change (0 <= a < p). split; [apply Z.lt_le_incl|]; apply Ha. }
  eapply rbind_ok.
  { apply (pub_st FP (n * wn) (l_mask rd) (l_mask rd) false (fun k => nth k (l_mask rd) 0) Hmw Hmw).
    intros k Hk. rewrite tval_native by exact n_okP. change (n_modulus (MkN w (Some p))) with (fmod FP). split; apply eqm_mod_l. }
  intros mask [_ Hmask].
  eapply rbind_ok; [apply (mul_st FP LP' (n * wn) nornd c mask false true false false _ _ Hc' Hmask); left; reflexivity|].
  intros cm Hcm. cbn [andb orb] in Hcm.
  destruct Hcm as [Dm Km]. destruct cm as [|d0 d1 sd|]; try discriminate. cbn [denotes] in Dm.
  destruct Dm as (_ & _ & _ & V0 & V1 & HV).
  set (d := vadd FP (pval d0) (pval d1) : list Z).
  assert (Wd : okT FP (n * wn) d) by (apply okT_vadd; assumption).
  assert (Vd : forall k, (k < n * wn)%nat -> nth k d 0 = (cval X R B k * nth k (l_mask rd) 0) mod p).
  { intros k Hk. pose proof (tval_vadd FP LP' (n * wn) (pval d0) (pval d1) k V0 V1 Hk) as E. fold d in E. rewrite (HV k Hk) in E.
    rewrite tval_native in E by exact n_okP. change (n_modulus (MkN w (Some p))) with p in E. change (fmod FP) with p in E.
    unfold eqm in E. rewrite Zmod_mod in E. rewrite <- E. symmetry. apply Z.mod_small.
    destruct Wd as [Ld Wd]. rewrite Forall_forall in Wd. change (n_wf (MkN w (Some p)) (nth k d 0)). apply Wd.
    apply (@nth_In Z). change (@length Z d = (n * wn)%nat) in Ld. rewrite Ld. exact Hk. }
  assert (Hz0 : Forall bit (map n_equal_zero d)).
  { apply Forall_forall. intros a Ha. apply in_map_iff in Ha. destruct Ha as (b & <- & _). unfold n_equal_zero, bit. destruct (b =? 0); lia. }
  assert (Wz : okT FR (n * wn) (map n_equal_zero d)) by (apply okT_bits; [assumption|rewrite map_length; apply Wd|assumption]).
  destruct (vlin_ok FR LR' (bit_rows wn n) (n * wn) _ Wz) as [Wr Vr]. rewrite bit_rows_length in Wr, Vr.
  eapply rbind_ok.
  { apply (share_st FR LR' n _ (l_res rd) (l_res_swap rd) false (fun i => Z.b2z (xorb (R i <? X i) (B i =? 1))) Wr Hres).
    intros i Hi. rewrite (Vr i Hi). rewrite bit_rows_nth by assumption. apply eqm_eq.
    rewrite <- crow_zeros by auto. unfold zrow, nzero.
    rewrite zsum_seq_shift, zsum_map_nth, crow_length. f_equal. apply map_ext_in. intros j Hj. apply in_seq in Hj.
    rewrite tval_bits by assumption.
    assert (Hk : (i * wn + j < n * wn)%nat) by nia.
    rewrite (nth_indep _ 0 (n_equal_zero 0)) by (rewrite map_length; destruct Wd as [Ld _]; change (@length Z d = (n * wn)%nat) in Ld; rewrite Ld; exact Hk).
    rewrite map_nth, Vd by exact Hk. rewrite cval_at by lia.
    apply n_equal_zero_scaled.
    - pose proof (crow_bounds (X i) (R i) (B i) (HBb i Hi)) as Q. rewrite Forall_forall in Q. apply Q, nth_In. rewrite crow_length. lia.
    - rewrite Forall_forall in Hm. apply Hm, nth_In. rewrite Lm. exact Hk. }
  intros res Hres'. eexists. split; [reflexivity|]. cbn [fst snd]. split; [exact Hres'|]. split; [apply Wd|exact Vd].
Qed.
End Cmp.
