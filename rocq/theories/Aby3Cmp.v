(** Carry computation, bit extraction, share conversion, comparisons and the operations on them. *)
From Verif Require Import Base TensorModel TensorProofs Aby3Model Aby3Spec Aby3Bits Aby3Proofs Aby3Trunc Adder Aby3Circ.
From Coq Require Import ZifyBool.

(** * gather2 *)
Lemma gather2_fold x start c : 0 <= start -> forall acc, 0 <= acc ->
  (forall j, 0 <= j -> Z.testbit (fold_left (fun acc t => if Z.testbit x (start + 2 * Z.of_nat t) then Z.lor acc (Z.shiftl 1 (Z.of_nat t)) else acc) (seq 0 c) acc) j =
    (Z.testbit acc j || ((j <? Z.of_nat c) && Z.testbit x (start + 2 * j)))) /\
  0 <= fold_left (fun acc t => if Z.testbit x (start + 2 * Z.of_nat t) then Z.lor acc (Z.shiftl 1 (Z.of_nat t)) else acc) (seq 0 c) acc.
Proof.
  intros Hs. induction c as [|c IH]; intros acc Ha.
  - cbn [seq fold_left]. split; [|exact Ha]. intros j Hj. destruct (Z.ltb_spec j (Z.of_nat 0)); [lia|]. cbn. rewrite Bool.orb_false_r. reflexivity.
  - rewrite seq_S, fold_left_app. cbn [fold_left]. destruct (IH acc Ha) as [I1 I2]. rewrite Nat.add_0_l.
    set (w := fold_left _ (seq 0 c) acc) in *. clearbody w. clear IH.
    destruct (Z.testbit x (start + 2 * Z.of_nat c)) eqn:E.
    + split.
      * intros j Hj. rewrite Z.lor_spec, (I1 j Hj), Z.shiftl_1_l. rewrite Z.pow2_bits_eqb by lia.
        destruct (Z.eqb_spec (Z.of_nat c) j) as [Ej|Ej].
        { subst j. rewrite E. destruct (Z.ltb_spec (Z.of_nat c) (Z.of_nat (S c))); [|lia]. cbn [andb]. rewrite !Bool.orb_true_r. reflexivity. }
        { rewrite Bool.orb_false_r. f_equal. f_equal. lia. }
      * apply Z.lor_nonneg. split; [exact I2|]. apply Z.shiftl_nonneg. lia.
    + split; [|exact I2]. intros j Hj. rewrite (I1 j Hj).
      destruct (Z.eqb_spec (Z.of_nat c) j) as [Ej|Ej].
      * subst j. rewrite E. rewrite !Bool.andb_false_r. reflexivity.
      * f_equal. f_equal. lia.
Qed.
Lemma gather2_bits n start x j : 0 <= start -> 0 <= j -> Z.testbit (gather2 n start x) j = (j <? n / 2) && Z.testbit x (start + 2 * j).
Proof.
  intros Hs Hj. unfold gather2. rewrite (proj1 (gather2_fold x start _ Hs 0 ltac:(lia)) j Hj). rewrite Z.testbit_0_l. cbn [orb].
  f_equal. destruct (Z.le_gt_cases 0 (n / 2)); lia.
Qed.
Lemma gather2_lxor n start a b : 0 <= start -> gather2 n start (Z.lxor a b) = Z.lxor (gather2 n start a) (gather2 n start b).
Proof.
  intros Hs. apply Z.bits_inj'. intros j Hj. rewrite Z.lxor_spec, !gather2_bits by assumption. rewrite Z.lxor_spec.
  destruct (j <? n / 2); cbn [andb]; [reflexivity|reflexivity].
Qed.
Lemma gather2_word n start a : 1 < n -> 0 <= start -> in_s n (gather2 n start a).
Proof.
  intros Hn Hs. apply in_s_of_bits; [lia|]. intros i Hi. rewrite !gather2_bits by lia.
  assert (n / 2 <= n - 1) by (apply Z.lt_le_pred, Z.div_lt; lia).
  destruct (Z.ltb_spec i (n / 2)); [lia|]. destruct (Z.ltb_spec (n - 1) (n / 2)); [lia|]. reflexivity.
Qed.

(** All six shares are bits. *)
Definition bits01 (x : priv) : Prop :=
  word FB (vz (p00 x)) /\ word FB (vz (p10 x)) /\ word FB (vz (p20 x)).

(** Arithmetic goals, with the sharing facts out of the way. *)
Ltac zl :=
  repeat match goal with
  | H : boolean _ _ _ |- _ => clear H
  | H : arith _ _ _ |- _ => clear H
  | H : public _ _ _ |- _ => clear H
  | H : bits01 _ |- _ => clear H
  | H : psc _ = _ |- _ => clear H
  | H : qsc _ = _ |- _ => clear H
  | H : pfc _ = _ |- _ => clear H
  | H : is_arith _ = _ |- _ => clear H
  | H : yields _ _ |- _ => clear H
  | H : eqm _ _ _ |- _ => clear H
  | H : _ = GB _ _ _ _ |- _ => clear H
  | H : word _ _ |- _ => clear H
  end; lia.

Section Cmp.
Context (prf : fac -> key -> Z -> nat -> Z) (colo : bool) (Hprf : prf_words prf).

Lemma gather_ok n start x u : 1 < n -> 0 <= start -> boolean (FI n) x u ->
  yields (sharewise colo (gather2 n start) (pfc x) x) (fun z => boolean (FI n) z (gather2 n start u) /\ psc z = psc x).
Proof.
  intros Hn Hs Hx. assert (Hf : pfc x = FI n) by apply Hx. rewrite Hf.
  apply (sharewise_bool_ok colo (gather2 n start) (FI n) (FI n)); [exact Hx|intros; apply gather2_word; assumption|intros; apply gather2_lxor; assumption|cbn [fok]; lia].
Qed.

(** [G], [P] hold, in their low [k] bits, the generate and propagate bits of the blocks of width [s]. *)
Definition BG (x y s k g : Z) : Prop := forall j, 0 <= j < k -> Z.testbit g j = GB x y (j * s) ((j + 1) * s).
Definition BP (x y s k p : Z) : Prop := forall j, 0 <= j < k -> Z.testbit p j = PB x y (j * s) ((j + 1) * s).

Lemma half_G x y s k g0 g1 p1 : 0 < s -> 0 < k ->
  (forall j, 0 <= j < k -> Z.testbit g0 j = GB x y (2 * j * s) ((2 * j + 1) * s)) ->
  (forall j, 0 <= j < k -> Z.testbit g1 j = GB x y ((2 * j + 1) * s) ((2 * j + 2) * s)) ->
  (forall j, 0 <= j < k -> Z.testbit p1 j = PB x y ((2 * j + 1) * s) ((2 * j + 2) * s)) ->
  BG x y (2 * s) k (Z.lxor g1 (Z.land g0 p1)).
Proof.
  intros Hs Hk H0 H1 Hp j Hj. rewrite Z.lxor_spec, Z.land_spec, H0, H1, Hp by exact Hj.
  rewrite (GB_comp x y (j * (2 * s)) ((2 * j + 1) * s) ((j + 1) * (2 * s))) by nia.
  replace (j * (2 * s)) with (2 * j * s) by ring. replace ((j + 1) * (2 * s)) with ((2 * j + 2) * s) by ring.
  f_equal. apply Bool.andb_comm.
Qed.
Lemma half_P x y s k p0 p1 : 0 < s -> 0 < k ->
  (forall j, 0 <= j < k -> Z.testbit p0 j = PB x y (2 * j * s) ((2 * j + 1) * s)) ->
  (forall j, 0 <= j < k -> Z.testbit p1 j = PB x y ((2 * j + 1) * s) ((2 * j + 2) * s)) ->
  BP x y (2 * s) k (Z.land p0 p1).
Proof.
  intros Hs Hk H0 Hp j Hj. rewrite Z.land_spec, H0, Hp by exact Hj.
  rewrite (PB_comp x y (j * (2 * s)) ((2 * j + 1) * s) ((j + 1) * (2 * s))) by nia.
  replace (j * (2 * s)) with (2 * j * s) by ring. replace ((j + 1) * (2 * s)) with ((2 * j + 2) * s) by ring.
  apply Bool.andb_comm.
Qed.

Lemma fac_of_spec k : 0 < k -> exists w, fac_of k = FI w /\ 8 <= w /\ k <= w.
Proof.
  intros Hk. unfold fac_of. destruct (Z.leb_spec k 8); eexists; (split; [reflexivity|]); zl.
Qed.
(** Gathering one lane and casting: bit [j] becomes bit [start + 2 j]. *)
Lemma lane_ok n start k w x u : 1 < n -> 0 <= start <= 1 -> 0 < k -> 2 * k <= n -> k <= w -> 0 < w -> boolean (FI n) x u ->
  yields (bind (sharewise colo (gather2 n start) (pfc x) x) (fun g => cast colo (FI w) g))
    (fun z => psc z = psc x /\ exists v, boolean (FI w) z v /\ forall j, 0 <= j < k -> Z.testbit v j = Z.testbit u (start + 2 * j)).
Proof.
  intros Hn Hs Hk H2 Hw Hw0 Hx. apply (yb _ _ _ _ (gather_ok n start x u Hn (proj1 Hs) Hx)). intros g (Hg & Sg).
  eapply y_weaken; [exact (cast_word_ok colo n w g _ ltac:(zl) Hw0 Hg)|]. intros z (Hz & Sz).
  split; [congruence|]. eexists. split; [exact Hz|]. clear - Hn Hs Hk H2 Hw Hw0. intros j Hj.
  rewrite swrap_bits by zl. rewrite Z.min_l by zl. rewrite gather2_bits by zl.
  destruct (Z.ltb_spec j (n / 2)); [reflexivity|]. exfalso. pose proof (Z.div_mod n 2). pose proof (Z.mod_pos_bound n 2). zl.
Qed.
Lemma y_split {A B C} (m : M A) (k : A -> M B) (h : B -> M C) Q :
  yields (bind (bind m k) h) Q -> yields (bind m (fun a => bind (k a) h)) Q.
Proof.
  intros H s. destruct (H s) as (c & Hc & HQ). exists c. split; [|exact HQ]. rewrite <- Hc. unfold bind.
  destruct (m s) as [[s1 l1] [a|e]]; [|reflexivity]. destruct (k a s1) as [[s2 l2] [b|e]]; [|reflexivity].
  destruct (h b s2) as [[s3 l3] r]. reflexivity.
Qed.
Lemma pow_S m : 2 ^ Z.of_nat (S m) = 2 * 2 ^ Z.of_nat m.
Proof. rewrite Nat2Z.inj_succ, Z.pow_succ_r by zl. reflexivity. Qed.
Lemma carry_loop_ok x y sc m : forall n s G P g p, 0 < s -> 8 <= n -> 2 ^ Z.of_nat m <= n ->
  boolean (FI n) G g -> boolean (FI n) P p -> psc G = sc -> psc P = sc ->
  BG x y s (2 ^ Z.of_nat m) g -> BP x y s (2 ^ Z.of_nat m) p ->
  yields (carry_loop prf colo m (2 ^ Z.of_nat m) G P) (fun z => psc z = sc /\ exists w g', 8 <= w /\
    boolean (FI w) z g' /\ Z.testbit g' 0 = GB x y 0 (2 ^ Z.of_nat m * s)).
Proof.
  induction m as [|m IH]; intros n s G P g p Hs Hn Hm HG HP SG_ SP_ IG IP.
  - cbn [carry_loop]. apply y_ret. split; [exact SG_|]. exists n, g. split; [exact Hn|]. split; [exact HG|].
    rewrite (IG 0) by (change (2 ^ Z.of_nat 0) with 1; zl). f_equal.
  - assert (Hp : 0 < 2 ^ Z.of_nat m) by (apply pow2_pos; zl).
    assert (Ek : 2 ^ Z.of_nat (S m) / 2 = 2 ^ Z.of_nat m) by (rewrite pow_S, Z.mul_comm; apply Z.div_mul; zl).
    cbn [carry_loop]. rewrite Ek. rewrite pow_S in *. set (k := 2 ^ Z.of_nat m) in *.
    destruct (fac_of_spec k Hp) as (w & Ew & Hw8 & Hkw). rewrite Ew.
    assert (Fg : pfc G = FI n) by apply HG. assert (Fp : pfc P = FI n) by apply HP.
    replace (fbits (pfc G)) with n by (rewrite Fg; reflexivity).
    assert (N1 : 1 < n) by (clear - Hn; zl). assert (W0 : 0 < w) by (clear - Hw8; zl). assert (L0 : 0 <= 0 <= 1) by (clear; zl). assert (L1 : 0 <= 1 <= 1) by (clear; zl).
    apply y_split, (yb _ _ _ _ (lane_ok n 0 k w G g N1 L0 Hp Hm Hkw W0 HG)). intros g0 (Sg0 & vg0 & Hg0 & Eg0).
    apply y_split, (yb _ _ _ _ (lane_ok n 1 k w G g N1 L1 Hp Hm Hkw W0 HG)). intros g1 (Sg1 & vg1 & Hg1 & Eg1).
    apply y_split, (yb _ _ _ _ (lane_ok n 0 k w P p N1 L0 Hp Hm Hkw W0 HP)). intros p0 (Sp0 & vp0 & Hp0 & Ep0).
    apply y_split, (yb _ _ _ _ (lane_ok n 1 k w P p N1 L1 Hp Hm Hkw W0 HP)). intros p1 (Sp1 & vp1 & Hp1 & Ep1).
    assert (H2s : 0 < 2 * s) by (clear - Hs; zl). assert (Hw0 : fok (FI w)) by (clear - Hw8; cbn [fok]; zl).
    apply (yb _ _ _ _ (and_ok prf colo Hprf (FI w) g0 p1 _ _ Hw0 Hg0 Hp1)). intros t (Ht & St).
    apply (yb _ _ _ _ (xor_pp_ok colo (FI w) g1 t _ _ Hw0 Hg1 Ht)). intros G' (HG' & SG').
    apply (yb _ _ _ _ (and_ok prf colo Hprf (FI w) p0 p1 _ _ Hw0 Hp0 Hp1)). intros P' (HP' & SP').
    assert (Q0 : forall j, 0 <= j < k -> Z.testbit vg0 j = GB x y (2 * j * s) ((2 * j + 1) * s)).
    { clear - Eg0 IG Hp. intros j Hj. rewrite Eg0 by exact Hj. rewrite IG by zl. f_equal; ring. }
    assert (Q1 : forall j, 0 <= j < k -> Z.testbit vg1 j = GB x y ((2 * j + 1) * s) ((2 * j + 2) * s)).
    { clear - Eg1 IG Hp. intros j Hj. rewrite Eg1 by exact Hj. rewrite IG by zl. f_equal; ring. }
    assert (Q2 : forall j, 0 <= j < k -> Z.testbit vp0 j = PB x y (2 * j * s) ((2 * j + 1) * s)).
    { clear - Ep0 IP Hp. intros j Hj. rewrite Ep0 by exact Hj. rewrite IP by zl. f_equal; ring. }
    assert (Q3 : forall j, 0 <= j < k -> Z.testbit vp1 j = PB x y ((2 * j + 1) * s) ((2 * j + 2) * s)).
    { clear - Ep1 IP Hp. intros j Hj. rewrite Ep1 by exact Hj. rewrite IP by zl. f_equal; ring. }
    eapply y_weaken.
    + apply (IH w (2 * s) G' P' _ _ H2s Hw8 Hkw HG' HP').
      * congruence.
      * rewrite SP', Sp0, Sp1, SP_. apply Bool.orb_diag.
      * apply half_G; assumption.
      * apply half_P; assumption.
    + intros z (Sz & w' & g' & Hw' & Hz & E). split; [exact Sz|]. exists w', g'. split; [exact Hw'|]. split; [exact Hz|].
      rewrite E. f_equal. unfold k. ring.
Qed.

(** Low zeros neither generate nor stop the carry. *)
Lemma GB_ext x y x' y' lo hi d : lo <= hi -> (forall j, lo <= j < hi -> Z.testbit x' (j + d) = Z.testbit x j /\ Z.testbit y' (j + d) = Z.testbit y j) ->
  GB x' y' (lo + d) (hi + d) = GB x y lo hi.
Proof.
  intros Hle H. unfold GB. replace (hi + d - (lo + d)) with (hi - lo) by ring.
  remember (Z.to_nat (hi - lo)) as c eqn:Ec. revert hi Hle Ec H. induction c as [|c IH]; intros hi Hle Ec H; [reflexivity|].
  cbn [Gn]. rewrite (IH (hi - 1)) by (try zl; intros; apply H; zl).
  unfold gbit, pbit. replace (lo + d + Z.of_nat c) with (lo + Z.of_nat c + d) by ring.
  destruct (H (lo + Z.of_nat c) ltac:(zl)) as [-> ->]. reflexivity.
Qed.
Lemma GB_zeros x y hi : 0 <= hi -> (forall j, 0 <= j < hi -> Z.testbit x j = false) -> GB x y 0 hi = false.
Proof.
  intros Hh H. unfold GB. rewrite Z.sub_0_r. remember (Z.to_nat hi) as c eqn:Ec. revert hi Hh Ec H.
  induction c as [|c IH]; intros hi Hh Ec H; [reflexivity|]. cbn [Gn]. rewrite (IH (hi - 1)) by (try zl; intros; apply H; zl).
  rewrite Bool.andb_false_r, Bool.xorb_false_r. unfold gbit. rewrite H by zl. reflexivity.
Qed.
Lemma GB_shift n k pos x y x' y' : 0 <= pos -> pos + 1 <= k <= n ->
  (forall j, 0 <= j < k -> Z.testbit x' j = if j <? k - pos - 1 then false else Z.testbit x (j - (k - pos - 1))) ->
  (forall j, 0 <= j < k -> Z.testbit y' j = if j <? k - pos - 1 then false else Z.testbit y (j - (k - pos - 1))) ->
  GB x' y' 0 k = GB x y 0 (pos + 1).
Proof.
  intros Hp Hk Hx Hy. set (d := k - pos - 1) in *. assert (Hd : 0 <= d) by (unfold d; zl).
  rewrite (GB_comp x' y' 0 d k) by zl. rewrite (GB_zeros x' y' d Hd).
  - rewrite Bool.andb_false_r, Bool.xorb_false_r. replace (GB x' y' d k) with (GB x' y' (0 + d) (pos + 1 + d)) by (f_equal; unfold d; ring).
    apply GB_ext; [zl|]. intros j Hj. rewrite Hx, Hy by zl. destruct (Z.ltb_spec (j + d) d); [zl|].
    replace (j + d - d) with j by ring. auto.
  - intros j Hj. rewrite Hx by zl. destruct (Z.ltb_spec j d); [reflexivity|zl].
Qed.

(** Masking with 1 leaves one-bit shares. *)
Lemma and_one_ok n x q u : 0 < n -> boolean (FI n) x u -> public (FI n) q 1 ->
  yields (and_pq colo x q) (fun z => boolean (FI n) z (Z.b2z (Z.testbit u 0)) /\ psc z = psc x /\ bits01 z).
Proof.
  intros Hn Hx Hq. rewrite <- land1.
  assert (H1 := and_pq_ok colo (FI n) x q u 1 Hn Hx Hq).
  assert (H2 : yields (and_pq colo x q) bits01).
  { destruct (bool_inv _ _ _ Hx) as (a & b & c & -> & Ha & Hb & Hc & <-). destruct (public_inv _ _ _ Hq) as (-> & _).
    unfold and_pq, sharewise_pub; cbn [is_arith pty mk3 negb andb pfc qfc mkq fac_eqb].
    apply y_assert; [apply Z.eqb_refl|]. yrun. unfold bits01; cbn. rewrite !land1. auto using b2z_01. }
  eapply y_weaken; [exact (y_conj _ _ _ H1 H2)|]. intros z ((A & B) & C). auto.
Qed.
Lemma cast_bits_ok n w x u : 1 < n -> 1 < w -> boolean (FI n) x u -> u = 0 \/ u = 1 -> bits01 x ->
  yields (cast colo (FI w) x) (fun z => boolean (FI w) z u /\ psc z = psc x /\ bits01 z).
Proof.
  intros Hn Hw Hx Hu Hb.
  assert (S0_ : swrap w 0 = 0) by (apply swrap_id; [zl|unfold in_s; pose proof (pow2_pos (w - 1)); lia]).
  assert (S1_ : swrap w 1 = 1).
  { apply swrap_id; [zl|]. unfold in_s. pose proof (pow2_half w ltac:(zl)). assert (2 ^ 1 <= 2 ^ (w - 1)) by (apply Z.pow_le_mono_r; zl). zl. }
  assert (H1 := cast_word_ok colo n w x u ltac:(zl) ltac:(zl) Hx).
  replace (swrap w u) with u in H1 by (destruct Hu; subst; congruence).
  assert (H2 : yields (cast colo (FI w) x) bits01).
  { unfold cast. destruct (fac_eqb (pfc x) (FI w)); [apply y_ret, Hb|].
    destruct (bool_inv _ _ _ Hx) as (a & b & c & E & Ha & Hbb & Hc & _). destruct Hb as (A & B & C). rewrite E in A, B, C |- *. cbn [mk3 p00 p10 p20 vz] in A, B, C.
    unfold sharewise; cbn [p00 p01 p10 p11 p20 p21 mk3 psc pty]. yrun. unfold bits01. cbn [p00 p10 p20 vz fcast].
    assert (Q : forall a, word FB a -> word FB (swrap w a)) by (intros a0 [-> | ->]; [rewrite S0_; left; reflexivity|rewrite S1_; right; reflexivity]).
    auto. }
  eapply y_weaken; [exact (y_conj _ _ _ H1 H2)|]. intros z ((A & B) & C). auto.
Qed.
Lemma xor_bits_ok f x y u v : fok f -> boolean f x u -> boolean f y v -> bits01 x -> bits01 y ->
  yields (xor_pp colo x y) (fun z => boolean f z (Z.lxor u v) /\ psc z = psc x /\ bits01 z).
Proof.
  intros Hf Hx Hy Bx By. assert (H1 := xor_pp_ok colo f x y u v Hf Hx Hy).
  assert (H2 : yields (xor_pp colo x y) bits01).
  { destruct (bool_inv _ _ _ Hx) as (a & b & c & E & Ha & Hbb & Hc & _). destruct (bool_inv _ _ _ Hy) as (a' & b' & c' & E' & Ha' & Hbb' & Hc' & _).
    destruct Bx as (A & B & C), By as (A' & B' & C'). rewrite E in A, B, C |- *. rewrite E' in A', B', C' |- *. cbn [mk3 p00 p10 p20 vz] in *.
    unfold xor_pp, sharewise2; cbn [is_arith pty mk3 negb andb pfc]. apply y_assert; [destruct f; [reflexivity|apply Z.eqb_refl]|].
    yrun. unfold bits01. cbn [p00 p10 p20 vz]. split; [|split]; apply bit_lxor; assumption. }
  eapply y_weaken; [exact (y_conj _ _ _ H1 H2)|]. intros z ((A & B) & C). auto.
Qed.
Lemma cast_FB_ok n x u : 0 < n -> boolean (FI n) x u -> bits01 x ->
  yields (cast colo FB x) (fun z => boolean FB z u /\ psc z = psc x).
Proof.
  intros Hn Hx Hb. unfold cast. assert (Hf : pfc x = FI n) by apply Hx. rewrite Hf. cbn [fac_eqb].
  destruct (bool_inv _ _ _ Hx) as (a & b & c & E & Ha & Hbb & Hc & <-). destruct Hb as (A & B & C). rewrite E in A, B, C |- *. cbn [mk3 p00 p10 p20 vz] in A, B, C.
  unfold sharewise; cbn [p00 p01 p10 p11 p20 p21 mk3 psc pty]. yrun. split; [|reflexivity].
  apply (bool_mk FB); try (apply (word_fcast FB); exact I).
  assert (Q : forall a, word FB a -> fcast FB a = a) by (intros a0 [-> | ->]; reflexivity). rewrite !Q by assumption. reflexivity.
Qed.

Definition pow2_size (n : Z) : Prop := exists e : nat, n = 2 ^ Z.of_nat e /\ 8 <= n.
Lemma log2_up_pow_le n k : pow2_size n -> 0 < k <= n -> 2 ^ Z.log2_up k <= n.
Proof.
  intros (e & -> & _) Hk. apply Z.pow_le_mono_r; [zl|]. rewrite <- (Z.log2_up_pow2 (Z.of_nat e)) by zl. apply Z.log2_up_le_mono. zl.
Qed.

Lemma lshift_if_ok n x u b k : 0 < n -> boolean (FI n) x u -> (b = true -> k = 0) ->
  yields (if b then ret x else lshift colo x k) (fun z => psc z = psc x /\ boolean (FI n) z (swrap n (Z.shiftl u k))).
Proof.
  intros Hn Hx Hb. destruct b.
  - apply y_ret. split; [reflexivity|]. rewrite (Hb eq_refl), Z.shiftl_0_r. rewrite swrap_id; [exact Hx|exact Hn|exact (b_in_s n x u Hn Hx)].
  - eapply y_weaken; [exact (lshift_bool_ok colo n x u k Hn Hx)|]. intros z (A & B). auto.
Qed.
Lemma cast_if_ok n k x u : 0 < n -> 0 < k -> boolean (FI n) x u ->
  yields (if k =? n then ret x else cast colo (fac_of k) x) (fun z => psc z = psc x /\
    exists v, boolean (if k =? n then FI n else fac_of k) z v /\ forall j, 0 <= j < k -> j < n -> Z.testbit v j = Z.testbit u j).
Proof.
  intros Hn Hk Hx. destruct (k =? n).
  - apply y_ret. split; [reflexivity|]. exists u. auto.
  - destruct (fac_of_spec k Hk) as (w & -> & H8 & Hw).
    eapply y_weaken; [exact (cast_word_ok colo n w x u Hn ltac:(zl) Hx)|]. intros z (A & B). split; [exact B|].
    eexists. split; [exact A|]. clear - H8 Hw. intros j Hj Hj'. rewrite swrap_bits by zl. f_equal. zl.
Qed.

Lemma carry_ok n x y u v pos : pow2_size n -> boolean (FI n) x u -> boolean (FI n) y v -> psc y = psc x -> 0 <= pos < n ->
  yields (carry prf colo x y pos) (fun z => psc z = psc x /\ bits01 z /\ exists w, 8 <= w /\
    boolean (FI w) z (Z.b2z (GB u v 0 (pos + 1)))).
Proof.
  intros Hsz Hx Hy Hs Hpos. assert (Hn8 : 8 <= n) by (destruct Hsz as (e & _ & H); exact H). assert (Hn : 0 < n) by zl.
  assert (Fx : pfc x = FI n) by apply Hx. assert (Fy : pfc y = FI n) by apply Hy.
  unfold carry. apply y_assert.
  { unfold is_arith. destruct Hx as (_ & -> & _), Hy as (_ & -> & _). rewrite Fx, Fy. cbn. apply Z.eqb_refl. }
  destruct (Z.ltb_spec pos 0); [zl|]. cbv zeta.
  set (m := Z.to_nat (Z.log2_up (pos + 1))).
  assert (Em : Z.of_nat m = Z.log2_up (pos + 1)) by (apply Z2Nat.id, Z.log2_up_nonneg).
  rewrite <- Em. set (k := 2 ^ Z.of_nat m).
  assert (Hk : pos + 1 <= k <= n).
  { split.
    - unfold k. rewrite Em. destruct (Z.eq_dec (pos + 1) 1) as [->|]; [vm_compute; congruence|]. pose proof (Z.log2_up_spec (pos + 1)). zl.
    - unfold k. rewrite Em. apply log2_up_pow_le; [exact Hsz|zl]. }
  assert (Hk0 : 0 < k) by zl.
  assert (Hz : (k =? pos + 1) = true -> k - pos - 1 = 0) by (clear; zl).
  apply (yb _ _ _ _ (lshift_if_ok n x u (k =? pos + 1) (k - pos - 1) Hn Hx Hz)). intros x1 (Sx1 & Hx1).
  apply (yb _ _ _ _ (lshift_if_ok n y v (k =? pos + 1) (k - pos - 1) Hn Hy Hz)). intros y1 (Sy1 & Hy1).
  replace (fbits (pfc x1)) with n by (destruct Hx1 as (_ & _ & -> & _); reflexivity).
  apply (yb _ _ _ _ (cast_if_ok n k x1 _ Hn Hk0 Hx1)). intros x2 (Sx2 & u2 & Hx2 & Eu).
  replace (fbits (pfc y1)) with n by (destruct Hy1 as (_ & _ & -> & _); reflexivity).
  apply (yb _ _ _ _ (cast_if_ok n k y1 _ Hn Hk0 Hy1)). intros y2 (Sy2 & v2 & Hy2 & Ev).
  assert (Hw : exists w, (if k =? n then FI n else fac_of k) = FI w /\ 8 <= w /\ k <= w).
  { destruct (Z.eqb_spec k n); [exists n; split; [reflexivity|]; lia|]. exact (fac_of_spec k Hk0). }
  destruct Hw as (w & Ew & Hw8 & Hkw). rewrite Ew in Hx2, Hy2. assert (Hw : 0 < w) by zl.
  apply (yb _ _ _ _ (and_ok prf colo Hprf (FI w) x2 y2 _ _ Hw Hx2 Hy2)). intros G (HG & SG_).
  apply (yb _ _ _ _ (xor_pp_ok colo (FI w) x2 y2 _ _ Hw Hx2 Hy2)). intros P (HP & SP_).
  assert (IG : BG u2 v2 1 k (Z.land u2 v2)) by (clear; intros j Hj; rewrite Z.land_spec, !Z.mul_1_r, GB_one; reflexivity).
  assert (IP : BP u2 v2 1 k (Z.lxor u2 v2)) by (clear; intros j Hj; rewrite Z.lxor_spec, !Z.mul_1_r, PB_one; reflexivity).
  assert (Sy : psc y2 = psc x) by congruence. assert (Sx : psc x2 = psc x) by congruence.
  rewrite Sx, Sy, Bool.orb_diag in SG_. rewrite Sx in SP_.
  apply (yb _ _ _ _ (carry_loop_ok u2 v2 (psc x) m w 1 G P _ _ ltac:(zl) Hw8 Hkw HG HP SG_ SP_ IG IP)).
  intros z (Sz & w' & g & Hw' & Hg & Eg).
  assert (Hw'0 : 0 < w') by zl.
  replace (pfc z) with (FI w') by (destruct Hg as (_ & _ & -> & _); reflexivity).
  apply (yb _ _ _ _ (const_ok colo (FI w') 1 false Hw'0)). intros one (Hone & _).
  cbn [fcast] in Hone. rewrite swrap_id in Hone; [|exact Hw'0|].
  2:{ unfold in_s. assert (2 ^ 7 <= 2 ^ (w' - 1)) by (apply Z.pow_le_mono_r; zl). change (2 ^ 7) with 128 in *. zl. }
  eapply y_weaken; [exact (and_one_ok w' z one g Hw'0 Hg Hone)|]. intros r (Hr & Sr & Br).
  split; [congruence|]. split; [exact Br|]. exists w'. split; [exact Hw'|].
  replace (GB u v 0 (pos + 1)) with (Z.testbit g 0); [exact Hr|].
  rewrite Eg, Z.mul_1_r. apply (GB_shift n k pos).
  - apply Hpos.
  - exact Hk.
  - intros j Hj. rewrite Eu by (clear - Hj Hk; zl). apply shl_bits; [exact Hn|clear - Hj Hk; lia].
  - intros j Hj. rewrite Ev by (clear - Hj Hk; zl). apply shl_bits; [exact Hn|clear - Hj Hk; lia].
Qed.
Lemma carry_negative x y pos : pos < 0 -> pty x = Bool_ -> pty y = Bool_ -> fac_eqb (pfc x) (pfc y) = true -> raises (carry prf colo x y pos) TypeError.
Proof.
  intros Hp Hx Hy Hf s. unfold carry, is_arith. rewrite Hx, Hy, Hf. cbn [negb andb assert_ bind ret].
  destruct (Z.ltb_spec pos 0); [reflexivity|zl].
Qed.

(** * Conversion operands *)
Lemma a2b_operands_ok n x v : 0 < n -> arith n x v ->
  yields (a2b_operands prf colo x) (fun ops => exists a b, boolean (FI n) (fst ops) a /\ boolean (FI n) (snd ops) b /\
    psc (fst ops) = psc x /\ psc (snd ops) = psc x /\ eqm (2 ^ n) (a + b) v).
Proof.
  intros Hn Hx. destruct (arith_inv _ _ _ Hx) as (a & b & c & -> & Ha & Hb & Hc & Hv & He).
  unfold a2b_operands. cbn [pfc mk3]. cbv zeta.
  apply (yb _ _ _ _ (const_ok colo (FI n) 0 false Hn)). intros zero (Hz & _).
  cbn [fcast] in Hz. rewrite swrap_id in Hz; [|exact Hn|unfold in_s; pose proof (pow2_pos (n - 1)); lia].
  destruct (public_inv _ _ _ Hz) as (-> & _).
  apply (yb _ _ _ _ (zero_sharing_ok prf Hprf Bool_ (FI n) Hn)). intros t (r0 & r1 & r2 & H0 & H1 & H2 & ->). cbn [gsub].
  cbn [p00 p01 p10 p11 p20 p21 mk3 psc mkq q0 q1 q2]. yrun. cbn [fst snd]. 
  exists (wadd (FI n) a b), c. unfold wadd; cbn [fcast]. split; [|split; [|split; [reflexivity|split; [reflexivity|]]]].
  - apply (bool_mk (FI n)).
    + apply in_s_lxor; [exact Hn|apply swrap_range, Hn|apply in_s_lxor; assumption].
    + apply in_s_lxor; assumption.
    + apply in_s_lxor; assumption.
    + bitblast.
  - apply (bool_mk (FI n) _ 0 0 c).
    + cbn; pose proof (pow2_pos (n - 1)); zl.
    + cbn; pose proof (pow2_pos (n - 1)); zl.
    + exact Hc.
    + reflexivity.
  - unw n Hn. exact He.
Qed.
Lemma a2b_ok n x v nb k : adder_size n -> arith n x v -> k = match nb with Some k => k | None => n end -> 0 < k <= n ->
  yields (a2b prf colo nb x) (fun z => psc z = psc x /\ boolean (FI n) z (if k <? n then v mod 2 ^ k else v)).
Proof.
  intros Ha Hx Hk Hkn. assert (Hn : 0 < n) by (destruct Ha; zl). unfold a2b.
  apply y_assert. { unfold is_arith. destruct Hx as (_ & -> & _). reflexivity. }
  apply (yb _ _ _ _ (a2b_operands_ok n x v Hn Hx)). intros ops (a & b & H1 & H2 & S1 & S2 & E).
  eapply y_weaken; [exact (ppa_ks_ok prf colo Hprf n _ _ a b nb k Ha H1 H2 ltac:(congruence) Hk Hkn)|].
  intros z (Sz & Hz). split; [congruence|]. destruct (k <? n).
  - replace (v mod 2 ^ k) with ((a + b) mod 2 ^ k); [exact Hz|].
    apply (bits_eqm k); [zl|]. intros i Hi. apply (eqm_bits n); [zl|exact E|zl].
  - replace v with (swrap n (a + b)); [exact Hz|]. apply (in_s_eqm_eq n); [exact Hn|apply swrap_range, Hn|apply Hx|]. unw n Hn. exact E.
Qed.

Lemma bit_extract_ok n x v i : pow2_size n -> arith n x v -> 0 < i < n ->
  yields (bit_extract prf colo x i) (fun z => boolean FB z (Z.b2z (Z.testbit v i)) /\ psc z = false).
Proof.
  intros Hsz Hx Hi. assert (Hn8 : 8 <= n) by (destruct Hsz as (e & _ & H); exact H). assert (Hn : 0 < n) by zl.
  assert (Fx : pfc x = FI n) by apply Hx. assert (Ax : is_arith x = true) by (unfold is_arith; destruct Hx as (_ & -> & _); reflexivity).
  unfold bit_extract. rewrite Fx, Ax.
  apply (yb _ _ _ _ (const_ok colo (FI n) 1 false Hn)). intros mask (Hm & _).
  assert (H1s : in_s n 1). { unfold in_s. assert (2 ^ 7 <= 2 ^ (n - 1)) by (apply Z.pow_le_mono_r; zl). change (2 ^ 7) with 128 in *. zl. }
  cbn [fcast] in Hm. rewrite swrap_id in Hm by assumption.
  apply (yb _ _ _ _ (a2b_operands_ok n x v Hn Hx)). intros ops (a & b & H1 & H2 & S1 & S2 & E).
  apply (yb _ _ _ _ (carry_ok n _ _ a b (i - 1) Hsz H1 H2 ltac:(congruence) ltac:(zl))). intros c (Sc & Bc & w & Hw & Hc).
  apply (yb _ _ _ _ (xor_pp_ok colo (FI n) _ _ a b Hn H1 H2)). intros p (Hp & Sp).
  apply (yb _ _ _ _ (rshift_bool_ok colo n p _ i Hn ltac:(zl) Hp)). intros p1 (Hp1 & Sp1).
  apply (yb _ _ _ _ (and_one_ok n p1 mask _ Hn Hp1 Hm)). intros p2 (Hp2 & Sp2 & Bp2).
  replace (pfc c) with (FI w) by (destruct Hc as (_ & _ & -> & _); reflexivity).
  apply (yb _ _ _ _ (cast_bits_ok n w p2 _ ltac:(zl) ltac:(zl) Hp2 (b2z_01 _) Bp2)). intros p3 (Hp3 & Sp3 & Bp3).
  apply (yb _ _ _ _ (xor_bits_ok (FI w) c p3 _ _ ltac:(cbn [fok]; zl) Hc Hp3 Bc Bp3)). intros z (Hz & Sz & Bz).
  apply (yb _ _ _ _ (cast_FB_ok w z _ ltac:(zl) Hz Bz)). intros r (Hr & Sr).
  apply y_ret. split; [|reflexivity].
  replace (Z.b2z (Z.testbit v i)) with (Z.lxor (Z.b2z (GB a b 0 (i - 1 + 1))) (Z.b2z (Z.testbit (Z.shiftr (Z.lxor a b) i) 0))).
  - exact Hr.
  - rewrite Z.shiftr_spec, Z.add_0_l by zl. rewrite Z.lxor_spec. replace (i - 1 + 1) with i by zl.
    rewrite <- (eqm_bits n _ _ ltac:(zl) E i) by zl. rewrite add_bit by zl. unfold pbit.
    destruct (GB a b 0 i), (Z.testbit a i), (Z.testbit b i); reflexivity.
Qed.
Lemma bit_extract_zero n x v : 1 < n -> arith n x v -> raises (bit_extract prf colo x 0) TypeError.
Proof.
  intros Hn Hx s. destruct (arith_inv _ _ _ Hx) as (a & b & c & E & Ha & Hb & Hc & Hv & He). rewrite E.
  unfold bit_extract, is_arith. cbn [pfc pty mk3].
  destruct (a2b_operands_ok n x v ltac:(zl) Hx s) as (ops & Eo & a' & b' & H1 & H2 & _). rewrite E in Eo.
  unfold bind at 1. assert (Hc0 : exists l, const colo (FI n) 1 false s = (s, l, Ok (mkq (FI n) false (fcast (FI n) 1)))) by apply const_run.
  destruct Hc0 as (l & ->). unfold bind at 1. destruct (a2b_operands prf colo _ s) as [[s1 l1] r1]. cbn [snd] in Eo. subst r1.
  assert (Hcr : snd (carry prf colo (fst ops) (snd ops) (0 - 1) s1) = Err TypeError).
  { apply carry_negative; [zl|apply H1|apply H2|]. destruct H1 as (_ & _ & -> & _), H2 as (_ & _ & -> & _). apply Z.eqb_refl. }
  unfold bind at 1. destruct (carry prf colo _ _ _ s1) as [[s2 l2] r2]. cbn [snd] in Hcr. subst r2. reflexivity.
Qed.
Lemma bit_extract_bool_ok n x v i : 1 < n -> boolean (FI n) x v -> 0 <= i ->
  yields (bit_extract prf colo x i) (fun z => boolean FB z (Z.b2z (Z.testbit v i)) /\ psc z = false).
Proof.
  intros Hn1 Hx Hi. assert (Hn : 0 < n) by zl.
  assert (Fx : pfc x = FI n) by apply Hx. assert (Ax : is_arith x = false) by (unfold is_arith; destruct Hx as (_ & -> & _); reflexivity).
  unfold bit_extract. rewrite Fx, Ax.
  apply (yb _ _ _ _ (const_ok colo (FI n) 1 false Hn)). intros mask (Hm & _).
  assert (H1s : in_s n 1). { unfold in_s. assert (2 ^ 1 <= 2 ^ (n - 1)) by (apply Z.pow_le_mono_r; zl). change (2 ^ 1) with 2 in *. zl. }
  cbn [fcast] in Hm. rewrite swrap_id in Hm by assumption.
  apply (yb _ _ _ _ (rshift_bool_ok colo n x _ i Hn ltac:(zl) Hx)). intros p1 (Hp1 & Sp1).
  apply (yb _ _ _ _ (and_one_ok n p1 mask _ Hn Hp1 Hm)). intros p2 (Hp2 & Sp2 & Bp2).
  apply (yb _ _ _ _ (cast_FB_ok n p2 _ Hn Hp2 Bp2)). intros r (Hr & Sr).
  apply y_ret. split; [|reflexivity]. rewrite Z.shiftr_spec, Z.add_0_l in Hr by zl. exact Hr.
Qed.
Lemma sign_bit n v : 0 < n -> in_s n v -> Z.testbit v (n - 1) = (v <? 0).
Proof.
  intros Hn [Hl Hh]. destruct (Z.ltb_spec v 0).
  - assert (E : v / 2 ^ (n - 1) = -1) by (symmetry; apply (Z.div_unique_pos _ _ _ (v + 2 ^ (n - 1))); zl).
    apply Z.b2z_inj. rewrite Z.testbit_spec', E by zl. reflexivity.
  - assert (E : v / 2 ^ (n - 1) = 0) by (apply Z.div_small; zl).
    apply Z.b2z_inj. rewrite Z.testbit_spec', E by zl. reflexivity.
Qed.
Lemma msb_ok n x v : pow2_size n -> arith n x v ->
  yields (msb prf colo x) (fun z => boolean FB z (Z.b2z (v <? 0)) /\ psc z = false).
Proof.
  intros Hsz Hx. assert (Hn8 : 8 <= n) by (destruct Hsz as (e & _ & H); exact H).
  unfold msb. assert (Fx : pfc x = FI n) by apply Hx. rewrite Fx. cbn [fbits].
  assert (Hv : in_s n v) by apply Hx. assert (Hn : 0 < n) by zl.
  rewrite <- (sign_bit n v Hn Hv). apply (bit_extract_ok n); [exact Hsz|exact Hx|zl].
Qed.

(** * Boolean to arithmetic *)
Lemma b2a_ppa_ok n x v : adder_size n -> boolean (FI n) x v ->
  yields (b2a_ppa prf colo x) (fun z => arith n z v /\ psc z = psc x).
Proof.
  intros Ha Hx. assert (Hn : 0 < n) by (destruct Ha; zl). assert (Hv := b_in_s n x v Hn Hx).
  unfold b2a_ppa. assert (Fx : pfc x = FI n) by apply Hx. rewrite Fx. cbv zeta.
  apply y_assert. { unfold is_arith. destruct Hx as (_ & -> & _). reflexivity. }
  apply (yb _ _ _ _ (b2a_sharing_ok prf Hprf false (FI n) Hn)). intros t1 (u1 & Hu1 & ->).
  apply (yb _ _ _ _ (b2a_sharing_ok prf Hprf true (FI n) Hn)). intros t2 (u2 & Hu2 & ->).
  apply (yb _ _ _ _ (zero_sharing_ok prf Hprf Bool_ (FI n) Hn)). intros t (r0 & r1 & r2 & H0 & H1 & H2 & ->). cbn [gsub fst snd].
  do 4 ystep. ystep.
  set (neg := MkPr _ _ _ _ _ _ _ _ _).
  assert (Hneg : boolean (FI n) neg (wsub (FI n) (wneg (FI n) u1) u2)).
  { unfold neg, wsub; cbn [fcast]. apply (bool_mk (FI n) (psc x) (Z.lxor r0 r1)).
    - apply in_s_lxor; assumption.
    - apply in_s_lxor; [exact Hn|apply swrap_range, Hn|apply in_s_lxor; assumption].
    - apply in_s_lxor; assumption.
    - bitblast. }
  apply (yb _ _ _ _ (ppa_ks_ok prf colo Hprf n x neg v _ None n Ha Hx Hneg eq_refl eq_refl ltac:(zl))). intros x0 (_ & Hx0).
  rewrite Z.ltb_irrefl in Hx0.
  apply (recon_bind _ _ _ _ _ (reconstruct_bool (FI n) x0 _ S0 Hx0)), (recon_bind _ _ _ _ _ (reconstruct_bool (FI n) x0 _ S2 Hx0)).
  apply y_mk. split; [|reflexivity].
  apply (arith_mk n (psc x)); [apply swrap_range, Hn|exact Hu1|exact Hu2|exact Hv|].
  unfold wsub, wneg; cbn [fcast]. eqm_ring n Hn.
Qed.

(** * Comparisons *)
Lemma less_than_ok n x y u v : pow2_size n -> arith n x u -> arith n y v -> psc y = psc x ->
  yields (less_than prf colo x y) (fun z => boolean FB z (Z.b2z (swrap n (u - v) <? 0)) /\ psc z = false).
Proof.
  intros Hsz Hx Hy Hs. assert (Hn8 : 8 <= n) by (destruct Hsz as (e & _ & H); exact H).
  unfold less_than. apply y_assert. { unfold is_arith. destruct Hx as (_ & -> & _), Hy as (_ & -> & _). reflexivity. }
  apply (yb _ _ _ _ (sub_pp_ok colo n x y u v ltac:(zl) Hx Hy Hs)). intros z (Hz & _). apply (msb_ok n); assumption.
Qed.
Lemma less_than_pq_ok n x y u v : pow2_size n -> arith n x u -> public (FI n) y v -> qsc y = psc x ->
  yields (less_than_pq prf colo x y) (fun z => boolean FB z (Z.b2z (swrap n (u - v) <? 0)) /\ psc z = false).
Proof.
  intros Hsz Hx Hy Hs. assert (Hn8 : 8 <= n) by (destruct Hsz as (e & _ & H); exact H).
  unfold less_than_pq. apply y_assert. { unfold is_arith. destruct Hx as (_ & -> & _). reflexivity. }
  apply (yb _ _ _ _ (sub_pq_ok colo n x y u v ltac:(zl) Hx Hy Hs)). intros z (Hz & _). apply (msb_ok n); assumption.
Qed.
Lemma less_than_qp_ok n x y u v : pow2_size n -> public (FI n) x u -> arith n y v ->
  yields (less_than_qp prf colo x y) (fun z => boolean FB z (Z.b2z (swrap n (u - v) <? 0)) /\ psc z = false).
Proof.
  intros Hsz Hx Hy. assert (Hn8 : 8 <= n) by (destruct Hsz as (e & _ & H); exact H).
  unfold less_than_qp. apply y_assert. { unfold is_arith. destruct Hy as (_ & -> & _). reflexivity. }
  apply (yb _ _ _ _ (sub_qp_ok colo n x y v u ltac:(zl) Hy Hx)). intros z (Hz & _). apply (msb_ok n); assumption.
Qed.
(** The sign of the wrapped difference decides the order exactly when the difference fits. *)
Lemma cmp_iff n u v : 0 < n -> in_s n u -> in_s n v -> ((swrap n (u - v) <? 0) = (u <? v) <-> in_s n (u - v)).
Proof.
  intros Hn Hu Hv. split.
  - intros H. unfold in_s in *.
    destruct (Z.lt_ge_cases (u - v) (- 2 ^ (n - 1))) as [Hlo|Hlo].
    + assert (E : swrap n (u - v) = u - v + 2 ^ n).
      { apply (in_s_eqm_eq n); [exact Hn|apply swrap_range, Hn|unfold in_s; rewrite (pow2_half n) in * by zl; lia|].
        rewrite (swrap_eqm n) by exact Hn. apply eqm_exists; [pose proof (pow2_pos n); lia|]. exists (-1). zl. }
      rewrite E in H. rewrite (pow2_half n) in * by zl. zl.
    + destruct (Z.lt_ge_cases (u - v) (2 ^ (n - 1))) as [Hhi|Hhi]; [zl|].
      assert (E : swrap n (u - v) = u - v - 2 ^ n).
      { apply (in_s_eqm_eq n); [exact Hn|apply swrap_range, Hn|unfold in_s; rewrite (pow2_half n) in * by zl; lia|].
        rewrite (swrap_eqm n) by exact Hn. apply eqm_exists; [pose proof (pow2_pos n); lia|]. exists 1. zl. }
      rewrite E in H. rewrite (pow2_half n) in * by zl. zl.
  - intros H. rewrite swrap_id by assumption. zl.
Qed.
Lemma not_bit b : 1 - Z.b2z b = Z.b2z (negb b).
Proof. destruct b; reflexivity. Qed.
Lemma not_FB_ok x u : boolean FB x u -> yields (not_p colo x) (fun z => boolean FB z (1 - u) /\ psc z = psc x).
Proof. intros H. exact (not_ok colo FB x u I H). Qed.

Lemma greater_equal_ok n x y u v : pow2_size n -> arith n x u -> arith n y v -> psc y = psc x ->
  yields (greater_equal prf colo x y) (fun z => boolean FB z (Z.b2z (negb (swrap n (u - v) <? 0))) /\ psc z = false).
Proof.
  intros Hsz Hx Hy Hs. unfold greater_equal. apply (yb _ _ _ _ (less_than_ok n x y u v Hsz Hx Hy Hs)). intros z (Hz & Sz).
  rewrite <- not_bit. eapply y_weaken; [exact (not_FB_ok z _ Hz)|]. intros r (A & B). split; [exact A|congruence].
Qed.
Lemma less_equal_ok n x y u v : pow2_size n -> arith n x u -> arith n y v -> psc y = psc x ->
  yields (less_equal prf colo x y) (fun z => boolean FB z (Z.b2z (negb (swrap n (v - u) <? 0))) /\ psc z = false).
Proof.
  intros Hsz Hx Hy Hs. unfold less_equal, greater_than. apply (yb _ _ _ _ (less_than_ok n y x v u Hsz Hy Hx (eq_sym Hs))). intros z (Hz & Sz).
  rewrite <- not_bit. eapply y_weaken; [exact (not_FB_ok z _ Hz)|]. intros r (A & B). split; [exact A|congruence].
Qed.
Lemma neg_zero n u : 0 < n -> in_s n u -> (negb (u <? 0) && negb (swrap n (- u) <? 0)) = (u =? 0).
Proof.
  intros Hn Hu. destruct (Z.ltb_spec u 0); cbn [negb andb]; [zl|].
  rewrite swrap_id; [zl|exact Hn|unfold in_s in *; lia].
Qed.
Lemma equal_zero_ok n x u : pow2_size n -> arith n x u ->
  yields (equal_zero prf colo x) (fun z => boolean FB z (Z.b2z (u =? 0)) /\ psc z = false).
Proof.
  intros Hsz Hx. assert (Hn8 : 8 <= n) by (destruct Hsz as (e & _ & H); exact H). assert (Hn : 0 < n) by zl.
  unfold equal_zero. apply (yb _ _ _ _ (negative_ok colo n x u Hn Hx)). intros nx (Hnx & _).
  apply (yb _ _ _ _ (msb_ok n x u Hsz Hx)). intros a (Ha & Sa).
  apply (yb _ _ _ _ (msb_ok n nx _ Hsz Hnx)). intros b (Hb & Sb).
  apply (yb _ _ _ _ (not_FB_ok a _ Ha)). intros na (Hna & Sna).
  apply (yb _ _ _ _ (not_FB_ok b _ Hb)). intros nb' (Hnb & Snb).
  eapply y_weaken; [exact (and_ok prf colo Hprf FB na nb' _ _ I Hna Hnb)|]. intros z (Hz & Sz).
  split; [|rewrite Sz, Sna, Snb, Sa, Sb; reflexivity].
  rewrite !not_bit in Hz. rewrite <- (neg_zero n u Hn ltac:(apply Hx)).
  destruct (u <? 0), (swrap n (- u) <? 0); exact Hz.
Qed.
Lemma diff_zero n u v : 0 < n -> in_s n u -> in_s n v -> (swrap n (u - v) =? 0) = (u =? v).
Proof.
  intros Hn Hu Hv. destruct (Z.eqb_spec u v) as [->|Hne].
  - rewrite Z.sub_diag. rewrite swrap_id; [reflexivity|exact Hn|unfold in_s; pose proof (pow2_pos (n - 1)); lia].
  - apply Z.eqb_neq. intros E. apply Hne. apply (in_s_eqm_eq n); [exact Hn|exact Hu|exact Hv|].
    assert (H : eqm (2 ^ n) (u - v) 0) by (rewrite <- E; symmetry; apply swrap_eqm, Hn).
    transitivity (u - v + v); [apply eqm_eq; ring|]. rewrite H. apply eqm_eq. ring.
Qed.
Lemma equal_ok n x y u v : pow2_size n -> arith n x u -> arith n y v -> psc y = psc x ->
  yields (equal prf colo x y) (fun z => boolean FB z (Z.b2z (u =? v)) /\ psc z = false).
Proof.
  intros Hsz Hx Hy Hs. assert (Hn8 : 8 <= n) by (destruct Hsz as (e & _ & H); exact H).
  unfold equal. apply y_assert. { unfold is_arith. destruct Hx as (_ & -> & _), Hy as (_ & -> & _). reflexivity. }
  apply (yb _ _ _ _ (sub_pp_ok colo n x y u v ltac:(zl) Hx Hy Hs)). intros z (Hz & _).
  assert (Hu : in_s n u) by apply Hx. assert (Hv : in_s n v) by apply Hy. assert (Hn : 0 < n) by zl.
  rewrite <- (diff_zero n u v Hn Hu Hv). apply (equal_zero_ok n); assumption.
Qed.

(** * Selection *)
Lemma select_arith_ok n c x y beta u v : 0 < n -> boolean FB c (Z.b2z beta) -> arith n x u -> arith n y v -> psc y = psc x ->
  yields (select prf colo c x y) (fun z => arith n z (if beta then v else u) /\ psc z = psc x).
Proof.
  intros Hn Hc Hx Hy Hs. unfold select.
  assert (Ax : is_arith x = true) by (unfold is_arith; destruct Hx as (_ & -> & _); reflexivity).
  assert (Ay : is_arith y = true) by (unfold is_arith; destruct Hy as (_ & -> & _); reflexivity). rewrite Ax, Ay. cbn [negb orb].
  apply (yb _ _ _ _ (sub_pp_ok colo n y x v u Hn Hy Hx (eq_sym Hs))). intros d (Hd & Sd).
  apply (yb _ _ _ _ (mul_ab_pp_ok prf colo Hprf n d c _ _ Hn Hd (proj2 Hc))). intros e (He & Se).
  eapply y_weaken; [exact (add_pp_ok colo n e x _ _ Hn He Hx)|]. intros z (Hz & Sz). split; [|congruence].
  replace (if beta then v else u) with (swrap n (swrap n (Z.b2z beta * swrap n (v - u)) + u)); [exact Hz|].
  apply (in_s_eqm_eq n); [exact Hn|apply swrap_range, Hn|destruct beta; [apply Hy|apply Hx]|].
  destruct beta; cbn [Z.b2z]; eqm_ring n Hn.
Qed.
Lemma select_bool_ok f c x y (beta : bool) u v : fok f -> boolean f c (if beta then (match f with FB => 1 | FI _ => -1 end) else 0) ->
  boolean f x u -> boolean f y v -> psc y = psc x ->
  yields (select prf colo c x y) (fun z => boolean f z (if beta then v else u)).
Proof.
  intros Hf Hc Hx Hy Hs. unfold select.
  assert (Ax : is_arith x = false) by (unfold is_arith; destruct Hx as (_ & -> & _); reflexivity). rewrite Ax. cbn [negb orb].
  apply (yb _ _ _ _ (xor_pp_ok colo f x y u v Hf Hx Hy)). intros d (Hd & Sd).
  apply (yb _ _ _ _ (and_ok prf colo Hprf f d c _ _ Hf Hd Hc)). intros e (He & Se).
  eapply y_weaken; [exact (xor_pp_ok colo f e x _ _ Hf He Hx)|]. intros z (Hz & Sz).
  replace (if beta then v else u) with (Z.lxor (Z.land (Z.lxor u v) (if beta then match f with FB => 1 | FI _ => -1 end else 0)) u); [exact Hz|].
  destruct beta.
  - destruct f as [|n].
    + assert (Wx : word FB u) by (destruct Hx as (_ & _ & _ & _ & A & B & C & <-); apply (word_lxor FB); [exact I|apply (word_lxor FB); [exact I|assumption..]|assumption]).
      assert (Wy : word FB v) by (destruct Hy as (_ & _ & _ & _ & A & B & C & <-); apply (word_lxor FB); [exact I|apply (word_lxor FB); [exact I|assumption..]|assumption]).
      destruct Wx as [-> | ->], Wy as [-> | ->]; reflexivity.
    + rewrite Z.land_m1_r. bitblast.
  - rewrite Z.land_0_r. reflexivity.
Qed.
Lemma maximum_ok n x y u v : pow2_size n -> arith n x u -> arith n y v -> psc y = psc x -> in_s n (v - u) ->
  yields (maximum prf colo x y) (fun z => arith n z (Z.max u v) /\ psc z = psc x).
Proof.
  intros Hsz Hx Hy Hs Hd. assert (Hn8 : 8 <= n) by (destruct Hsz as (e & _ & H); exact H).
  unfold maximum, greater_than. apply (yb _ _ _ _ (less_than_ok n y x v u Hsz Hy Hx (eq_sym Hs))). intros c (Hc & Sc).
  eapply y_weaken; [exact (select_arith_ok n c y x _ v u ltac:(zl) Hc Hy Hx (eq_sym Hs))|]. intros z (Hz & Sz). split; [|congruence].
  rewrite swrap_id in Hz by (try zl; exact Hd). replace (Z.max u v) with (if v - u <? 0 then u else v); [exact Hz|].
  destruct (Z.ltb_spec (v - u) 0); zl.
Qed.
Lemma cmp_swap_ok n x y u v : pow2_size n -> arith n x u -> arith n y v -> psc y = psc x -> in_s n (v - u) ->
  yields (cmp_swap prf colo x y) (fun p => arith n (fst p) (Z.min u v) /\ arith n (snd p) (Z.max u v) /\ psc (fst p) = psc x /\ psc (snd p) = psc x).
Proof.
  intros Hsz Hx Hy Hs Hd. assert (Hn8 : 8 <= n) by (destruct Hsz as (e & _ & H); exact H).
  unfold cmp_swap, greater_than. apply (yb _ _ _ _ (less_than_ok n y x v u Hsz Hy Hx (eq_sym Hs))). intros c (Hc & Sc).
  rewrite swrap_id in Hc by (try zl; exact Hd).
  apply (yb _ _ _ _ (select_arith_ok n c y x _ v u ltac:(zl) Hc Hy Hx (eq_sym Hs))). intros mx (Hmx & Smx).
  apply (yb _ _ _ _ (select_arith_ok n c x y _ u v ltac:(zl) Hc Hx Hy Hs)). intros mn (Hmn & Smn).
  apply y_ret. cbn [fst snd]. split; [|split; [|split; congruence]].
  - replace (Z.min u v) with (if v - u <? 0 then v else u); [exact Hmn|]. destruct (Z.ltb_spec (v - u) 0); zl.
  - replace (Z.max u v) with (if v - u <? 0 then u else v); [exact Hmx|]. destruct (Z.ltb_spec (v - u) 0); zl.
Qed.
Lemma relu_ok n x u : pow2_size n -> arith n x u -> u <> - 2 ^ (n - 1) ->
  yields (relu prf colo x) (fun z => arith n z (Z.max u 0) /\ psc z = psc x).
Proof.
  intros Hsz Hx Hmin. assert (Hn8 : 8 <= n) by (destruct Hsz as (e & _ & H); exact H). assert (Hn : 0 < n) by zl.
  unfold relu. assert (Fx : pfc x = FI n) by apply Hx. rewrite Fx.
  assert (H0 : in_s n 0) by (unfold in_s; pose proof (pow2_pos (n - 1)); zl).
  assert (Hu : in_s n u) by apply Hx.
  apply (yb _ _ _ _ (const_ok colo (FI n) 0 (psc x) Hn)). intros zero (Hz & Sz).
  cbn [fcast] in Hz. rewrite swrap_id in Hz by assumption.
  apply (yb _ _ _ _ (less_than_qp_ok n zero x 0 u Hsz Hz Hx)). intros c (Hc & Sc).
  apply (yb _ _ _ _ (const_ok colo (FI n) 0 (psc x) Hn)). intros zero' (Hz' & Sz').
  cbn [fcast] in Hz'. rewrite swrap_id in Hz' by assumption.
  apply (yb _ _ _ _ (sub_pq_ok colo n x zero' u 0 Hn Hx Hz' Sz')). intros d (Hd & Sd).
  apply (yb _ _ _ _ (mul_ab_pp_ok prf colo Hprf n d c _ _ Hn Hd (proj2 Hc))). intros e (He & Se).
  eapply y_weaken; [exact (add_pq_ok colo n e zero' _ 0 Hn He Hz' ltac:(congruence))|]. intros z (Hr & Sr). split; [|congruence].
  rewrite Z.sub_0_r, Z.sub_0_l, Z.add_0_r in Hr. rewrite (swrap_id n u) in Hr by assumption.
  rewrite (swrap_id n (- u)) in Hr by (try exact Hn; clear - Hu Hmin; unfold in_s in *; zl).
  replace (Z.max u 0) with (swrap n (swrap n (Z.b2z (- u <? 0) * u))); [exact Hr|].
  clear - Hn Hu H0. destruct (Z.ltb_spec (- u) 0); cbn [Z.b2z]; rewrite ?Z.mul_1_l, ?Z.mul_0_l; rewrite !swrap_id by (try assumption; apply swrap_range; exact Hn); zl.
Qed.
(** The one input relu gets wrong. *)
Lemma relu_min n x : pow2_size n -> arith n x (- 2 ^ (n - 1)) -> yields (relu prf colo x) (fun z => arith n z (- 2 ^ (n - 1)) /\ psc z = psc x).
Proof.
  intros Hsz Hx. assert (Hn8 : 8 <= n) by (destruct Hsz as (e & _ & H); exact H). assert (Hn : 0 < n) by zl.
  unfold relu. assert (Fx : pfc x = FI n) by apply Hx. rewrite Fx.
  assert (H0 : in_s n 0) by (unfold in_s; pose proof (pow2_pos (n - 1)); zl).
  set (u := - 2 ^ (n - 1)) in *. assert (Hu : in_s n u) by apply Hx.
  assert (E : swrap n (- u) = u).
  { apply (in_s_eqm_eq n); [exact Hn|apply swrap_range, Hn|exact Hu|]. rewrite (swrap_eqm n) by exact Hn.
    apply eqm_exists; [pose proof (pow2_pos n); lia|]. exists 1. unfold u. rewrite (pow2_half n) by zl. zl. }
  apply (yb _ _ _ _ (const_ok colo (FI n) 0 (psc x) Hn)). intros zero (Hz & Sz).
  cbn [fcast] in Hz. rewrite swrap_id in Hz by assumption.
  apply (yb _ _ _ _ (less_than_qp_ok n zero x 0 u Hsz Hz Hx)). intros c (Hc & Sc).
  rewrite Z.sub_0_l, E in Hc.
  assert (Eb : (u <? 0) = true) by (apply Z.ltb_lt; unfold u; pose proof (pow2_pos (n - 1)); zl). rewrite Eb in Hc.
  apply (yb _ _ _ _ (const_ok colo (FI n) 0 (psc x) Hn)). intros zero' (Hz' & Sz').
  cbn [fcast] in Hz'. rewrite swrap_id in Hz' by assumption.
  apply (yb _ _ _ _ (sub_pq_ok colo n x zero' u 0 Hn Hx Hz' Sz')). intros d (Hd & Sd).
  apply (yb _ _ _ _ (mul_ab_pp_ok prf colo Hprf n d c _ _ Hn Hd (proj2 Hc))). intros e (He & Se).
  eapply y_weaken; [exact (add_pq_ok colo n e zero' _ 0 Hn He Hz' ltac:(congruence))|]. intros z (Hr & Sr).
  cbn [Z.b2z] in Hr. rewrite Z.sub_0_r, Z.mul_1_l, Z.add_0_r in Hr. rewrite !(swrap_id n u) in Hr by assumption. split; [exact Hr|congruence].
Qed.
End Cmp.
