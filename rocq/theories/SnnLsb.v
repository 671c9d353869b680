(** The lsb, msb and comparison protocols of SecureNN. *)
From Coq Require Import ZArith Lia List Bool Znumtheory.
From Verif Require Import Base Factory TensorModel TensorProofs PondModel PondSpec PondProofs SnnModel SnnSpec SnnProofs SnnLift SnnCmp.
Import ListNotations.

Section Lsb.
Context (wn : nat) (p : Z) (cfg : fpconfig).
Notation w := (Z.of_nat wn).
Notation FR := (native (MkN w None)).
Notation FO := (odd w).
Notation FP := (native (MkN w (Some p))).
Context (Hw : (1 < wn)%nat) (Hp : prime p) (Hpw : w + 1 < p) (Hps : p * p <= 2 ^ (w - 1)).
Notation mo := (2 ^ w - 1).
Let LR' := LR wn Hw.
Let LP' := LP wn p Hw Hp Hps.
Let LO' := LO wn Hw.
Let HhR := holdsR wn Hw.
Let HhP := holdsP wn p Hw Hp Hps.

Lemma mo_pos : 3 <= mo.
Proof. pose proof (Z.pow_le_mono_r 2 2 w ltac:(lia) ltac:(lia)). lia. Qed.
Lemma pow2_even : exists k, 2 ^ w = 2 * k.
Proof. exists (2 ^ (w - 1)). apply pow2_half. lia. Qed.

Lemma f0_odd : f0 FO = 0.
Proof.
  unfold f0, fof, odd. rewrite Z.mod_0_l by (unfold odd_modulus; pose proof mo_pos; lia).
  apply swrap_id; [lia|]. unfold in_s. pose proof (pow2_pos (w - 1) ltac:(lia)). lia.
Qed.
Lemma tval_odd (x : list Z) i : tval FO x i = nth i x 0 mod 2 ^ w.
Proof. unfold tval, ent. rewrite f0_odd. reflexivity. Qed.

Lemma b2z_xor a b : Z.b2z (xorb a b) = Z.b2z a + Z.b2z b - Z.b2z a * Z.b2z b * 2.
Proof. destruct a, b; reflexivity. Qed.
Lemma testbit0_mod2 z : Z.b2z (Z.testbit z 0) = z mod 2.
Proof. rewrite Z.bit0_mod. reflexivity. Qed.

(** Parity of a value masked in the odd ring. *)
Lemma odd_parity V r : 0 <= V < mo -> 0 <= r < mo ->
  let c := (V + r) mod mo in
  V mod 2 = Z.b2z (xorb (c <? r) (xorb (Z.testbit r 0) (Z.testbit c 0))).
Proof.
  intros HV Hr c. destruct pow2_even as (k & Hk).
  assert (E : c = if V + r <? mo then V + r else V + r - mo).
  { unfold c. destruct (Z.ltb_spec (V + r) mo); [apply Z.mod_small; lia|].
    symmetry. apply (Z.mod_unique_pos _ _ 1); lia. }
  assert (D : V = c - r + Z.b2z (c <? r) * mo).
  { rewrite E. destruct (Z.ltb_spec (V + r) mo).
    - replace (V + r <? r) with false by (symmetry; apply Z.ltb_ge; lia). cbn [Z.b2z]; lia.
    - replace (V + r - mo <? r) with true by (symmetry; apply Z.ltb_lt; lia). cbn [Z.b2z]; lia. }
  clearbody c. clear E. rewrite !b2z_xor, !testbit0_mod2. rewrite D at 1.
  pose proof (Z.mod_pos_bound r 2 ltac:(lia)). pose proof (Z.mod_pos_bound c 2 ltac:(lia)).
  rewrite (Z.div_mod r 2 ltac:(lia)) at 1. rewrite (Z.div_mod c 2 ltac:(lia)) at 1.
  rewrite Hk. assert (Hb : Z.b2z (c <? r) = 0 \/ Z.b2z (c <? r) = 1) by (destruct (c <? r); auto).
  set (b := Z.b2z _) in *. clearbody b. set (cm := c mod 2) in *. set (rm := r mod 2) in *.
  set (cd := c / 2). set (rd := r / 2). clearbody cm rm cd rd.
  replace (2 * cd + cm - (2 * rd + rm) + b * (2 * k - 1)) with (cm - rm - b + (cd - rd + b * k) * 2) by ring.
  rewrite Z_mod_plus_full.
  assert (Hc : cm = 0 \/ cm = 1) by lia. assert (Hr' : rm = 0 \/ rm = 1) by lia.
  destruct Hb as [-> | ->], Hc as [-> | ->], Hr' as [-> | ->]; reflexivity.
Qed.

Lemma rnd_ok_bits n : forall rd, lsbrnd_ok wn p n rd -> okT FO n (l_r0 rd) /\ okT FO n (l_r1 rd).
Proof. intros rd H. split; apply H. Qed.

(** Plain value of the mask r = r0 + r1 and of the opened word c. *)
Definition rval (rd : lsbrnd w) (i : nat) : Z := (nth i (l_r0 rd) 0 mod 2 ^ w + nth i (l_r1 rd) 0 mod 2 ^ w) mod mo.

Lemma lsb_private_ok rd n (x : ptensor FO) sx V : lsbrnd_ok wn p n rd -> stands n x false sx V ->
  (forall i, (i < n)%nat -> 0 <= V i < mo) ->
  ryields (lsb_private_view wn p cfg rd x)
    (fun q => stands n (snd q) false false (fun i => V i mod 2) /\ length (fst q) = (n * wn)%nat /\
      forall k, (k < n * wn)%nat ->
        nth k (fst q) 0 = (cval wn (rval rd) (fun i => (V i + rval rd i) mod mo) (fun i => nth i (l_beta rd) 0) k * nth k (l_mask rd) 0) mod p).
Proof.
  intros (R0 & R1 & Rb & Rl & [Lbeta Hbeta] & Re & Rm & Rr & Rmul) Hx HV. pose proof mo_pos as Hmo.
  assert (Hrr : forall i, 0 <= rval rd i < mo) by (intros; unfold rval; apply Z.mod_pos_bound; lia).
  unfold lsb_private_view. rewrite (stands_entries FO n x false sx V Hx).
  eapply rbind_ok; [apply (priv_st FO n (l_r0 rd) (l_r1 rd) false (rval rd) R0 R1)|].
  { intros i Hi. rewrite !tval_odd. unfold rval. symmetry. apply eqm_mod_l. }
  intros r [_ Hr].
  set (r_raw := vadd FO (l_r0 rd) (l_r1 rd) : list Z).
  assert (Wraw : okT FO n r_raw) by (apply okT_vadd; assumption).
  assert (Lraw : @length Z r_raw = n) by apply Wraw.
  assert (Vraw : forall i, (i < n)%nat -> nth i r_raw 0 mod 2 ^ w = rval rd i).
  { intros i Hi. pose proof (tval_vadd FO LO' n _ _ i R0 R1 Hi) as E. fold r_raw in E. rewrite !tval_odd in E.
    unfold eqm in E. change (fmod FO) with mo in E. rewrite Z.mod_small in E; [exact E|].
    apply odd_wf_range; [lia|]. destruct Wraw as [_ Wr]. rewrite Forall_forall in Wr. apply Wr, (@nth_In Z). rewrite Lraw; exact Hi. }
  assert (Vbits : forall i j, (i < n)%nat -> (j < wn)%nat -> nth (i * wn + j) (all_bits wn r_raw) 0 = Z.b2z (Z.testbit (rval rd i) (Z.of_nat j))).
  { intros i j Hi Hj. rewrite all_bits_nth by lia. f_equal. apply (testbit_eqm wn Hw); [exact Hj|].
    rewrite (Vraw i Hi). symmetry. apply Z.mod_small. specialize (Hrr i). lia. }
  eapply rbind_ok.
  { apply (share_st FP LP' (n * wn) (all_bits wn r_raw) (l_bits rd) (l_bits_swap rd) false (bitf wn (rval rd))).
    - apply okT_bits; [exact HhP|rewrite all_bits_length; congruence|apply all_bits_bit].
    - exact Rb.
    - intros k Hk. destruct (flat_split wn k n ltac:(lia) Hk) as (i & j & -> & Hi & Hj).
      rewrite (tval_bits wn Hw _ _ _ HhP) by apply all_bits_bit. rewrite Vbits, bitf_at by assumption. reflexivity. }
  intros rbits Hrbits.
  assert (Wb : okT FR (n * wn) (all_bits wn r_raw)).
  { apply okT_bits; [exact HhR|rewrite all_bits_length; congruence|apply all_bits_bit]. }
  eapply rbind_ok.
  { apply (share_st FR LR' n (vsel FR (firsts wn n) (all_bits wn r_raw)) (l_lsb rd) (l_lsb_swap rd) false (fun i => Z.b2z (Z.testbit (rval rd i) 0))).
    - pose proof (okT_vsel FR LR' (firsts wn n) _ _ Wb) as Q. rewrite firsts_length in Q. exact Q.
    - exact Rl.
    - intros i Hi. rewrite (tval_vsel FR LR' (firsts wn n) (n * wn) _ i Wb) by (rewrite firsts_length; exact Hi).
      cbn beta. rewrite firsts_nth by assumption. cbn [zoi]. rewrite (tval_bits wn Hw _ _ _ HhR) by apply all_bits_bit.
      rewrite <- (Nat.add_0_r (i * wn)), Vbits by lia. reflexivity. }
  intros rlsb Hrlsb.
  eapply rbind_ok; [exact (add_priv_st FO LO' n x r sx false V (rval rd) Hx Hr)|]. intros xr Hxr.
  eapply rbind_ok; [exact (reveal_st FO LO' n xr false sx _ Hxr)|]. intros c Hc.
  set (C := fun i => (V i + rval rd i) mod mo).
  assert (HC : forall i, 0 <= C i < mo) by (intros; unfold C; apply Z.mod_pos_bound; lia).
  destruct Hc as [Dc Kc]. destruct c as [[dc0 c0] [dc1 c1] scc| |]; cbn in Kc; try discriminate. cbn [denotes pdev pval] in Dc.
  destruct Dc as (-> & -> & -> & Wc0 & Wc1 & Hcv). cbn [pdev pval].
  assert (Q : forall l : list Z, okT FO n l -> (forall i, (i < n)%nat -> eqm mo (tval FO l i) (V i + rval rd i)) ->
    okT FR n l /\ forall i, (i < n)%nat -> nth i l 0 mod 2 ^ w = C i).
  { intros l [Ll Wl] Hl. split.
    - split; [exact Ll|]. eapply Forall_impl; [|exact Wl]. intros a Ha. exact (proj1 Ha).
    - intros i Hi. specialize (Hl i Hi). rewrite tval_odd in Hl. unfold eqm in Hl. rewrite Z.mod_small in Hl; [exact Hl|].
      apply odd_wf_range; [lia|]. rewrite Forall_forall in Wl. apply Wl, (@nth_In Z). change (@length Z l = n) in Ll. lia. }
  destruct (Q c0 Wc0 (fun i Hi => proj1 (Hcv i Hi))) as [W0 V0]. destruct (Q c1 Wc1 (fun i Hi => proj2 (Hcv i Hi))) as [W1 V1].
  eapply rbind_ok.
  { apply (pub_st FR n c0 c1 false C W0 W1). intros i Hi. rewrite !(tval_native wn Hw) by exact (n_okR wn Hw).
    change (n_modulus (MkN w None)) with (2 ^ w). rewrite V0, V1 by assumption. split; reflexivity. }
  intros c [_ Hc].
  eapply rbind_ok.
  { apply (pub_st FP n (l_beta rd) (l_beta rd) false (fun i => nth i (l_beta rd) 0)).
    - apply okT_bits; [exact HhP|assumption..].
    - apply okT_bits; [exact HhP|assumption..].
    - intros i Hi. rewrite (tval_bits wn Hw _ _ _ HhP) by assumption. split; reflexivity. }
  intros beta [-> Hbst].
  assert (HBb : forall i, (i < n)%nat -> bit (nth i (l_beta rd) 0)).
  { intros i Hi. rewrite Forall_forall in Hbeta. apply Hbeta, nth_In. lia. }
  eapply rbind_ok.
  { apply (private_compare_ok wn p cfg Hw Hp Hpw Hps rd n rbits c (l_beta rd) (rval rd) C); try assumption.
    - split; assumption.
    - intros i Hi. specialize (Hrr i). lia.
    - intros i Hi. specialize (HC i). lia. }
  intros g (Hg & Lg & Vg).
  eapply rbind_ok.
  { instantiate (1 := fun z => stands n z true false (fun i => Z.b2z (Z.testbit (C i) 0))). unfold lsb_public.
    eapply rbind_ok.
    - apply (bits_public_st wn Hw (MkN w None) n c0 c1 C HhR (proj1 W0) (proj1 W1)). intros i Hi. rewrite V0, V1 by assumption.
      rewrite Z.mod_small by (specialize (HC i); lia). split; reflexivity.
    - intros b Hb. change (@length Z c0) with (length c0). rewrite (proj1 W0 : length c0 = n).
      eapply ryields_imp; [|exact (transform_st FR LR' (n * wn) (firsts wn n) b true false _ (firsts_rng wn Hw n) Hb)].
      intros z Hz. rewrite firsts_length in Hz. eapply (stands_ext FR); [|exact Hz]. intros i Hi.
      cbn beta. rewrite firsts_nth by assumption. cbn [zoi]. rewrite <- (Nat.add_0_r (i * wn)), bitf_at by lia. reflexivity. }
  intros clsb Hclsb.
  eapply rbind_ok.
  { instantiate (1 := fun z => stands n z true false (fun i => nth i (l_beta rd) 0)). cbn [cast_public pdev pval].
    eapply ryields_imp; [|apply (pub_st FR n (l_beta rd) (l_beta rd) false (fun i => nth i (l_beta rd) 0))].
    - intros z [_ H]; exact H.
    - apply okT_bits; [exact HhR|assumption..].
    - apply okT_bits; [exact HhR|assumption..].
    - intros i Hi. rewrite (tval_bits wn Hw _ _ _ HhR) by assumption. split; reflexivity. }
  intros beta_r Hbr.
  eapply rbind_ok; [apply (bitwise_xor_st FR LR' n nornd (snd g) beta_r false true _ _ Hg Hbr); left; reflexivity|]. intros gamma Hgamma. cbn [andb] in Hgamma.
  eapply rbind_ok; [apply (bitwise_xor_st FR LR' n nornd rlsb clsb false true _ _ Hrlsb Hclsb); left; reflexivity|]. intros delta Hdelta. cbn [andb] in Hdelta.
  eapply rbind_ok; [apply (bitwise_xor_st FR LR' n (l_mul rd) gamma delta false false _ _ Hgamma Hdelta); right; exact Rmul|]. intros alpha Halpha. cbn [andb] in Halpha.
  eexists. split; [reflexivity|]. cbn [fst snd]. split; [|split; [exact Lg|exact Vg]].
  eapply (stands_ext FR); [|exact Halpha]. intros i Hi. apply eqm_eq. cbn beta.
  rewrite (odd_parity (V i) (rval rd i) (HV i Hi) (Hrr i)). fold (C i).
  destruct (HBb i Hi) as [-> | ->]; destruct (C i <? rval rd i), (Z.testbit (rval rd i) 0), (Z.testbit (C i) 0); reflexivity.
Qed.

(** The carry out of the addition of the two unsigned share words; public tensors have none. *)
Definition carry (x : ptensor FR) (i : nat) : Z :=
  match x with
  | Priv a b _ => (nth i (pval a) 0 mod 2 ^ w + nth i (pval b) 0 mod 2 ^ w) / 2 ^ w
  | _ => 0
  end.
(** What msb computes: the top bit of the value shifted by the carry, in the odd ring. *)
Definition msb_val (u k : Z) : Z := Z.b2z (2 ^ (w - 1) <=? (u + k) mod mo).

Lemma msb_parity V : 0 <= V < mo -> ((V + V) mod mo) mod 2 = Z.b2z (2 ^ (w - 1) <=? V).
Proof.
  intros HV. pose proof (pow2_half w ltac:(lia)) as Hh. pose proof (pow2_pos (w - 1) ltac:(lia)).
  destruct (Z.leb_spec (2 ^ (w - 1)) V); cbn [Z.b2z].
  - rewrite <- (Z.mod_unique_pos (V + V) mo 1 (V + V - mo)) by lia.
    replace (V + V - mo) with (1 + (V - 2 ^ (w - 1)) * 2) by lia. rewrite Z_mod_plus_full. reflexivity.
  - rewrite (Z.mod_small (V + V)) by lia. replace (V + V) with (V * 2) by ring. apply Z_mod_mult.
Qed.

Lemma carry_arith a b v P : 0 < P -> (a mod P + b mod P) mod P = v mod P ->
  a mod P + b mod P = v mod P + (a mod P + b mod P) / P * P /\ 0 <= (a mod P + b mod P) / P <= 1.
Proof.
  intros HP H. pose proof (Z.mod_pos_bound a P HP). pose proof (Z.mod_pos_bound b P HP).
  set (s0 := a mod P) in *. set (s1 := b mod P) in *. split.
  - rewrite (Z.div_mod (s0 + s1) P ltac:(lia)) at 1. rewrite H. ring.
  - split; [apply Z.div_pos; lia|]. apply Z.lt_succ_r, Z.div_lt_upper_bound; lia.
Qed.

Lemma carry_split n (x : ptensor FR) b sc v i : stands n x b sc v -> (i < n)%nat ->
  match x with
  | Priv a c _ => nth i (pval a) 0 mod 2 ^ w + nth i (pval c) 0 mod 2 ^ w = v i mod 2 ^ w + carry x i * 2 ^ w
  | _ => True
  end /\ 0 <= carry x i <= 1.
Proof.
  intros [D K] Hi. destruct x as [v0 v1 s|v0 v1 s|]; cbn in K; try discriminate; cbn [carry]; [lia|].
  cbn [denotes] in D. destruct D as (_ & _ & _ & _ & _ & H). specialize (H i Hi). rewrite !(tval_native wn Hw) in H by exact (n_okR wn Hw).
  change (n_modulus (MkN w None)) with (2 ^ w) in H. change (fmod FR) with (2 ^ w) in H. unfold eqm in H.
  pose proof (pow2_pos w ltac:(lia)) as HP.
  exact (carry_arith _ _ _ (2 ^ w) HP H).
Qed.

Lemma msb_ok rd n (x : ptensor FR) b sc v : (b = false -> lsbrnd_ok wn p n rd) -> stands n x b sc v ->
  ryields (msb wn p cfg rd x) (fun z => stands n z b false (fun i => msb_val (v i mod 2 ^ w) (carry x i))).
Proof.
  intros Hrd Hx. pose proof mo_pos as Hmo. pose proof (pow2_pos w ltac:(lia)) as HP.
  pose proof (fun i => carry_split n x b sc v i Hx) as HC. unfold msb.
  set (V := fun i => (v i mod 2 ^ w + carry x i) mod mo).
  assert (Hmap : forall l : list Z, okT FR n l -> okT FO n (map map_minusone_to_zero l) /\
     forall i, (i < n)%nat -> tval FO (map map_minusone_to_zero l) i = (nth i l 0 mod 2 ^ w) mod mo).
  { intros l [Ll Wl]. change (@length Z l = n) in Ll.
    assert (HH : forall a, In a l -> odd_wf w (map_minusone_to_zero a) /\ map_minusone_to_zero a mod 2 ^ w = (a mod 2 ^ w) mod mo).
    { intros a Ha. apply minusone_ok; [lia|]. rewrite Forall_forall in Wl. exact (Wl a Ha). }
    split.
    - split; [rewrite map_length; exact Ll|]. apply Forall_forall. intros a Ha. apply in_map_iff in Ha. destruct Ha as (a' & <- & Ha'). apply HH, Ha'.
    - intros i Hi. rewrite tval_odd. rewrite (nth_indep _ 0 (map_minusone_to_zero 0)) by (rewrite map_length, Ll; exact Hi).
      rewrite map_nth. apply HH, nth_In. lia. }
  assert (Hcast : ryields (cast_odd wn x) (fun o => stands n o b sc V)).
  { pose proof Hx as [D K]. destruct x as [[d0 v0] [d1 v1] s|[d0 v0] [d1 v1] s|]; cbn in K; try discriminate; inversion K; subst b;
    cbn [denotes pdev pval] in D; destruct D as (-> & -> & -> & W0 & W1 & H); cbn [cast_odd pdev pval];
    destruct (Hmap v0 W0) as [M0 T0]; destruct (Hmap v1 W1) as [M1 T1].
    - eapply ryields_imp; [|apply (pub_st FO n _ _ sc V M0 M1)]; [intros z [_ Hz]; exact Hz|].
      intros i Hi. rewrite T0, T1 by assumption. destruct (H i Hi) as [A B]. rewrite !(tval_native wn Hw) in A, B by exact (n_okR wn Hw).
      change (n_modulus (MkN w None)) with (2 ^ w) in A, B. change (fmod FR) with (2 ^ w) in A, B. unfold eqm in A, B.
      rewrite !Zmod_mod in A, B. unfold V. cbn [carry]. rewrite A, B, Z.add_0_r. split; reflexivity.
    - eapply ryields_imp; [|apply (priv_st FO n _ _ sc V M0 M1)]; [intros z [_ Hz]; exact Hz|].
      intros i Hi. rewrite T0, T1 by assumption. destruct (HC i Hi) as [E _]. cbn [pval] in E.
      change (fmod FO) with mo. unfold V.
      set (k := carry _ _) in *. unfold eqm. rewrite <- Zplus_mod, Zmod_mod.
      refine (eq_trans (f_equal (fun z => z mod mo) E) _). cbn beta.
      replace (v i mod 2 ^ w + k * 2 ^ w) with (v i mod 2 ^ w + k + k * mo) by ring. apply Z_mod_plus_full. }
  eapply rbind_ok; [exact Hcast|]. intros o Ho.
  eapply rbind_ok; [exact (add_st FO LO' n o o b b sc V V Ho Ho)|]. intros o2 Ho2. rewrite andb_diag in Ho2.
  set (V2 := fun i => (V i + V i) mod mo).
  assert (Ho2' : stands n o2 b sc V2).
  { eapply (stands_ext FO); [|exact Ho2]. intros i Hi. unfold V2. symmetry. apply eqm_mod_l. }
  assert (HV2 : forall i, 0 <= V2 i < mo) by (intros; unfold V2; apply Z.mod_pos_bound; lia).
  assert (Hfin : forall i, V2 i mod 2 = msb_val (v i mod 2 ^ w) (carry x i)).
  { intros i. unfold V2, msb_val. rewrite msb_parity; [reflexivity|]. unfold V. apply Z.mod_pos_bound. lia. }
  destruct b.
  - destruct Ho2' as [D K]. destruct o2 as [[d0 v0] [d1 v1] s| |]; cbn in K; try discriminate.
    cbn [denotes pdev pval] in D. destruct D as (-> & -> & -> & W0 & W1 & H). cbn [lsb pval].
    assert (Q : forall l : list Z, okT FO n l -> (forall i, (i < n)%nat -> eqm mo (tval FO l i) (V2 i)) ->
      forall i, (i < n)%nat -> nth i l 0 mod 2 ^ w = V2 i).
    { intros l [Ll Wl] Hl i Hi. specialize (Hl i Hi). rewrite tval_odd in Hl. unfold eqm in Hl.
      rewrite (Z.mod_small (V2 i)), (Z.mod_small (nth i l 0 mod 2 ^ w)) in Hl; [exact Hl| |apply HV2].
      apply odd_wf_range; [lia|]. rewrite Forall_forall in Wl. apply Wl, (@nth_In Z). change (@length Z l = n) in Ll. lia. }
    pose proof (Q v0 W0 (fun i Hi => proj1 (H i Hi))) as Q0. pose proof (Q v1 W1 (fun i Hi => proj2 (H i Hi))) as Q1.
    unfold lsb_public. eapply rbind_ok.
    + apply (bits_public_st wn Hw (MkN w None) n v0 v1 V2 HhR (proj1 W0) (proj1 W1)). intros i Hi. rewrite Q0, Q1 by assumption.
      rewrite Z.mod_small by (specialize (HV2 i); lia). split; reflexivity.
    + intros bb Hb. pose proof (proj1 W0) as Lv0. match goal with |- context [firsts wn ?k] => change k with (@length (felt FO) v0) end. rewrite Lv0.
      eapply ryields_imp; [|exact (transform_st FR LR' (n * wn) (firsts wn n) bb true false _ (firsts_rng wn Hw n) Hb)].
      intros z Hz. rewrite firsts_length in Hz. eapply (stands_ext FR); [|exact Hz]. intros i Hi.
      cbn beta. rewrite firsts_nth by assumption. cbn [zoi]. rewrite <- (Nat.add_0_r (i * wn)), bitf_at by lia.
      rewrite <- Hfin, <- testbit0_mod2. reflexivity.
  - pose proof (lsb_private_ok rd n o2 sc V2 (Hrd eq_refl) Ho2' (fun i _ => HV2 i)) as Q.
    destruct Ho2' as [_ K]. destruct o2 as [|d0 d1 s|]; cbn in K; try discriminate. cbn [lsb].
    eapply rbind_ok; [exact Q|]. intros q (Hq & _ & _). eexists. split; [reflexivity|].
    eapply (stands_ext FR); [|exact Hq]. intros i Hi. cbn beta. rewrite Hfin. reflexivity.
Qed.

(** The exact set of wrong answers. *)
Definition misread (v k : Z) : Prop := v = -1 \/ (v = 2 ^ (w - 1) - 1 /\ k = 1) \/ (v = -2 /\ k = 1).
Lemma msb_val_exact v k : in_s w v -> (k = 0 \/ k = 1) ->
  (msb_val (v mod 2 ^ w) k = Z.b2z (v <? 0) <-> ~ misread v k) /\ (msb_val (v mod 2 ^ w) k = 0 \/ msb_val (v mod 2 ^ w) k = 1).
Proof.
  intros Hv Hk. split; [|unfold msb_val; destruct (_ <=? _); cbn; auto].
  rewrite unsigned_cases by (lia || assumption). unfold in_s in Hv.
  pose proof (pow2_half w ltac:(lia)) as Hh. pose proof (Z.pow_le_mono_r 2 1 (w - 1) ltac:(lia) ltac:(lia)) as Hq. change (2 ^ 1) with 2 in Hq.
  clear - Hv Hk Hh Hq. unfold msb_val, misread. set (H := 2 ^ (w - 1)) in *. clearbody H. rewrite Hh in *. clear Hh.
  assert (E : forall z, 0 <= z <= 2 * H -> z mod (2 * H - 1) = if z <? 2 * H - 1 then z else z - (2 * H - 1)).
  { intros z Hz. destruct (Z.ltb_spec z (2 * H - 1)); [apply Z.mod_small; lia|].
    symmetry. apply (Z.mod_unique_pos _ _ 1); lia. }
  destruct (Z.ltb_spec v 0).
  - rewrite E by lia. destruct (Z.ltb_spec (v + 2 * H + k) (2 * H - 1)).
    + destruct (Z.leb_spec H (v + 2 * H + k)); cbn [Z.b2z]; [|lia]. split; [intros _; lia|reflexivity].
    + destruct (Z.leb_spec H (v + 2 * H + k - (2 * H - 1))); cbn [Z.b2z]; [lia|]. split; [lia|]. intros Q. exfalso. apply Q. lia.
  - rewrite E by lia. destruct (Z.ltb_spec (v + k) (2 * H - 1)); [|lia].
    destruct (Z.leb_spec H (v + k)); cbn [Z.b2z].
    + split; [lia|]. intros Q. exfalso. apply Q. lia.
    + split; [intros _; lia|reflexivity].
Qed.
End Lsb.
