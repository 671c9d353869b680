(** Comparisons, maxima and relu of SecureNN on top of [msb]. *)
From Coq Require Import ZArith Lia List Bool Znumtheory.
From Verif Require Import Base Factory TensorModel TensorProofs PondModel PondSpec PondProofs SnnModel SnnSpec SnnProofs SnnLift SnnCmp SnnLsb.
Import ListNotations.

Lemma nth_firstn_lt {A} (l : list A) k j d : (j < k)%nat -> nth j (firstn k l) d = nth j l d.
Proof.
  revert k j. induction l as [|a l IH]; intros [|k] [|j] H; cbn; try lia; try reflexivity. apply IH. lia.
Qed.
Lemma nth_skipn_add {A} (l : list A) k j d : nth j (skipn k l) d = nth (k + j) l d.
Proof. revert k. induction l as [|a l IH]; intros [|k]; cbn; try reflexivity; [destruct j; reflexivity|apply IH]. Qed.

Lemma forallb_ext {A} (f g : A -> bool) l : (forall a, f a = g a) -> forallb f l = forallb g l.
Proof. intros H. induction l as [|a l IH]; [reflexivity|]. cbn. rewrite H, IH. reflexivity. Qed.

Section Top.
Context (wn : nat) (p : Z) (cfg : fpconfig).
Notation w := (Z.of_nat wn).
Notation FR := (native (MkN w None)).
Notation FO := (odd w).
Notation FP := (native (MkN w (Some p))).
Context (Hw : (1 < wn)%nat) (Hp : prime p) (Hpw : w + 1 < p) (Hps : p * p <= 2 ^ (w - 1)).
Let LR' := LR wn Hw.

Lemma carry_bit n (x : ptensor FR) b sc v i : stands n x b sc v -> (i < n)%nat ->
  (carry wn x i = 0 \/ carry wn x i = 1) /\ (b = true -> carry wn x i = 0).
Proof.
  intros Hx Hi. destruct (carry_split wn Hw n x b sc v i Hx Hi) as [_ B]. split; [lia|]. intros ->.
  destruct Hx as [_ K]. destruct x; cbn in K; try discriminate. reflexivity.
Qed.

Lemma msb_val_mod v k : msb_val wn (v mod 2 ^ w) k = msb_val wn ((swrap w v) mod 2 ^ w) k.
Proof. f_equal. symmetry. apply swrap_mod. lia. Qed.

Lemma less_ok rd n (x y : ptensor FR) bx by_ sc u v : (bx && by_ = false -> lsbrnd_ok wn p n rd) ->
  stands n x bx sc u -> stands n y by_ sc v ->
  ryields (less wn p cfg rd x y) (fun z => exists k : nat -> Z, (forall i, k i = 0 \/ k i = 1) /\ (bx && by_ = true -> forall i, k i = 0) /\
    stands n z (bx && by_) false (fun i => msb_val wn ((u i - v i) mod 2 ^ w) (k i))).
Proof.
  intros Hrd Hx Hy. unfold less. eapply rbind_ok; [exact (sub_st FR LR' n x y bx by_ sc u v Hx Hy)|]. intros d Hd.
  eapply ryields_imp; [|exact (msb_ok wn p cfg Hw Hp Hpw Hps rd n d _ sc _ Hrd Hd)]. intros z Hz.
  exists (fun i => if (i <? n)%nat then carry wn d i else 0). split; [|split].
  - intros i. destruct (Nat.ltb_spec i n); [|auto]. exact (proj1 (carry_bit n d _ sc _ i Hd H)).
  - intros E i. destruct (Nat.ltb_spec i n); [|auto]. exact (proj2 (carry_bit n d _ sc _ i Hd H) E).
  - eapply (stands_ext FR); [|exact Hz]. intros i Hi. cbn beta. apply eqm_eq. destruct (Nat.ltb_spec i n); [reflexivity|lia].
Qed.
Lemma greater_less rd x y : greater wn p cfg rd x y = less wn p cfg rd y x.
Proof. reflexivity. Qed.

(** A comparison bit is right, or the difference is one of the misread values. *)
Lemma msb_diff d k : in_s w d -> (k = 0 \/ k = 1) ->
  exists c : bool, msb_val wn (d mod 2 ^ w) k = Z.b2z c /\ (c = (d <? 0) \/ misread wn d k).
Proof.
  intros Hd Hk. destruct (msb_val_exact wn Hw d k Hd Hk) as [H B].
  exists (msb_val wn (d mod 2 ^ w) k =? 1). split; [destruct B as [-> | ->]; reflexivity|].
  assert (Dec : misread wn d k \/ ~ misread wn d k).
  { unfold misread. generalize (2 ^ (w - 1) - 1). intros t. clear. lia. }
  destruct Dec as [M|M]; [right; exact M|]. left. apply H in M. rewrite M. destruct (d <? 0); reflexivity.
Qed.

(** Sizes that keep every difference inside the word. *)
Definition small (z : Z) : Prop := - 2 ^ (w - 2) < z < 2 ^ (w - 2).
Lemma small_diff a b : small a -> small b -> in_s w (a - b) /\ a - b < 2 ^ (w - 1) - 1.
Proof.
  unfold small, in_s. intros Ha Hb. assert (E : 2 ^ (w - 1) = 2 * 2 ^ (w - 2)).
  { replace (w - 1) with (Z.succ (w - 2)) by lia. apply Z.pow_succ_r. lia. }
  lia.
Qed.

(** One comparison-and-selection node: the chosen side and what is known about it. *)
Lemma choose_ok rd n (x y : ptensor FR) b sc u v : (b = false -> cmprnd_ok wn p n rd) ->
  stands n x b sc u -> stands n y b sc v -> (forall i, (i < n)%nat -> small (u i)) -> (forall i, (i < n)%nat -> small (v i)) ->
  ryields (greater wn p cfg (c_lsb wn rd) x y) (fun g => exists c : nat -> bool,
    stands n g b false (fun i => Z.b2z (c i)) /\
    forall i, (i < n)%nat -> c i = (v i <? u i) \/ (c i = false /\ u i - v i = 1) \/ (c i = false /\ u i - v i = 2 /\ b = false)).
Proof.
  intros Hrd Hx Hy Hu Hv. rewrite greater_less.
  eapply ryields_imp; [|apply (less_ok (c_lsb wn rd) n y x b b sc v u)]; [|rewrite andb_diag; intros E; apply (Hrd E)|exact Hy|exact Hx].
  rewrite andb_diag. intros g (k & Hk & Hk0 & Hg).
  exists (fun i => msb_val wn ((v i - u i) mod 2 ^ w) (k i) =? 1). split.
  - eapply (stands_ext FR); [|exact Hg]. intros i Hi. cbn beta. apply eqm_eq. unfold msb_val. destruct (_ <=? _); reflexivity.
  - intros i Hi. destruct (small_diff (v i) (u i) (Hv i Hi) (Hu i Hi)) as [Hd Hlt].
    destruct (msb_diff (v i - u i) (k i) Hd (Hk i)) as (c & E & [Ec|M]).
    + left. rewrite E. replace (v i <? u i) with c; [destruct c; reflexivity|]. rewrite Ec.
      destruct (Z.ltb_spec (v i - u i) 0), (Z.ltb_spec (v i) (u i)); lia || reflexivity.
    + destruct M as [M|[[M _]|[M K1]]].
      * assert (c = false) as ->.
        { destruct c; [|reflexivity]. exfalso. destruct (msb_val_exact wn Hw (v i - u i) (k i) Hd (Hk i)) as [Q _].
          apply (proj1 Q); [|left; exact M]. rewrite E. rewrite M. reflexivity. }
        right; left. rewrite E. split; [reflexivity|lia].
      * lia.
      * assert (c = false) as ->.
        { destruct c; [|reflexivity]. exfalso. destruct (msb_val_exact wn Hw (v i - u i) (k i) Hd (Hk i)) as [Q _].
          apply (proj1 Q); [|right; right; split; assumption]. rewrite E. rewrite M. reflexivity. }
        right; right. rewrite E. split; [reflexivity|]. split; [lia|]. destruct b; [|reflexivity]. rewrite Hk0 in K1 by reflexivity. discriminate.
Qed.
Definition sel_side {A} (c : bool) (x y : A) : A := if c then x else y.
Lemma sel_value c u v : (u - v) * Z.b2z c + v = sel_side c u v.
Proof. destruct c; cbn [Z.b2z sel_side]; ring. Qed.

(** ** Trees *)
(** Everything known about a pair (value, index) at one entry; [o, o+len) the positions merged. *)
Definition best (V : nat -> Z) (o len : nat) (loss : Z) (exact : Prop) (mv : Z) (j : nat) : Prop :=
  (o <= j < o + len)%nat /\ mv = V j /\ (forall j', (o <= j' < o + len)%nat -> V j' <= mv + loss) /\
  (exact -> forall j', (o <= j' < o + len)%nat -> V j' <= mv /\ (V j' = mv -> (j' <= j)%nat)).
(** No two entries one or two units apart. *)
Definition gapped (V : nat -> Z) (n : nat) : Prop :=
  forall j j', (j < n)%nat -> (j' < n)%nat -> V j - V j' <> 1 /\ V j - V j' <> 2.

Lemma best_merge V N o l1 l2 d e m1 j1 m2 j2 (c : bool) : 0 <= d -> (o + l1 + l2 <= N)%nat ->
  best V o l1 d e m1 j1 -> best V (o + l1) l2 d e m2 j2 -> (e -> gapped V N) ->
  (c = (m2 <? m1) \/ (c = false /\ (m1 - m2 = 1 \/ m1 - m2 = 2))) ->
  best V o (l1 + l2) (d + 2) e (sel_side c m1 m2) (sel_side c j1 j2).
Proof.
  intros Hd HN (R1 & E1 & B1 & X1) (R2 & E2 & B2 & X2) HE HC. unfold best.
  assert (S : forall j', (o <= j' < o + (l1 + l2))%nat -> (o <= j' < o + l1)%nat \/ (o + l1 <= j' < o + l1 + l2)%nat) by (intros; lia).
  destruct c; cbn [sel_side].
  - destruct HC as [HC|[HC _]]; [|discriminate]. symmetry in HC. apply Z.ltb_lt in HC.
    split; [lia|]. split; [exact E1|]. split.
    + intros j' Hj'. destruct (S j' Hj') as [Hj|Hj]; [specialize (B1 j' Hj)|specialize (B2 j' Hj)]; lia.
    + intros He j' Hj'. destruct (S j' Hj') as [Hj|Hj]; [exact (X1 He j' Hj)|]. destruct (X2 He j' Hj) as [A _]. split; lia.
  - split; [lia|]. split; [exact E2|].
    assert (HC' : m1 <= m2 \/ m1 - m2 = 1 \/ m1 - m2 = 2).
    { destruct HC as [HC|[_ HC]]; [symmetry in HC; apply Z.ltb_ge in HC; lia|lia]. }
    split.
    + intros j' Hj'. destruct (S j' Hj') as [Hj|Hj]; [specialize (B1 j' Hj)|specialize (B2 j' Hj)]; lia.
    + intros He j' Hj'. assert (m1 <= m2).
      { destruct HC' as [HC'|HC']; [exact HC'|]. exfalso. destruct (HE He j1 j2 ltac:(lia) ltac:(lia)) as [G1 G2]. rewrite <- E1, <- E2 in *. lia. }
      destruct (S j' Hj') as [Hj|Hj]; [destruct (X1 He j' Hj)|destruct (X2 He j' Hj)]; split; lia.
Qed.

Lemma max_tree_ok rd n b sc (V : nat -> nat -> Z) N : (b = false -> forall k, cmprnd_ok wn p n (rd k)) ->
  (forall j i, (j < N)%nat -> (i < n)%nat -> small (V j i)) ->
  forall fuel ts k o d, (length ts <= fuel)%nat -> (0 < length ts)%nat -> (o + length ts <= N)%nat -> (length ts <= 2 ^ d)%nat ->
  (forall j, (j < length ts)%nat -> forall t0, stands n (nth j ts t0) b sc (V (o + j)%nat)) ->
  ryields (max_tree wn p cfg rd k fuel ts) (fun z => exists M, stands n z b sc M /\
    forall i, (i < n)%nat -> exists j, best (fun j => V j i) o (length ts) (2 * Z.of_nat d) (gapped (fun j => V j i) N) (M i) j).
Proof.
  intros Hrd HS. induction fuel as [|fuel IH]; intros ts k o d Hf H0 HN Hd Hts; [lia|].
  destruct ts as [|t0 [|t1 ts']]; [cbn in H0; lia| |].
  - eexists. split; [reflexivity|]. exists (V o). split.
    + specialize (Hts 0%nat ltac:(cbn; lia) t0). rewrite Nat.add_0_r in Hts. exact Hts.
    + intros i Hi. exists o. unfold best. cbn [length]. split; [lia|]. split; [reflexivity|]. split.
      * intros j' Hj'. replace j' with o by lia. lia.
      * intros _ j' Hj'. replace j' with o by lia. lia.
  - set (ts := t0 :: t1 :: ts') in *. assert (L2 : (2 <= length ts)%nat) by (cbn; lia).
    change (max_tree wn p cfg rd k (S fuel) ts) with
      (let half := Nat.div2 (length ts) in
       let! l := max_tree wn p cfg rd (2 * k) fuel (firstn half ts) in
       let! r := max_tree wn p cfg rd (2 * k + 1) fuel (skipn half ts) in
       maximum wn p cfg (rd k) l r).
    clearbody ts. cbv zeta. set (half := Nat.div2 (length ts)).
    assert (Hh : (2 * half <= length ts <= 2 * half + 1)%nat) by (unfold half; rewrite Nat.div2_div; pose proof (Nat.div_mod (length ts) 2 ltac:(lia)); pose proof (Nat.mod_upper_bound (length ts) 2 ltac:(lia)); lia).
    clearbody half. destruct d as [|d]; [cbn in Hd; lia|]. cbn [Nat.pow] in Hd.
    assert (LF : length (firstn half ts) = half) by (rewrite firstn_length; lia).
    assert (LS : length (skipn half ts) = (length ts - half)%nat) by apply skipn_length.
    eapply rbind_ok; [apply (IH (firstn half ts) (2 * k)%nat o d); try lia|].
    { intros j Hj t. rewrite LF in Hj. rewrite nth_firstn_lt by exact Hj. apply Hts. lia. }
    intros l (M1 & S1 & B1).
    eapply rbind_ok; [apply (IH (skipn half ts) (2 * k + 1)%nat (o + half)%nat d); try lia|].
    { intros j Hj t. rewrite nth_skipn_add. rewrite <- Nat.add_assoc. apply Hts. lia. }
    intros r (M2 & S2 & B2). unfold maximum.
    assert (Sm1 : forall i, (i < n)%nat -> small (M1 i)).
    { intros i Hi. destruct (B1 i Hi) as (j & R & -> & _). apply HS; [lia|exact Hi]. }
    assert (Sm2 : forall i, (i < n)%nat -> small (M2 i)).
    { intros i Hi. destruct (B2 i Hi) as (j & R & -> & _). apply HS; [lia|exact Hi]. }
    eapply rbind_ok; [exact (choose_ok (rd k) n l r b sc M1 M2 (fun E => Hrd E k) S1 S2 Sm1 Sm2)|].
    intros g (c & Sg & Cg).
    eapply ryields_imp; [|apply (select_st FR LR' (ncfg_fix (MkN w None)) cfg n (c_sel wn (rd k)) g r l b b b sc _ M2 M1 Sg S2 S1)].
    2:{ destruct b; [left; reflexivity|right; apply (Hrd eq_refl k)]. }
    intros z Hz. exists (fun i => sel_side (c i) (M1 i) (M2 i)). split.
    + replace (b && b && b) with b in Hz by (destruct b; reflexivity). eapply (stands_ext FR); [|exact Hz].
      intros i Hi. cbn beta. apply eqm_eq. apply sel_value.
    + intros i Hi. destruct (B1 i Hi) as (j1 & X1). destruct (B2 i Hi) as (j2 & X2). rewrite LF in X1. rewrite LS in X2.
      exists (sel_side (c i) j1 j2). replace (length ts) with (half + (length ts - half))%nat by lia.
      replace (2 * Z.of_nat (S d)) with (2 * Z.of_nat d + 2) by lia.
      eapply (best_merge _ N); [lia| |exact X1|exact X2|tauto|]; [lia|].
      destruct (Cg i Hi) as [Q|[[Q Q']|[Q [Q' _]]]]; tauto.
Qed.

Lemma argmax_tree_ok rd n b sc sf (V : nat -> nat -> Z) N : (b = false -> forall k, cmprnd_ok wn p n (rd k)) ->
  (forall j i, (j < N)%nat -> (i < n)%nat -> small (V j i)) ->
  forall fuel ts k o d, (length ts <= fuel)%nat -> (0 < length ts)%nat -> (o + length ts <= N)%nat -> (length ts <= 2 ^ d)%nat ->
  (forall j, (j < length ts)%nat -> forall t0, stands n (fst (nth j ts t0)) b sc (V (o + j)%nat) /\
     stands n (snd (nth j ts t0)) true true (fun _ => Z.of_nat (o + j) * sf)) ->
  ryields (argmax_tree wn p cfg rd k fuel ts) (fun z => exists M A ba, stands n (fst z) b sc M /\ stands n (snd z) ba true A /\ (b = true -> ba = true) /\
    forall i, (i < n)%nat -> exists j, A i = Z.of_nat j * sf /\ best (fun j => V j i) o (length ts) (2 * Z.of_nat d) (gapped (fun j => V j i) N) (M i) j).
Proof.
  intros Hrd HS. induction fuel as [|fuel IH]; intros ts k o d Hf H0 HN Hd Hts; [lia|].
  destruct ts as [|t0 [|t1 ts']]; [cbn in H0; lia| |].
  - eexists. split; [reflexivity|]. exists (V o), (fun _ => Z.of_nat o * sf), true.
    specialize (Hts 0%nat ltac:(cbn; lia) t0). rewrite Nat.add_0_r in Hts. destruct Hts as [T1 T2].
    split; [exact T1|]. split; [exact T2|]. split; [reflexivity|].
    intros i Hi. exists o. split; [reflexivity|]. unfold best. cbn [length]. split; [lia|]. split; [reflexivity|]. split.
    * intros j' Hj'. replace j' with o by lia. lia.
    * intros _ j' Hj'. replace j' with o by lia. lia.
  - set (ts := t0 :: t1 :: ts') in *. assert (L2 : (2 <= length ts)%nat) by (cbn; lia).
    change (argmax_tree wn p cfg rd k (S fuel) ts) with
      (let half := Nat.div2 (length ts) in
       let! l := argmax_tree wn p cfg rd (2 * k) fuel (firstn half ts) in
       let! r := argmax_tree wn p cfg rd (2 * k + 1) fuel (skipn half ts) in
       let! g := greater wn p cfg (c_lsb wn (rd k)) (fst l) (fst r) in
       let! m := select FR (ncfg_fix (MkN w None)) cfg (c_sel wn (rd k)) g (fst r) (fst l) in
       let! a := select FR (ncfg_fix (MkN w None)) cfg (c_sel2 wn (rd k)) g (snd r) (snd l) in
       Ok (m, a)).
    clearbody ts. cbv zeta. set (half := Nat.div2 (length ts)).
    assert (Hh : (2 * half <= length ts <= 2 * half + 1)%nat) by (unfold half; rewrite Nat.div2_div; pose proof (Nat.div_mod (length ts) 2 ltac:(lia)); pose proof (Nat.mod_upper_bound (length ts) 2 ltac:(lia)); lia).
    clearbody half. destruct d as [|d]; [cbn in Hd; lia|]. cbn [Nat.pow] in Hd.
    assert (LF : length (firstn half ts) = half) by (rewrite firstn_length; lia).
    assert (LS : length (skipn half ts) = (length ts - half)%nat) by apply skipn_length.
    eapply rbind_ok; [apply (IH (firstn half ts) (2 * k)%nat o d); try lia|].
    { intros j Hj t. rewrite LF in Hj. rewrite nth_firstn_lt by exact Hj. apply Hts. lia. }
    intros l (M1 & A1 & a1 & S1 & T1 & U1 & B1).
    eapply rbind_ok; [apply (IH (skipn half ts) (2 * k + 1)%nat (o + half)%nat d); try lia|].
    { intros j Hj t. rewrite nth_skipn_add. rewrite <- Nat.add_assoc. apply Hts. lia. }
    intros r (M2 & A2 & a2 & S2 & T2 & U2 & B2).
    assert (Sm1 : forall i, (i < n)%nat -> small (M1 i)).
    { intros i Hi. destruct (B1 i Hi) as (j & _ & R & -> & _). apply HS; [lia|exact Hi]. }
    assert (Sm2 : forall i, (i < n)%nat -> small (M2 i)).
    { intros i Hi. destruct (B2 i Hi) as (j & _ & R & -> & _). apply HS; [lia|exact Hi]. }
    eapply rbind_ok; [exact (choose_ok (rd k) n (fst l) (fst r) b sc M1 M2 (fun E => Hrd E k) S1 S2 Sm1 Sm2)|].
    intros g (c & Sg & Cg).
    eapply rbind_ok; [apply (select_st FR LR' (ncfg_fix (MkN w None)) cfg n (c_sel wn (rd k)) g (fst r) (fst l) b b b sc _ M2 M1 Sg S2 S1)|].
    { destruct b; [left; reflexivity|right; apply (Hrd eq_refl k)]. }
    intros z Hz.
    eapply rbind_ok; [apply (select_st FR LR' (ncfg_fix (MkN w None)) cfg n (c_sel2 wn (rd k)) g (snd r) (snd l) b a2 a1 true _ A2 A1 Sg T2 T1)|].
    { destruct b; [left; reflexivity|right; apply (Hrd eq_refl k)]. }
    intros a Ha. eexists. split; [reflexivity|]. cbn [fst snd].
    exists (fun i => sel_side (c i) (M1 i) (M2 i)), (fun i => sel_side (c i) (A1 i) (A2 i)), (b && a2 && a1).
    split; [|split; [|split]].
    + replace (b && b && b) with b in Hz by (destruct b; reflexivity). eapply (stands_ext FR); [|exact Hz].
      intros i Hi. cbn beta. apply eqm_eq. apply sel_value.
    + eapply (stands_ext FR); [|exact Ha]. intros i Hi. cbn beta. apply eqm_eq. apply sel_value.
    + intros E. rewrite (U1 E), (U2 E), E. reflexivity.
    + intros i Hi. destruct (B1 i Hi) as (j1 & Y1 & X1). destruct (B2 i Hi) as (j2 & Y2 & X2). rewrite LF in X1. rewrite LS in X2.
      exists (sel_side (c i) j1 j2). split; [destruct (c i); cbn [sel_side]; assumption|].
      replace (length ts) with (half + (length ts - half))%nat by lia.
      replace (2 * Z.of_nat (S d)) with (2 * Z.of_nat d + 2) by lia.
      eapply (best_merge _ N); [lia| |exact X1|exact X2|tauto|]; [lia|].
      destruct (Cg i Hi) as [Q|[[Q Q']|[Q [Q' _]]]]; tauto.
Qed.

(** ** relu *)
Lemma actual_relu_ok rd n (x : ptensor FR) b sc v : (b = false -> cmprnd_ok wn p n rd) -> stands n x b sc v ->
  ryields (actual_relu_with_cmp wn p cfg rd x) (fun q =>
    stands n (snd q) b false (fun i => 1 - msb_val wn (v i mod 2 ^ w) (carry wn x i)) /\
    stands n (fst q) b sc (fun i => (1 - msb_val wn (v i mod 2 ^ w) (carry wn x i)) * v i)).
Proof.
  intros Hrd Hx. unfold actual_relu_with_cmp, non_negative.
  eapply rbind_ok.
  { eapply rbind_ok; [exact (msb_ok wn p cfg Hw Hp Hpw Hps (c_lsb wn rd) n x b sc v (fun E => proj1 (Hrd E)) Hx)|].
    intros m Hm. exact (bitwise_not_st FR LR' n m b _ Hm). }
  intros d Hd. eapply rbind_ok; [apply (mul_unscaled FR LR' (ncfg_fix (MkN w None)) cfg n (c_sel wn rd) d x b b false sc _ v Hd Hx); [reflexivity|]|].
  { destruct b; [left; reflexivity|right; apply (Hrd eq_refl)]. }
  intros y Hy. eexists. split; [reflexivity|]. cbn [fst snd]. rewrite andb_diag in Hy. split; [exact Hd|exact Hy].
Qed.

Definition cols_idx (L a l j : nat) : nat := ((j / l) * L + a + j mod l)%nat.
Lemma columns_spec L a l : (0 < l)%nat -> forall m i0 j, (j < m * l)%nat ->
  nth j (flat_map (fun i => map Some (seq (i * L + a) l)) (seq i0 m)) None = Some (i0 * L + cols_idx L a l j)%nat.
Proof.
  intros Hl. induction m as [|m IH]; intros i0 j Hj; [lia|]. cbn [seq flat_map]. unfold cols_idx.
  assert (LL : length (map (@Some nat) (seq (i0 * L + a) l)) = l) by (rewrite map_length, seq_length; reflexivity).
  destruct (Nat.lt_ge_cases j l) as [H|H].
  - rewrite app_nth1 by lia. rewrite (nth_indep _ None (Some O)) by lia. rewrite map_nth, seq_nth by exact H.
    rewrite Nat.div_small, Nat.mod_small by exact H. f_equal. lia.
  - rewrite app_nth2 by lia. rewrite LL. rewrite IH by lia. unfold cols_idx. f_equal.
    replace j with (j - l + 1 * l)%nat at 3 4 by lia. rewrite Nat.div_add, Nat.mod_add by lia. lia.
Qed.
Lemma columns_length m L a l : length (columns m L a l) = (m * l)%nat.
Proof.
  unfold columns. generalize O. induction m as [|m IH]; intros i0; cbn [seq flat_map]; [reflexivity|].
  rewrite app_length, map_length, seq_length, IH. reflexivity.
Qed.
Lemma columns_nth m L a l j : (j < m * l)%nat -> nth j (columns m L a l) None = Some (cols_idx L a l j).
Proof. intros Hj. assert (0 < l)%nat by nia. unfold columns. rewrite columns_spec by assumption. reflexivity. Qed.
Lemma cols_idx_lt m L a l j : (j < m * l)%nat -> (a + l <= L)%nat -> (cols_idx L a l j < m * L)%nat.
Proof.
  intros Hj Ha. assert (0 < l)%nat by nia. unfold cols_idx.
  pose proof (Nat.mod_upper_bound j l ltac:(lia)). pose proof (Nat.div_lt_upper_bound j l m ltac:(lia) ltac:(lia)). nia.
Qed.
Lemma columns_rng m L a l : (a + l <= L)%nat -> Forall (in_rng (m * L)) (columns m L a l).
Proof.
  intros Ha. apply Forall_forall. intros o Ho. destruct (In_nth _ _ None Ho) as (j & Hj & E).
  rewrite columns_length in Hj. rewrite columns_nth in E by exact Hj. subst o. cbn. apply cols_idx_lt; assumption.
Qed.

Lemma nth_vsel (idx : list (option nat)) (x : list Z) j k : nth j idx None = Some k -> (j < length idx)%nat ->
  nth j (vsel FR idx x : list Z) 0 = nth k x 0.
Proof.
  intros E Hj.
  assert (Z0 : f0 FR = 0) by (apply (f0_native wn Hw), (n_okR wn Hw)).
  revert j E Hj. induction idx as [|o idx IH]; intros j E Hj; [cbn in Hj; lia|]. destruct j as [|j].
  - cbn in E. subst o. cbn [vsel map nth]. unfold ent. rewrite Z0. reflexivity.
  - cbn in E, Hj. cbn [vsel map nth]. apply IH; [exact E|lia].
Qed.

(** A selection of columns keeps the carries. *)
Lemma columns_st m L a l (x : ptensor FR) b sc v : (a + l <= L)%nat -> stands (m * L) x b sc v ->
  ryields (run (local1 FR (vsel FR (columns m L a l)) x)) (fun z => stands (m * l) z b sc (fun j => v (cols_idx L a l j)) /\
     forall j, (j < m * l)%nat -> carry wn z j = carry wn x (cols_idx L a l j)).
Proof.
  intros Ha Hx. pose proof (transform_st FR LR' (m * L) (columns m L a l) x b sc v (columns_rng m L a l Ha) Hx) as (z & E & S).
  rewrite columns_length in S.
  assert (S' : stands (m * l) z b sc (fun j => v (cols_idx L a l j))).
  { eapply (stands_ext FR); [|exact S]. intros j Hj. cbn beta. rewrite columns_nth by exact Hj. apply eqm_eq. reflexivity. }
  destruct Hx as [D K]. destruct x as [v0 v1 s|[d0 v0] [d1 v1] s|]; cbn in K; try discriminate.
  - exists z. split; [exact E|]. split; [exact S'|]. intros j Hj. destruct S as [_ Kz]. rewrite <- K in Kz. destruct z; cbn in Kz; try discriminate. reflexivity.
  - exists z. split; [exact E|]. split; [exact S'|]. intros j Hj.
    cbn [denotes pdev pval] in D. destruct D as (-> & -> & -> & W0 & W1 & _).
    unfold run, transform, local1_masked in E.
    assert (Q : z = Priv (@MkPv FR Srv0 (vsel FR (columns m L a l) v0)) (@MkPv FR Srv1 (vsel FR (columns m L a l) v1)) sc).
    { revert E. unfold local1, op1. cbn -[vsel columns]. unfold mk_priv. cbn -[vsel columns]. unfold vsel at 1 2. rewrite !map_length, Nat.eqb_refl. cbn -[vsel columns].
      intros E. inversion E. reflexivity. }
    rewrite Q. cbn [carry pval].
    pose proof (columns_nth m L a l j Hj) as C. pose proof (columns_length m L a l) as CL.
    f_equal. f_equal; f_equal; [apply (nth_vsel _ v0 j _ C)|apply (nth_vsel _ v1 j _ C)]; lia.
Qed.

(** ** The split and concatenation *)
Definition rowof (i : nat) (xs : list (nat * list Z)) : list Z :=
  flat_map (fun q => firstn (fst q) (skipn (i * fst q) (snd q))) xs.
Definition total (ls : list nat) : nat := fold_right Nat.add O ls.
Definition full (m : nat) (xs : list (nat * list Z)) : Prop := Forall (fun q => length (snd q) = (m * fst q)%nat) xs.

Lemma piece_length m i (q : nat * list Z) : length (snd q) = (m * fst q)%nat -> (i < m)%nat ->
  length (firstn (fst q) (skipn (i * fst q) (snd q))) = fst q.
Proof. intros E Hi. rewrite firstn_length, skipn_length, E. nia. Qed.
Lemma rowof_length m i xs : full m xs -> (i < m)%nat -> length (rowof i xs) = total (map fst xs).
Proof.
  intros H Hi. induction H as [|q xs Hq H IH]; [reflexivity|]. cbn [rowof flat_map map total fold_right].
  rewrite app_length. fold (rowof i xs). rewrite IH, (piece_length m i q Hq Hi). reflexivity.
Qed.
Lemma nth_flat_in {A} (f : nat -> list A) L d : forall m i0 i j, (forall a, (i0 <= a < i0 + m)%nat -> length (f a) = L) -> (i < m)%nat -> (j < L)%nat ->
  nth (i * L + j) (flat_map f (seq i0 m)) d = nth j (f (i0 + i)%nat) d.
Proof.
  induction m as [|m IH]; intros i0 i j Hl Hi Hj; [lia|]. cbn [seq flat_map]. destruct i as [|i].
  - cbn [Nat.mul Nat.add]. rewrite app_nth1 by (rewrite Hl; lia). rewrite Nat.add_0_r. reflexivity.
  - rewrite app_nth2 by (rewrite Hl by lia; nia). rewrite Hl by lia.
    replace (S i * L + j - L)%nat with (i * L + j)%nat by nia. rewrite IH by (lia || (intros; apply Hl; lia)). f_equal. f_equal. lia.
Qed.
Lemma rowcat_nth m xs i j : full m xs -> (i < m)%nat -> (j < total (map fst xs))%nat ->
  nth (i * total (map fst xs) + j) (rowcat m xs) 0 = nth j (rowof i xs) 0.
Proof.
  intros H Hi Hj. unfold rowcat. apply (nth_flat_in (fun i => rowof i xs)); [|exact Hi|exact Hj].
  intros a Ha. apply (rowof_length m); [exact H|lia].
Qed.
Lemma rowcat_length m xs : full m xs -> length (rowcat m xs) = (m * total (map fst xs))%nat.
Proof.
  intros H. unfold rowcat. assert (E : forall k i0, (i0 + k <= m)%nat -> length (flat_map (fun i => rowof i xs) (seq i0 k)) = (k * total (map fst xs))%nat).
  { induction k as [|k IH]; intros i0 Hk; [reflexivity|]. cbn [seq flat_map]. rewrite app_length, IH by lia.
    rewrite (rowof_length m) by (assumption || lia). lia. }
  apply (E m O). lia.
Qed.
Lemma rowcat_forall (P : Z -> Prop) m xs : Forall (fun q => Forall P (snd q)) xs -> Forall P (rowcat m xs).
Proof.
  intros H. apply Forall_forall. intros z Hz. unfold rowcat in Hz. apply in_flat_map in Hz. destruct Hz as (i & _ & Hz).
  apply in_flat_map in Hz. destruct Hz as (q & Hq & Hz). rewrite Forall_forall in H. specialize (H q Hq). rewrite Forall_forall in H. apply H.
  assert (In z (skipn (i * fst q) (snd q))) by (rewrite <- (firstn_skipn (fst q)); apply in_or_app; left; exact Hz).
  rewrite <- (firstn_skipn (i * fst q) (snd q)). apply in_or_app; right; assumption.
Qed.

(** Two share words standing for [t]. *)
Definition says (b : bool) (a0 a1 t : Z) : Prop :=
  if b then eqm (2 ^ w) a0 t /\ eqm (2 ^ w) a1 t else eqm (2 ^ w) (a0 + a1) t.
Lemma stands_pieces n (t : ptensor FR) b sc v : stands n t b sc v <->
  (scaled t = sc /\ knd t = Some b /\ match t with Pub a c _ | Priv a c _ => pdev a = Srv0 /\ pdev c = Srv1 | _ => False end /\
   okT FR n (fst (pieces wn t)) /\ okT FR n (snd (pieces wn t)) /\
   forall i, (i < n)%nat -> says b (nth i (fst (pieces wn t)) 0) (nth i (snd (pieces wn t)) 0) (v i)).
Proof.
  assert (TV : forall (l : list Z) i, eqm (2 ^ w) (tval FR l i) (nth i l 0)).
  { intros l i. rewrite (tval_native wn Hw) by exact (n_okR wn Hw). apply eqm_mod_l. }
  split.
  - intros [D K]. pose proof (denotes_scaled _ _ _ _ _ D) as S. split; [exact S|]. split; [exact K|].
    destruct t as [v0 v1 s|v0 v1 s|]; cbn in K; try discriminate; inversion K; subst b; cbn [denotes pieces fst snd] in *;
    destruct D as (_ & D0 & D1 & W0 & W1 & H); (split; [split; assumption|]); (split; [exact W0|]); (split; [exact W1|]);
    intros i Hi; specialize (H i Hi); cbn [says].
    + destruct H as [H0 H1]. split; (etransitivity; [symmetry; apply TV|eassumption]).
    + etransitivity; [|exact H]. symmetry. apply eqm_add; apply TV.
  - intros (S & K & Dv & W0 & W1 & H). split; [|exact K].
    destruct t as [v0 v1 s|v0 v1 s|]; cbn in K; try discriminate; inversion K; subst b; cbn [denotes pieces fst snd scaled] in *;
    (split; [exact S|]); (split; [apply Dv|]); (split; [apply Dv|]); (split; [exact W0|]); (split; [exact W1|]);
    intros i Hi; specialize (H i Hi); cbn [says] in H.
    + destruct H as [H0 H1]. split; (etransitivity; [apply TV|assumption]).
    + etransitivity; [|exact H]. apply eqm_add; apply TV.
Qed.

Fixpoint aligned (m L : nat) (b sc : bool) (f : nat -> Z) (a : nat) (xs : list (nat * ptensor FR)) : Prop :=
  match xs with
  | [] => True
  | (l, t) :: xs => stands (m * l) t b sc (fun j => f (cols_idx L a l j)) /\ aligned m L b sc f (a + l) xs
  end.
Definition p0s (xs : list (nat * ptensor FR)) := map (fun q => (fst q, fst (pieces wn (snd q)))) xs.
Definition p1s (xs : list (nat * ptensor FR)) := map (fun q => (fst q, snd (pieces wn (snd q)))) xs.
Lemma p0s_fst xs : map fst (p0s xs) = map fst xs. Proof. unfold p0s. rewrite map_map. reflexivity. Qed.
Lemma p1s_fst xs : map fst (p1s xs) = map fst xs. Proof. unfold p1s. rewrite map_map. reflexivity. Qed.

Lemma aligned_full m L b sc f xs : forall a, aligned m L b sc f a xs ->
  full m (p0s xs) /\ full m (p1s xs) /\ Forall (fun q => Forall (fwf FR) (snd q)) (p0s xs) /\ Forall (fun q => Forall (fwf FR) (snd q)) (p1s xs) /\
  forallb (fun q => Bool.eqb (scaled (snd q)) sc) xs = true /\ forallb (fun q => match knd (snd q) with Some b' => Bool.eqb b' b | None => false end) xs = true.
Proof.
  induction xs as [|[l t] xs IH]; intros a H.
  - unfold full. cbn [p0s p1s map forallb]. split; [constructor|]. split; [constructor|]. split; [constructor|]. split; [constructor|]. split; reflexivity.
  - destruct H as [S H]. destruct (IH _ H) as (A & B & C & D & E & G). apply stands_pieces in S. destruct S as (S1 & S2 & _ & W0 & W1 & _).
    unfold full in *. cbn [p0s p1s map forallb fst snd].
    split; [constructor; [exact (proj1 W0)|exact A]|]. split; [constructor; [exact (proj1 W1)|exact B]|].
    split; [constructor; [exact (proj2 W0)|exact C]|]. split; [constructor; [exact (proj2 W1)|exact D]|].
    rewrite S1, S2, E, G, !Bool.eqb_reflx. split; reflexivity.
Qed.
Lemma aligned_rows m L b sc f xs : forall a i j, aligned m L b sc f a xs -> (i < m)%nat -> (j < total (map fst xs))%nat ->
  says b (nth j (rowof i (p0s xs)) 0) (nth j (rowof i (p1s xs)) 0) (f (i * L + a + j)%nat).
Proof.
  induction xs as [|[l t] xs IH]; intros a i j H Hi Hj; [cbn in Hj; lia|]. destruct H as [S H].
  apply stands_pieces in S. destruct S as (_ & _ & _ & W0 & W1 & S).
  cbn [p0s p1s map rowof flat_map fst snd]. fold (p0s xs) (p1s xs). fold (rowof i (p0s xs)) (rowof i (p1s xs)).
  pose proof (piece_length m i (l, fst (pieces wn t)) (proj1 W0) Hi) as L0. pose proof (piece_length m i (l, snd (pieces wn t)) (proj1 W1) Hi) as L1.
  cbn [fst snd] in L0, L1. cbn [map total fold_right fst] in Hj. fold (total (map fst xs)) in Hj.
  destruct (Nat.lt_ge_cases j l) as [Hl|Hl].
  - rewrite !app_nth1 by lia. rewrite !nth_firstn_lt, !nth_skipn_add by exact Hl.
    specialize (S (i * l + j)%nat ltac:(nia)). cbn beta in S. unfold cols_idx in S.
    rewrite (Nat.add_comm (i * l) j), Nat.div_add, Nat.mod_add, Nat.div_small, Nat.mod_small in S by lia. cbn [Nat.add] in S.
    rewrite (Nat.add_comm (i * l) j). exact S.
  - rewrite !app_nth2 by lia. rewrite L0, L1. replace (i * L + a + j)%nat with (i * L + (a + l) + (j - l))%nat by lia.
    apply IH; [exact H|exact Hi|lia].
Qed.

Lemma concat_last_ok m L b sc f xs : xs <> [] -> total (map fst xs) = L -> aligned m L b sc f 0 xs ->
  ryields (concat_last wn m xs) (fun z => stands (m * L) z b sc f).
Proof.
  intros Hne HL Ha. destruct (aligned_full _ _ _ _ _ _ _ Ha) as (F0 & F1 & W0 & W1 & ES & EK).
  destruct xs as [|[l t] xs']; [contradiction|].
  assert (St : scaled t = sc) by (destruct Ha as [S _]; exact (stands_scaled FR _ _ _ _ _ S)).
  unfold concat_last. set (xs := (l, t) :: xs') in *. rewrite St. rewrite ES.
  fold (p0s xs) (p1s xs).
  assert (O0 : okT FR (m * L) (rowcat m (p0s xs))).
  { split; [rewrite <- HL, <- (p0s_fst xs); apply rowcat_length; exact F0|apply rowcat_forall; exact W0]. }
  assert (O1 : okT FR (m * L) (rowcat m (p1s xs))).
  { split; [rewrite <- HL, <- (p1s_fst xs); apply rowcat_length; exact F1|apply rowcat_forall; exact W1]. }
  assert (SA : forall k, (k < m * L)%nat -> says b (nth k (rowcat m (p0s xs)) 0) (nth k (rowcat m (p1s xs)) 0) (f k)).
  { intros k Hk. assert (0 < L)%nat by nia. destruct (flat_split L k m ltac:(lia) Hk) as (i & j & -> & Hi & Hj).
    rewrite <- HL at 1 2. rewrite <- (p0s_fst xs) at 1. rewrite <- (p1s_fst xs). rewrite (rowcat_nth m (p0s xs)), (rowcat_nth m (p1s xs)) by (assumption || rewrite ?p0s_fst, ?p1s_fst, HL; exact Hj).
    pose proof (aligned_rows m L b sc f xs 0 i j Ha Hi ltac:(rewrite HL; exact Hj)) as Q. rewrite Nat.add_0_r in Q. exact Q. }
  assert (TV : forall (u : list Z) i, eqm (2 ^ w) (tval FR u i) (nth i u 0)).
  { intros u i. rewrite (tval_native wn Hw) by exact (n_okR wn Hw). apply eqm_mod_l. }
  destruct b.
  - replace (forallb (fun q : nat * ptensor FR => match snd q with Pub _ _ _ => true | _ => false end) xs) with true.
    2:{ refine (eq_trans (eq_sym EK) _). apply forallb_ext. intros [l0 t0]. cbn. destruct t0; reflexivity. }
    eapply ryields_imp; [|apply (pub_st FR (m * L) _ _ sc f O0 O1)]; [intros z [_ Hz]; exact Hz|].
    intros i Hi. destruct (SA i Hi) as [A B]. split; (etransitivity; [apply TV|assumption]).
  - replace (forallb (fun q : nat * ptensor FR => match snd q with Pub _ _ _ => true | _ => false end) xs) with false.
    2:{ destruct Ha as [[_ K] _]. unfold xs. destruct t; cbn in K; try discriminate. reflexivity. }
    replace (forallb (fun q : nat * ptensor FR => match snd q with Priv _ _ _ => true | _ => false end) xs) with true.
    2:{ refine (eq_trans (eq_sym EK) _). apply forallb_ext. intros [l0 t0]. cbn. destruct t0; reflexivity. }
    eapply ryields_imp; [|apply (priv_st FR (m * L) _ _ sc f O0 O1)]; [intros z [_ Hz]; exact Hz|].
    intros i Hi. etransitivity; [|exact (SA i Hi)]. apply eqm_add; apply TV.
Qed.

Lemma relu_pieces_ok rd m L (x : ptensor FR) b sc v : stands (m * L) x b sc v ->
  forall ls a k, (a + total ls <= L)%nat ->
  (b = false -> forall j, (j < length ls)%nat -> cmprnd_ok wn p (m * nth j ls O) (rd (k + j)%nat)) ->
  ryields (relu_pieces wn p cfg rd m L a k ls x) (fun q =>
    map fst (fst q) = ls /\ map fst (snd q) = ls /\
    aligned m L b false (fun i => 1 - msb_val wn (v i mod 2 ^ w) (carry wn x i)) a (fst q) /\
    aligned m L b sc (fun i => (1 - msb_val wn (v i mod 2 ^ w) (carry wn x i)) * v i) a (snd q)).
Proof.
  intros Hx. induction ls as [|l ls IH]; intros a k Ha Hrd.
  - eexists. split; [reflexivity|]. cbn. split; [reflexivity|]. split; [reflexivity|]. split; exact I.
  - cbn [total fold_right] in Ha. fold (total ls) in Ha. cbn [relu_pieces].
    eapply rbind_ok; [apply (columns_st m L a l x b sc v); [lia|exact Hx]|]. intros xi [Hxi Cxi].
    eapply rbind_ok; [apply (actual_relu_ok (rd k) (m * l) xi b sc (fun j => v (cols_idx L a l j)))|].
    { intros E. specialize (Hrd E O ltac:(cbn; lia)). rewrite Nat.add_0_r in Hrd. exact Hrd. }
    { exact Hxi. }
    intros dr [Hd Hr].
    eapply rbind_ok; [apply (IH (a + l)%nat (S k)); [lia|]|].
    { intros E j Hj. specialize (Hrd E (S j) ltac:(cbn; lia)). rewrite Nat.add_succ_r in Hrd. exact Hrd. }
    intros rest (M1 & M2 & A1 & A2). eexists. split; [reflexivity|]. cbn [fst snd map aligned].
    split; [congruence|]. split; [congruence|]. split; (split; [|assumption]).
    + eapply (stands_ext FR); [|exact Hd]. intros j Hj. cbn beta. rewrite Cxi by exact Hj. apply eqm_eq. reflexivity.
    + eapply (stands_ext FR); [|exact Hr]. intros j Hj. cbn beta. rewrite Cxi by exact Hj. apply eqm_eq. reflexivity.
Qed.

Lemma total_repeat k n : total (repeat k n) = (n * k)%nat.
Proof. induction n as [|n IH]; [reflexivity|]. cbn [repeat total fold_right]. fold (total (repeat k n)). rewrite IH. reflexivity. Qed.
Lemma total_app a b : total (a ++ b) = (total a + total b)%nat.
Proof. unfold total. induction a as [|x a IH]; [reflexivity|]. cbn [app fold_right]. rewrite IH. lia. Qed.
Lemma split_vector_total M m L : total (split_vector M m L) = L.
Proof.
  unfold split_vector. set (k := Nat.max _ _). assert (1 <= k)%nat by (unfold k; lia). rewrite total_app, total_repeat.
  pose proof (Nat.div_mod L k ltac:(lia)) as E. destruct (Nat.ltb_spec 0 (L mod k)); cbn; lia.
Qed.

(** Above the threshold the two results come back swapped. *)
Lemma relu_split_ok rd M m L (x : ptensor FR) b sc v : (0 < M)%nat -> (M < m * L)%nat -> stands (m * L) x b sc v ->
  (b = false -> forall j, (j < length (split_vector M m L))%nat -> cmprnd_ok wn p (m * nth j (split_vector M m L) O) (rd j)) ->
  ryields (relu_with_cmp wn p cfg rd M m L x) (fun q =>
    stands (m * L) (fst q) b false (fun i => 1 - msb_val wn (v i mod 2 ^ w) (carry wn x i)) /\
    stands (m * L) (snd q) b sc (fun i => (1 - msb_val wn (v i mod 2 ^ w) (carry wn x i)) * v i)).
Proof.
  intros HM HL Hx Hrd. unfold relu_with_cmp.
  replace (Nat.eqb M 0) with false by (symmetry; apply Nat.eqb_neq; lia).
  replace (m * L <=? M)%nat with false by (symmetry; apply Nat.leb_gt; lia). cbn [orb].
  pose proof (split_vector_total M m L) as T. set (ls := split_vector M m L) in *.
  eapply rbind_ok; [apply (relu_pieces_ok rd m L x b sc v Hx ls 0 0); [lia|exact Hrd]|].
  intros q (M1 & M2 & A1 & A2).
  assert (Hne : ls <> []) by (intros E; rewrite E in T; cbn in T; nia).
  eapply rbind_ok; [eapply (concat_last_ok m L b false _ (fst q)); [|rewrite M1; exact T|exact A1]|].
  { intros E. rewrite E in M1. cbn in M1. congruence. }
  intros za Hza.
  eapply rbind_ok; [eapply (concat_last_ok m L b sc _ (snd q)); [|rewrite M2; exact T|exact A2]|].
  { intros E. rewrite E in M2. cbn in M2. congruence. }
  intros zb Hzb. eexists. split; [reflexivity|]. split; assumption.
Qed.
Lemma relu_small_ok rd M m L (x : ptensor FR) b sc v : (M = 0%nat \/ (m * L <= M)%nat) -> stands (m * L) x b sc v ->
  (b = false -> cmprnd_ok wn p (m * L) (rd O)) ->
  ryields (relu_with_cmp wn p cfg rd M m L x) (fun q =>
    stands (m * L) (snd q) b false (fun i => 1 - msb_val wn (v i mod 2 ^ w) (carry wn x i)) /\
    stands (m * L) (fst q) b sc (fun i => (1 - msb_val wn (v i mod 2 ^ w) (carry wn x i)) * v i)).
Proof.
  intros HM Hx Hrd. unfold relu_with_cmp.
  replace (Nat.eqb M 0 || (m * L <=? M)%nat) with true; [apply actual_relu_ok; assumption|].
  symmetry. destruct HM as [->|HM]; [reflexivity|]. apply Nat.leb_le in HM. rewrite HM. apply orb_true_r.
Qed.
End Top.
