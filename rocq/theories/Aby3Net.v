(** Proofs about the ABY3 operations over many entries: sums, bit composition, trees, sorting,
    maxima, powers, polynomials and pieces. *)
From Verif Require Import Base TensorModel TensorProofs Aby3Model Aby3Spec Aby3Bits Aby3Proofs Aby3Trunc Adder Aby3Circ Aby3Cmp
  Aby3NetModel Aby3NetSpec Bitonic SortLists.
From Coq Require Import Permutation Sorted.
Local Open Scope Z_scope.

Section NET.
Variable prf : fac -> key -> Z -> nat -> Z.
Variable colo : bool.
Hypothesis Hprf : prf_words prf.

(** * Lists of shares *)


Lemma F2_length {A B} (R : A -> B -> Prop) xs ys : Forall2 R xs ys -> length xs = length ys.
Proof. induction 1; cbn; congruence. Qed.
Lemma F2_nth {A B} (R : A -> B -> Prop) xs ys d e i : Forall2 R xs ys -> (i < length xs)%nat -> R (nth i xs d) (nth i ys e).
Proof. intros H. revert i. induction H; intros [|i] Hi; cbn in *; try lia; [assumption|]. apply IHForall2. lia. Qed.
Lemma F2_nth_intro {A B} (R : A -> B -> Prop) d e : forall xs ys, length xs = length ys ->
  (forall i, (i < length xs)%nat -> R (nth i xs d) (nth i ys e)) -> Forall2 R xs ys.
Proof.
  induction xs as [|x xs IH]; intros [|y ys] HL H; try discriminate HL; constructor.
  - exact (H O ltac:(cbn; lia)).
  - apply IH; [cbn in HL; lia|]. intros i Hi. exact (H (S i) ltac:(cbn; lia)).
Qed.
Lemma F2_firstn {A B} (R : A -> B -> Prop) k xs ys : Forall2 R xs ys -> Forall2 R (firstn k xs) (firstn k ys).
Proof. intros H. revert k. induction H; intros [|k]; cbn; constructor; auto. Qed.
Lemma F2_skipn {A B} (R : A -> B -> Prop) k xs ys : Forall2 R xs ys -> Forall2 R (skipn k xs) (skipn k ys).
Proof. intros H. revert k. induction H; intros [|k]; cbn; try constructor; auto. Qed.
Lemma F2_impl {A B} (R S : A -> B -> Prop) xs ys : (forall a b, R a b -> S a b) -> Forall2 R xs ys -> Forall2 S xs ys.
Proof. intros H. induction 1; constructor; auto. Qed.
Lemma F2_map_r {A B C} (R : A -> C -> Prop) (g : B -> C) xs ys : Forall2 (fun a b => R a (g b)) xs ys -> Forall2 R xs (map g ys).
Proof. induction 1; cbn; constructor; auto. Qed.

Lemma mapM_ok {A B C} (f : A -> M B) (R : A -> C -> Prop) (Q : B -> C -> Prop) xs cs : Forall2 R xs cs ->
  (forall a c, R a c -> yields (f a) (fun b => Q b c)) -> yields (mapM f xs) (fun ys => Forall2 Q ys cs).
Proof.
  intros H Hf. induction H as [|a c xs cs Ha H IH]; cbn [mapM]; [apply y_ret; constructor|].
  apply (yb _ _ _ _ (Hf a c Ha)). intros b Hb. apply (yb _ _ _ _ IH). intros bs Hbs. apply y_ret. constructor; assumption.
Qed.
Lemma mapM_map {A B C} (f : A -> M B) (g : A -> C) (Q : B -> C -> Prop) xs :
  (forall a, In a xs -> yields (f a) (fun b => Q b (g a))) -> yields (mapM f xs) (fun ys => Forall2 Q ys (map g xs)).
Proof.
  intros H. apply (mapM_ok f (fun a c => In a xs /\ c = g a)); [|intros a c (Ha & ->); apply H, Ha].
  clear H. assert (G : forall l, incl l xs -> Forall2 (fun a c => In a xs /\ c = g a) l (map g l)).
  { induction l as [|a l IH]; intros Hi; cbn; constructor; [split; [apply Hi; left; reflexivity|reflexivity]|].
    apply IH. intros b Hb. apply Hi. right. exact Hb. }
  apply G. intros a Ha. exact Ha.
Qed.

(** * Constants as shares *)

Lemma zero_arith n sc : 0 < n -> arith n (zeros_private sc Arith (FI n)) 0.
Proof.
  intros Hn. assert (H0 : in_s n 0). { unfold in_s. assert (H := pow2_pos (n - 1) ltac:(lia)). lia. }
  apply (arith_mk n sc 0 0 0 0); try assumption. reflexivity.
Qed.
Lemma one_bool : boolean FB (ones_private Bool_ FB) 1.
Proof. apply (bool_mk FB false 1 0 0 1); unfold word; cbn; auto; lia. Qed.
Lemma to_private_ok n sc q v : public (FI n) q v -> arith n (set_scaled sc (to_private Arith q)) v.
Proof.
  intros Hq. destruct (public_inv _ _ _ Hq) as (E & Hv). rewrite E. clear E Hq.
  assert (H0 : in_s n 0). { unfold word, in_s in *. lia. }
  unfold to_private, set_scaled, mkq; cbn. apply (arith_mk n sc v 0 0 v); try assumption. rewrite !Z.add_0_r. reflexivity.
Qed.
Lemma set_scaled_arith n b x v : arith n x v -> arith n (set_scaled b x) v.
Proof. intros H. destruct (arith_inv _ _ _ H) as (a & b0 & c & E & A & B & C & D & F). rewrite E. exact (arith_mk n b a b0 c v A B C D F). Qed.
Lemma set_scaled_bool f b x v : boolean f x v -> boolean f (set_scaled b x) v.
Proof. intros H. destruct (bool_inv _ _ _ H) as (a & b0 & c & E & A & B & C & D). rewrite E. exact (bool_mk f b a b0 c v A B C D). Qed.

(** * Sums *)

Lemma wsum_from n : 0 < n -> forall l acc, in_s n acc -> in_s n (fold_left (wadd (FI n)) l acc) /\
  eqm (2 ^ n) (fold_left (wadd (FI n)) l acc) (acc + zsum l).
Proof.
  intros Hn. induction l as [|a l IH]; intros acc Ha; cbn [fold_left].
  - split; [exact Ha|]. unfold zsum; cbn. rewrite Z.add_0_r. reflexivity.
  - assert (Hw : in_s n (wadd (FI n) acc a)) by (cbn; apply swrap_range, Hn).
    destruct (IH _ Hw) as (A & B). split; [exact A|]. rewrite B. cbn [wadd fcast]. rewrite swrap_eqm by exact Hn.
    apply eqm_eq. unfold zsum. cbn [fold_right]. lia.
Qed.
Lemma wsum_ok n l : 0 < n -> in_s n (wsum (FI n) l) /\ eqm (2 ^ n) (wsum (FI n) l) (zsum l).
Proof.
  intros Hn. assert (H0 : in_s n 0). { unfold in_s. assert (H := pow2_pos (n - 1) ltac:(lia)). lia. }
  destruct (wsum_from n Hn l 0 H0) as (A & B). split; [exact A|]. exact B.
Qed.
Lemma shares_lists n sc xs vs : 0 < n -> shares n sc xs vs -> exists la lb lc,
  map vz (map p00 xs) = la /\ map vz (map p21 xs) = la /\ map vz (map p01 xs) = lb /\ map vz (map p10 xs) = lb /\
  map vz (map p11 xs) = lc /\ map vz (map p20 xs) = lc /\ eqm (2 ^ n) (zsum la + zsum lb + zsum lc) (zsum vs).
Proof.
  intros Hn H. induction H as [|x v xs vs (Hx & Sx) H IH].
  - exists [], [], []. repeat split.
  - destruct IH as (la & lb & lc & E1 & E2 & E3 & E4 & E5 & E6 & EQ).
    destruct (arith_inv _ _ _ Hx) as (a & b & c & E & A & B & C & D & F). rewrite E. clear E.
    exists (a :: la), (b :: lb), (c :: lc). cbn [map mk3 p00 p01 p10 p11 p20 p21 vz].
    repeat (split; [congruence|]). change (zsum (?h :: ?t)) with (h + zsum t).
    transitivity ((a + b + c) + (zsum la + zsum lb + zsum lc)); [apply eqm_eq; unfold zsum; cbn [fold_right]; ring|].
    rewrite F, EQ. apply eqm_eq. reflexivity.
Qed.
Lemma reduce_sum_ok n sc sc' xs vs : 0 < n -> shares n sc xs vs ->
  yields (reduce_sum colo (FI n) sc' Arith xs) (fun z => arith n z (swrap n (zsum vs)) /\ psc z = sc').
Proof.
  intros Hn H. destruct (shares_lists n sc xs vs Hn H) as (la & lb & lc & E1 & E2 & E3 & E4 & E5 & E6 & EQ).
  unfold reduce_sum. repeat apply y_opl. rewrite E1, E2, E3, E4, E5, E6. apply y_mk. split; [|reflexivity].
  destruct (wsum_ok n la Hn) as (A & A'). destruct (wsum_ok n lb Hn) as (B & B'). destruct (wsum_ok n lc Hn) as (C & C').
  apply (arith_mk n sc' (wsum (FI n) la) (wsum (FI n) lb) (wsum (FI n) lc)); try assumption; [apply swrap_range, Hn|].
  rewrite A', B', C', EQ. symmetry. apply swrap_eqm, Hn.
Qed.

(** * Composition of bits *)

Lemma bit_word (n v i : Z) : word FB (fcast FB (Z.land (Z.shiftr v i) 1)).
Proof. cbn. destruct (Z.land _ _ =? 0); cbn; auto. Qed.
Lemma bit_val v i : 0 <= i -> fcast FB (Z.land (Z.shiftr v i) 1) = Z.b2z (Z.testbit v i).
Proof.
  intros Hi. change 1 with (Z.ones 1). rewrite Z.land_ones by lia. rewrite Z.shiftr_div_pow2 by lia.
  change (2 ^ 1) with 2. rewrite <- Z.testbit_spec' by exact Hi. destruct (Z.testbit v i); reflexivity.
Qed.
Lemma bit_at_ok n x v i : 0 < n -> 0 <= i -> boolean (FI n) x v ->
  yields (bit_at colo x i) (fun z => boolean FB z (Z.b2z (Z.testbit v i)) /\ psc z = false).
Proof.
  intros Hn Hi Hx. unfold bit_at.
  eapply yb; [apply (sharewise_bool_ok colo _ (FI n) FB x v Hx)|].
  - intros a _. apply (bit_word n).
  - intros a b _ _. rewrite !bit_val by exact Hi. rewrite Z.lxor_spec. destruct (Z.testbit a i), (Z.testbit b i); reflexivity.
  - exact Hn.
  - intros z (Hz & _). rewrite bit_val in Hz by exact Hi. apply y_ret. split; [apply set_scaled_bool, Hz|reflexivity].
Qed.
Lemma bit_sum v : forall k, zsum (map (fun t => Z.b2z (Z.testbit v (Z.of_nat t)) * 2 ^ Z.of_nat t) (seq 0 k)) = v mod 2 ^ Z.of_nat k.
Proof.
  induction k as [|k IH]; [cbn; rewrite Z.mod_1_r; reflexivity|].
  rewrite seq_S, map_app, zsum_app, IH. cbn [map Nat.add]. unfold zsum. cbn [fold_right].
  rewrite Z.testbit_spec' by lia. rewrite Nat2Z.inj_succ, Z.pow_succ_r by lia.
  rewrite (Z.mul_comm 2 (2 ^ Z.of_nat k)). rewrite Z.rem_mul_r by lia. ring.
Qed.
Lemma zsum_eqm {A} m (f g : A -> Z) l : (forall a, In a l -> eqm m (f a) (g a)) -> eqm m (zsum (map f l)) (zsum (map g l)).
Proof.
  induction l as [|a l IH]; intros H; [reflexivity|]. cbn [map]. unfold zsum in *. cbn [fold_right].
  rewrite (H a (or_introl eq_refl)), IH; [reflexivity|]. intros b Hb. apply H. right. exact Hb.
Qed.
Lemma mul_pq_unscaled_ok n scale x y u v : 0 < n -> arith n x u -> public (FI n) y v -> psc x && qsc y = false ->
  yields (mul_pq prf colo scale x y) (fun z => arith n z (swrap n (u * v)) /\ psc z = (psc x || qsc y)%bool).
Proof.
  intros Hn Hx Hy Hs. unfold mul_pq. rewrite Hs. assert (Hf : pfc x = FI n) by apply Hx. rewrite Hf.
  eapply yb; [exact (mul_pq_raw_ok colo n x y u v _ Hn Hx Hy)|]. intros z Hz. apply y_ret, Hz.
Qed.
Lemma mul_pp_unscaled_ok n scale x y u v : 0 < n -> arith n x u -> arith n y v -> psc x && psc y = false ->
  yields (mul_pp prf colo scale x y) (fun z => arith n z (swrap n (u * v)) /\ psc z = (psc x || psc y)%bool).
Proof.
  intros Hn Hx Hy Hs. unfold mul_pp. rewrite Hs.
  eapply yb; [exact (mul_raw_ok prf colo Hprf n x y u v Hn Hx Hy)|]. intros z Hz. apply y_ret, Hz.
Qed.
Lemma b2a_bits_ok m n nbits x v : 0 < m -> 1 < n -> boolean (FI m) x v -> (match nbits with Some k => 0 <= k | None => True end) ->
  (m <> 128 \/ match nbits with Some k => k <= 64 | None => False end) ->
  yields (b2a_bits prf colo (FI n) nbits x)
    (fun z => arith n z (swrap n (v mod 2 ^ (match nbits with Some k => k | None => m end))) /\ psc z = psc x).
Proof.
  intros Hm Hn Hx Hk H128. unfold b2a_bits. apply y_assert. { unfold is_arith. destruct Hx as (_ & -> & _). reflexivity. }
  assert (Hf : pfc x = FI m) by apply Hx. rewrite Hf. cbn [fbits]. cbv zeta.
  replace (fac_eqb (FI m) (FI 128) && (64 <? match nbits with Some k => k | None => m end)) with false.
  2:{ symmetry. unfold fac_eqb. destruct (Z.eqb_spec m 128) as [->|]; [|reflexivity].
      destruct nbits; [|lia]. cbn [andb]. apply Z.ltb_ge. lia. }
  eapply (yb _ (fun _ => True)); [apply y_ret; exact I|]. intros _ _.
  set (k := match nbits with Some k => k | None => m end). assert (Hk0 : 0 <= k) by (unfold k; destruct nbits; lia). clearbody k.
  eapply yb.
  - apply (mapM_map _ (fun t => swrap n (Z.b2z (Z.testbit v (Z.of_nat t)) * swrap n (2 ^ Z.of_nat t)))
      (fun x v => arith n x v /\ psc x = false)).
    intros t _. eapply yb; [exact (bit_at_ok m x v (Z.of_nat t) Hm ltac:(lia) Hx)|]. intros b (Hb & _).
    eapply yb; [exact (b2a_single_ok prf colo Hprf n b _ Hn (proj2 Hb))|]. intros a (Ha & Sa).
    eapply yb; [exact (const_ok colo (FI n) (2 ^ Z.of_nat t) false ltac:(cbn; lia))|]. intros w (Hw & Sw).
    eapply y_weaken; [exact (mul_pq_unscaled_ok n 0 a w _ _ ltac:(lia) Ha Hw ltac:(rewrite Sa; reflexivity))|].
    intros z (Hz & Sz). split; [exact Hz|]. rewrite Sz, Sa, Sw. reflexivity.
  - intros terms Ht. eapply yb; [exact (reduce_sum_ok n false false terms _ ltac:(lia) Ht)|]. intros r (Hr & _).
    apply y_ret. split; [|reflexivity]. apply set_scaled_arith.
    replace (swrap n (v mod 2 ^ k)) with
      (swrap n (zsum (map (fun t => swrap n (Z.b2z (Z.testbit v (Z.of_nat t)) * swrap n (2 ^ Z.of_nat t))) (seq 0 (Z.to_nat k))))); [exact Hr|].
    apply eqm_swrap_eq; [lia|]. rewrite <- (Z2Nat.id k Hk0) at 2. rewrite <- bit_sum.
    apply zsum_eqm. intros t _. rewrite swrap_eqm by lia. rewrite swrap_eqm by lia. reflexivity.
Qed.

(** * Trees *)

Lemma tree_ok {A V} (op : A -> A -> M A) (leaf : A -> V -> Prop) (Q : list V -> A -> Prop) :
  (forall a v, leaf a v -> Q [v] a) -> (forall l r a b, Q l a -> Q r b -> yields (op a b) (Q (l ++ r))) ->
  forall fuel ts vs, Forall2 leaf ts vs -> ts <> [] -> (length ts <= S fuel)%nat -> yields (tree op fuel ts) (Q vs).
Proof.
  intros Hleaf Hop. induction fuel as [|fuel IH]; intros ts vs H Hne HL.
  - destruct H as [|a v ts vs Ha [|]]; [congruence| |cbn in HL; lia]. apply y_ret, Hleaf, Ha.
  - destruct ts as [|a [|b ts]]; [congruence| |].
    + inversion_clear H as [|? ? ? ? Ha H']. inversion_clear H'. apply y_ret, Hleaf, Ha.
    + cbn [tree]. set (h := Nat.div2 (length (a :: b :: ts))).
      assert (Hh : (0 < h /\ h < length (a :: b :: ts))%nat).
      { unfold h. cbn [length Nat.div2]. split; [lia|]. assert (D := Nat.div2_decr (length ts) (length ts) (le_S _ _ (le_n _))). lia. }
      rewrite <- (firstn_skipn h vs).
      apply (yb _ (Q (firstn h vs))).
      { apply IH; [apply F2_firstn, H| |rewrite firstn_length; lia].
        intros E. apply (f_equal (@length A)) in E. rewrite firstn_length in E. cbn in E, Hh. lia. }
      intros l Hl. apply (yb _ (Q (skipn h vs))).
      { apply IH; [apply F2_skipn, H| |rewrite skipn_length; lia].
        intros E. apply (f_equal (@length A)) in E. rewrite skipn_length in E. cbn [length] in *. lia. }
      intros r Hr. apply Hop; assumption.
Qed.

Lemma zprod_app l l' : zprod (l ++ l') = zprod l * zprod l'.
Proof. unfold zprod. induction l as [|x l IH]; cbn [app fold_right]; [ring|]. rewrite IH. ring. Qed.
Lemma prod_ok n scale xs vs : 0 < n -> shares n false xs vs -> xs <> [] ->
  yields (prod prf colo scale xs) (fun z => arith n z (swrap n (zprod vs)) /\ psc z = false).
Proof.
  intros Hn H Hne. unfold prod.
  apply (tree_ok _ (fun x v => arith n x v /\ psc x = false) (fun vs z => arith n z (swrap n (zprod vs)) /\ psc z = false)).
  - intros a v (Ha & Sa). split; [|exact Sa]. unfold zprod. cbn [fold_right]. rewrite Z.mul_1_r.
    rewrite swrap_id; [exact Ha|exact Hn|]. destruct (arith_inv _ _ _ Ha) as (? & ? & ? & _ & _ & _ & _ & D & _). exact D.
  - intros l r a b (Ha & Sa) (Hb & Sb).
    eapply y_weaken; [exact (mul_pp_unscaled_ok n scale a b _ _ Hn Ha Hb ltac:(rewrite Sa; reflexivity))|].
    intros z (Hz & Sz). split; [|rewrite Sz, Sa, Sb; reflexivity].
    replace (swrap n (zprod (l ++ r))) with (swrap n (swrap n (zprod l) * swrap n (zprod r))); [exact Hz|].
    apply eqm_swrap_eq; [exact Hn|]. rewrite !swrap_eqm by exact Hn. rewrite zprod_app. reflexivity.
  - exact H.
  - exact Hne.
  - lia.
Qed.

(** * Maxima *)

Lemma is_max_app l r a b : is_max l a -> is_max r b -> is_max (l ++ r) (Z.max a b).
Proof.
  intros (Ia & Ua) (Ib & Ub). split.
  - apply in_or_app. destruct (Z.max_spec a b) as [(_ & ->)|(_ & ->)]; auto.
  - intros v Hv. apply in_app_or in Hv as [Hv|Hv]; [specialize (Ua v Hv)|specialize (Ub v Hv)]; lia.
Qed.

Lemma reduce_max_tree_ok n sc xs vs : pow2_size n -> shares n sc xs vs -> xs <> [] -> close n vs ->
  yields (reduce_max_tree prf colo xs) (fun z => exists m, is_max vs m /\ arith n z m /\ psc z = sc).
Proof.
  intros Hsz H Hne Hc. unfold reduce_max_tree.
  eapply y_weaken; [apply (tree_ok _ (fun x v => (arith n x v /\ psc x = sc) /\ In v vs)
    (fun l z => incl l vs /\ exists m, is_max l m /\ arith n z m /\ psc z = sc)) with (vs := vs)|].
  - intros a v ((Ha & Sa) & Hi). split; [intros w [<-|[]]; exact Hi|]. exists v. split; [|auto].
    split; [left; reflexivity|]. intros w [<-|[]]. lia.
  - intros l r a b (Il & m & Hm & Ha & Sa) (Ir & k & Hk & Hb & Sb).
    eapply y_weaken; [exact (maximum_ok prf colo Hprf n a b m k Hsz Ha Hb ltac:(congruence) (Hc m k (Il m (proj1 Hm)) (Ir k (proj1 Hk))))|].
    intros z (Hz & Sz). split; [apply incl_app; assumption|]. exists (Z.max m k). split; [apply is_max_app; assumption|]. split; [exact Hz|congruence].
  - clear - H. unfold shares in H. assert (G : forall l, incl l vs -> forall ys, Forall2 (fun x v => arith n x v /\ psc x = sc) ys l ->
      Forall2 (fun x v => (arith n x v /\ psc x = sc) /\ In v vs) ys l).
    { induction l as [|v l IH]; intros Hi ys Hy; inversion_clear Hy as [|y ? ys' ? A B]; constructor.
      - split; [exact A|]. apply Hi. left. reflexivity.
      - apply IH; [|exact B]. intros w Hw. apply Hi. right. exact Hw. }
    apply G; [apply incl_refl|exact H].
  - exact Hne.
  - lia.
  - intros z (_ & Hz). exact Hz.
Qed.
Lemma F2_combine {A B} (R : A -> B -> Prop) xs1 vs1 xs2 vs2 : Forall2 R xs1 vs1 -> Forall2 R xs2 vs2 ->
  Forall2 (fun p q => R (fst p) (fst q) /\ R (snd p) (snd q)) (combine xs1 xs2) (combine vs1 vs2).
Proof.
  intros H. revert xs2 vs2. induction H; intros xs2 vs2 H2; [constructor|]. inversion_clear H2; cbn; constructor; auto.
Qed.
Lemma halves_cover (vs : list Z) v : In v vs ->
  let h := Nat.div2 (length vs) in
  In v (firstn (h + Nat.modulo (length vs) 2) vs) \/ In v (skipn h vs).
Proof.
  intros Hv h. set (k := (h + _)%nat). assert (Hk : (h <= k)%nat) by (unfold k; lia). clearbody k.
  rewrite <- (firstn_skipn h vs) in Hv. apply in_app_or in Hv as [Hv|Hv]; [left|right; exact Hv].
  replace (firstn h vs) with (firstn h (firstn k vs)) in Hv by (rewrite firstn_firstn, Nat.min_l by exact Hk; reflexivity).
  rewrite <- (firstn_skipn h (firstn k vs)). apply in_or_app. left. exact Hv.
Qed.
Lemma halves_length (vs : list Z) : let h := Nat.div2 (length vs) in
  length (firstn (h + Nat.modulo (length vs) 2) vs) = length (skipn h vs) /\ length (skipn h vs) = (length vs - h)%nat.
Proof.
  cbv zeta. rewrite firstn_length, skipn_length. split; [|reflexivity].
  assert (E := Nat.div2_odd (length vs)). assert (D := Nat.bit0_mod (length vs)). rewrite Nat.bit0_odd in D. rewrite <- D.
  destruct (Nat.odd (length vs)); cbn [Nat.b2n] in *; lia.
Qed.
Lemma pair_max_is_max l r m : length l = length r -> is_max (map (fun p => Z.max (fst p) (snd p)) (combine l r)) m -> is_max (l ++ r) m.
Proof.
  intros HL (Hi & Hu). split.
  - apply in_map_iff in Hi as ((a & b) & <- & Hab). cbn. apply in_or_app.
    destruct (Z.max_spec a b) as [(_ & ->)|(_ & ->)]; [right; exact (in_combine_r _ _ _ _ Hab)|left; exact (in_combine_l _ _ _ _ Hab)].
  - intros v Hv. apply in_app_or in Hv as [Hv|Hv]; apply (In_nth _ _ 0) in Hv as (i & Hi' & <-).
    + specialize (Hu (Z.max (nth i l 0) (nth i r 0))). etransitivity; [apply Z.le_max_l|apply Hu].
      apply in_map_iff. exists (nth i l 0, nth i r 0). split; [reflexivity|]. rewrite <- combine_nth by exact HL. apply nth_In. rewrite combine_length. lia.
    + specialize (Hu (Z.max (nth i l 0) (nth i r 0))). etransitivity; [apply Z.le_max_r|apply Hu].
      apply in_map_iff. exists (nth i l 0, nth i r 0). split; [reflexivity|]. rewrite <- combine_nth by exact HL. apply nth_In. rewrite combine_length. lia.
Qed.
Lemma F2_In_r {A B} (R : A -> B -> Prop) xs ys : Forall2 R xs ys -> Forall2 (fun x y => R x y /\ In y ys) xs ys.
Proof.
  intros H. assert (G : forall xs' l, incl l ys -> Forall2 R xs' l -> Forall2 (fun x y => R x y /\ In y ys) xs' l).
  { intros xs' l Hi Hl. induction Hl; constructor; [split; [assumption|apply Hi; left; reflexivity]|].
    apply IHHl. intros w Hw. apply Hi. right. exact Hw. }
  apply G; [apply incl_refl|exact H].
Qed.
Lemma vector_max_ok n sc : pow2_size n -> forall fuel xs vs, shares n sc xs vs -> xs <> [] -> close n vs -> (length xs <= S fuel)%nat ->
  yields (vector_max prf colo fuel xs) (fun z => exists m, is_max vs m /\ arith n z m /\ psc z = sc).
Proof.
  intros Hsz. induction fuel as [|fuel IH]; intros xs vs H Hne Hc HL.
  - destruct H as [|a v xs vs (Ha & Sa) [|]]; [congruence| |cbn in HL; lia]. apply y_ret. exists v.
    split; [split; [left; reflexivity|intros w [<-|[]]; lia]|auto].
  - destruct xs as [|a [|b xs]]; [congruence| |].
    + inversion_clear H as [|? ? ? ? (Ha & Sa) H']. inversion_clear H'. apply y_ret. exists y.
      split; [split; [left; reflexivity|intros w [<-|[]]; lia]|auto].
    + cbn [vector_max]. set (ys := a :: b :: xs) in *. assert (Hlen := F2_length _ _ _ H). rewrite Hlen.
      assert (H2 : (2 <= length vs)%nat) by (rewrite <- Hlen; unfold ys; cbn; lia).
      destruct (halves_length vs) as (HLh & HLs). set (h := Nat.div2 (length vs)) in *.
      set (k := (h + Nat.modulo (length vs) 2)%nat) in *.
      assert (Hh : (0 < h <= length vs)%nat).
      { unfold h. destruct vs as [|? [|? vs]]; cbn in H2 |- *; [lia|lia|]. assert (D := Nat.div2_decr (length vs) (length vs) (le_S _ _ (le_n _))). lia. }
      eapply yb.
      * apply (mapM_ok _ (fun p q => ((arith n (fst p) (fst q) /\ psc (fst p) = sc) /\ In (fst q) vs) /\
            ((arith n (snd p) (snd q) /\ psc (snd p) = sc) /\ In (snd q) vs))
          (fun z q => arith n z (Z.max (fst q) (snd q)) /\ psc z = sc) _ (combine (firstn k vs) (skipn h vs))).
        -- apply (F2_combine (fun x v => (arith n x v /\ psc x = sc) /\ In v vs)); [apply F2_firstn|apply F2_skipn]; apply F2_In_r; exact H.
        -- intros p q (((A & B) & C) & ((D & E) & F)).
           eapply y_weaken; [exact (maximum_ok prf colo Hprf n _ _ _ _ Hsz A D ltac:(congruence) (Hc _ _ C F))|].
           intros z (Hz & Sz). split; [exact Hz|congruence].
      * intros ms Hms. apply F2_map_r with (R := fun x v => arith n x v /\ psc x = sc) (g := fun q => Z.max (fst q) (snd q)) in Hms.
        set (ws := map (fun q : Z * Z => Z.max (fst q) (snd q)) (combine (firstn k vs) (skipn h vs))) in *.
        assert (Lw : length ws = (length vs - h)%nat).
        { unfold ws. rewrite map_length, combine_length, HLh, HLs. lia. }
        assert (Inc : incl ws vs).
        { intros w Hw. unfold ws in Hw. apply in_map_iff in Hw as ((p & q) & <- & Hpq). cbn.
          destruct (Z.max_spec p q) as [(_ & ->)|(_ & ->)].
          - apply in_combine_r in Hpq. rewrite <- (firstn_skipn h vs). apply in_or_app. right. exact Hpq.
          - apply in_combine_l in Hpq. rewrite <- (firstn_skipn k vs). apply in_or_app. left. exact Hpq. }
        eapply y_weaken; [apply (IH ms ws Hms)|].
        -- intros ->. apply F2_length in Hms. cbn in Hms. rewrite Lw in Hms.
           assert (h < length vs)%nat; [|lia]. unfold h. destruct vs as [|? [|? vs]]; cbn in H2 |- *; [lia|lia|].
           assert (D := Nat.div2_decr (length vs) (length vs) (le_S _ _ (le_n _))). lia.
        -- intros u v Hu Hv. apply Hc; apply Inc; assumption.
        -- rewrite (F2_length _ _ _ Hms), Lw. lia.
        -- intros z (m & Hm & Hz). exists m. split; [|exact Hz].
           assert (G := pair_max_is_max _ _ m HLh Hm). destruct G as (Gi & Gu). split; [apply Inc, Hm|].
           intros v Hv. apply Gu, in_or_app. exact (halves_cover vs v Hv).
Qed.

(** * Maxima with their position *)

Definition last_max {V} (l : list (Z * V)) (m : Z) (i : V) : Prop :=
  exists l1 l2, l = l1 ++ (m, i) :: l2 /\ (forall p, In p l1 -> fst p <= m) /\ (forall p, In p l2 -> fst p < m).
Lemma last_max_In {V} (l : list (Z * V)) m i : last_max l m i -> In m (map fst l) /\ forall p, In p l -> fst p <= m.
Proof.
  intros (l1 & l2 & -> & H1 & H2). split.
  - rewrite map_app. apply in_or_app. right. left. reflexivity.
  - intros p Hp. apply in_app_or in Hp as [Hp|[<-|Hp]]; [apply H1, Hp|cbn; lia|specialize (H2 p Hp); lia].
Qed.
Lemma last_max_app {V} (l r : list (Z * V)) m i m' i' : last_max l m i -> last_max r m' i' ->
  if m' <? m then last_max (l ++ r) m i else last_max (l ++ r) m' i'.
Proof.
  intros Hl Hr. destruct (Z.ltb_spec m' m) as [H|H].
  - destruct Hl as (l1 & l2 & -> & H1 & H2). exists l1, (l2 ++ r). split; [rewrite <- app_assoc; reflexivity|]. split; [exact H1|].
    intros p Hp. apply in_app_or in Hp as [Hp|Hp]; [apply H2, Hp|]. assert (G := proj2 (last_max_In _ _ _ Hr) p Hp). lia.
  - destruct Hr as (r1 & r2 & -> & H1 & H2). exists (l ++ r1), r2. split; [rewrite app_assoc; reflexivity|]. split; [|exact H2].
    intros p Hp. apply in_app_or in Hp as [Hp|Hp]; [|apply H1, Hp]. assert (G := proj2 (last_max_In _ _ _ Hl) p Hp). lia.
Qed.
Lemma argmax_tree_ok {B V} n sc (sel : priv -> B -> B -> M B) (P : B -> V -> Prop) (vs : list (Z * V)) :
  pow2_size n -> close n (map fst vs) ->
  (forall c beta x y vx vy, boolean FB c (Z.b2z beta) -> psc c = false -> P x vx -> P y vy -> yields (sel c x y) (fun z => P z (if beta : bool then vy else vx))) ->
  forall xs, Forall2 (fun x p => (arith n (fst x) (fst p) /\ psc (fst x) = sc) /\ P (snd x) (snd p)) xs vs -> xs <> [] ->
  yields (tree (fun l r : priv * B => do greater <- greater_than prf colo (fst l) (fst r);
      do mx <- select prf colo greater (fst r) (fst l);
      do am <- sel greater (snd r) (snd l);
      ret (mx, am)) (length xs) xs)
    (fun z => exists m i, last_max vs m i /\ (arith n (fst z) m /\ psc (fst z) = sc) /\ P (snd z) i).
Proof.
  intros Hsz Hc Hsel xs H Hne. assert (Hn8 : 8 <= n) by (destruct Hsz as (e & _ & G); exact G). assert (Hn : 0 < n) by lia.
  eapply y_weaken; [apply (tree_ok _ (fun x p => ((arith n (fst x) (fst p) /\ psc (fst x) = sc) /\ P (snd x) (snd p)) /\ In p vs)
    (fun l z => incl l vs /\ exists m i, last_max l m i /\ (arith n (fst z) m /\ psc (fst z) = sc) /\ P (snd z) i)) with (vs := vs)|].
  - intros a (v & i) (Ha & Hi). split; [intros w [<-|[]]; exact Hi|]. exists v, i. split; [|exact Ha].
    exists [], []. split; [reflexivity|]. split; intros p [].
  - intros l r a b (Il & m & i & Hm & (Ha & Sa) & Pa) (Ir & m' & i' & Hm' & (Hb & Sb) & Pb).
    assert (Hd : in_s n (m' - m)).
    { apply Hc; [apply (incl_map fst Il), (last_max_In _ _ _ Hm)|apply (incl_map fst Ir), (last_max_In _ _ _ Hm')]. }
    unfold greater_than. eapply yb; [exact (less_than_ok prf colo Hprf n _ _ _ _ Hsz Hb Ha ltac:(congruence))|]. intros g (Hg & Sg).
    rewrite swrap_id in Hg by assumption.
    eapply yb; [exact (select_arith_ok prf colo Hprf n g _ _ _ _ _ Hn Hg Hb Ha ltac:(congruence))|]. intros mx (Hmx & Smx).
    eapply yb; [exact (Hsel g _ _ _ _ _ Hg Sg Pb Pa)|]. intros am Ham. apply y_ret.
    split; [apply incl_app; assumption|]. cbn [fst snd].
    assert (G := last_max_app l r m i m' i' Hm Hm'). replace (m' - m <? 0) with (m' <? m) in Hmx, Ham by (clear; lia).
    destruct (m' <? m); [exists m, i|exists m', i']; (split; [exact G|split; [split; [exact Hmx|congruence]|exact Ham]]).
  - apply F2_In_r. exact H.
  - exact Hne.
  - lia.
  - intros z (_ & Hz). exact Hz.
Qed.
Lemma sub_qq_ok n x y u v : 0 < n -> public (FI n) x u -> public (FI n) y v -> qsc y = qsc x ->
  yields (sub_qq colo x y) (fun z => public (FI n) z (swrap n (u - v)) /\ qsc z = qsc x).
Proof.
  intros Hn Hx Hy Hs. destruct (public_inv _ _ _ Hx) as (Ex & Hu). destruct (public_inv _ _ _ Hy) as (Ey & Hv).
  unfold sub_qq. rewrite Hs. apply y_assert; [apply Bool.eqb_reflx|]. rewrite Ex, Ey. unfold pubwise2, mkq, wsub; cbn. yrun.
  split; [|reflexivity]. apply (public_mk (FI n)). apply swrap_range, Hn.
Qed.
Lemma xor_qq_ok f x y u v : fok f -> public f x u -> public f y v -> qsc y = qsc x ->
  yields (xor_qq colo x y) (fun z => public f z (Z.lxor u v) /\ qsc z = qsc x).
Proof.
  intros Hn Hx Hy Hs. assert (Fx : qfc x = f) by apply Hx. assert (Fy : qfc y = f) by apply Hy.
  destruct (public_inv _ _ _ Hx) as (Ex & Hu). destruct (public_inv _ _ _ Hy) as (Ey & Hv).
  unfold xor_qq. apply y_assert. { rewrite Fx, Fy, Hs, Bool.eqb_reflx. destruct f; cbn; [reflexivity|]. rewrite Z.eqb_refl. reflexivity. }
  rewrite Ex, Ey. unfold pubwise2, mkq; cbn. yrun. split; [|reflexivity]. apply (public_mk f). apply word_lxor; assumption.
Qed.
Lemma sel_value n (beta : bool) u v : 0 < n -> in_s n u -> in_s n v ->
  swrap n (swrap n (Z.b2z beta * swrap n (v - u)) + u) = if beta then v else u.
Proof.
  intros Hn Hu Hv. apply (in_s_eqm_eq n); [exact Hn|apply swrap_range, Hn|destruct beta; assumption|].
  rewrite !swrap_eqm by exact Hn. apply eqm_eq. destruct beta; cbn [Z.b2z]; ring.
Qed.
Lemma tens_range n sc t v : tens_arith n sc t v -> in_s n v.
Proof.
  destruct t as [q|p]; intros (H & _).
  - destruct (public_inv _ _ _ H) as (_ & G). exact G.
  - destruct (arith_inv _ _ _ H) as (? & ? & ? & _ & _ & _ & _ & D & _). exact D.
Qed.
Lemma select_t_ok n sc c beta x y u v : 0 < n -> boolean FB c (Z.b2z beta) -> tens_arith n sc x u -> tens_arith n sc y v ->
  yields (select_t prf colo c x y) (fun z => tens_arith n sc z (if beta then v else u)).
Proof.
  intros Hn Hc Hx Hy. assert (Ru := tens_range _ _ _ _ Hx). assert (Rv := tens_range _ _ _ _ Hy).
  rewrite <- (sel_value n beta u v Hn Ru Rv).
  destruct x as [x|x], y as [y|y]; destruct Hx as (Hx & Sx), Hy as (Hy & Sy); cbn [select_t].
  - eapply yb; [exact (sub_qq_ok n y x v u Hn Hy Hx ltac:(congruence))|]. intros d (Hd & Sd).
    eapply yb; [exact (mul_ab_qp_ok prf colo Hprf n d c _ _ Hn Hd (proj2 Hc))|]. intros e (He & Se).
    eapply yb; [exact (add_pq_ok colo n e x _ _ Hn He Hx ltac:(congruence))|]. intros r (Hr & Sr). apply y_ret.
    split; [exact Hr|congruence].
  - eapply yb; [exact (sub_pq_ok colo n y x v u Hn Hy Hx ltac:(congruence))|]. intros d (Hd & Sd).
    eapply yb; [exact (mul_ab_pp_ok prf colo Hprf n d c _ _ Hn Hd (proj2 Hc))|]. intros e (He & Se).
    eapply yb; [exact (add_pq_ok colo n e x _ _ Hn He Hx ltac:(congruence))|]. intros r (Hr & Sr). apply y_ret.
    split; [exact Hr|congruence].
  - eapply yb; [exact (sub_qp_ok colo n y x u v Hn Hx Hy)|]. intros d (Hd & Sd).
    eapply yb; [exact (mul_ab_pp_ok prf colo Hprf n d c _ _ Hn Hd (proj2 Hc))|]. intros e (He & Se).
    eapply yb; [exact (add_pp_ok colo n e x _ _ Hn He Hx)|]. intros r (Hr & Sr). apply y_ret.
    split; [exact Hr|congruence].
  - eapply yb; [exact (sub_pp_ok colo n y x v u Hn Hy Hx ltac:(congruence))|]. intros d (Hd & Sd).
    eapply yb; [exact (mul_ab_pp_ok prf colo Hprf n d c _ _ Hn Hd (proj2 Hc))|]. intros e (He & Se).
    eapply yb; [exact (add_pp_ok colo n e x _ _ Hn He Hx)|]. intros r (Hr & Sr). apply y_ret.
    split; [exact Hr|congruence].
Qed.
Lemma tens_bit t v : tens_bool t v -> v = 0 \/ v = 1.
Proof.
  destruct t as [q|p]; intros (H & _).
  - destruct (public_inv _ _ _ H) as (_ & G). exact G.
  - destruct (bool_inv _ _ _ H) as (a & b & c & _ & A & B & C & <-). apply bit_lxor; [apply bit_lxor; assumption|assumption].
Qed.
Lemma selb_value (beta : bool) u v : u = 0 \/ u = 1 -> v = 0 \/ v = 1 ->
  Z.lxor (Z.land (Z.lxor u v) (Z.b2z beta)) u = (if beta then v else u) /\ Z.lxor (Z.land (Z.lxor v u) (Z.b2z beta)) u = (if beta then v else u) /\
  Z.lxor (Z.land (Z.b2z beta) (Z.lxor u v)) u = (if beta then v else u).
Proof. intros [-> | ->] [-> | ->]; destruct beta; cbn; auto. Qed.
Lemma or_false a b : a = false -> b = false -> (a || b)%bool = false.
Proof. intros -> ->. reflexivity. Qed.
Lemma select_b_ok c beta x y u v : boolean FB c (Z.b2z beta) -> psc c = false -> tens_bool x u -> tens_bool y v ->
  yields (select_b prf colo c x y) (fun z => tens_bool z (if beta then v else u)).
Proof.
  intros Hc Sc Hx Hy. destruct (selb_value beta u v (tens_bit _ _ Hx) (tens_bit _ _ Hy)) as (E1 & E2 & E3).
  destruct x as [x|x], y as [y|y]; destruct Hx as (Hx & Sx), Hy as (Hy & Sy); cbn [select_b].
  - eapply yb. { eapply yb; [exact (xor_qq_ok FB x y u v I Hx Hy ltac:(congruence))|]. intros d (Hd & Sd). exact (and_pq_ok colo FB c d _ _ I Hc Hd). }
    intros e (He & Se). eapply yb; [exact (xor_pq_ok colo FB e x _ _ I He Hx)|]. intros r (Hr & Sr). apply y_ret.
    rewrite E3 in Hr. split; [exact Hr|congruence].
  - eapply yb. { eapply yb; [exact (xor_pq_ok colo FB y x v u I Hy Hx)|]. intros d (Hd & Sd). eapply y_weaken; [exact (and_ok prf colo Hprf FB d c _ _ I Hd Hc)|]. intros e0 (He0 & Se0). exact (conj He0 (eq_trans Se0 (or_false _ _ (eq_trans Sd Sy) Sc))). }
    intros e He. destruct He as (He & Se). eapply yb; [exact (xor_pq_ok colo FB e x _ _ I He Hx)|]. intros r (Hr & Sr). apply y_ret.
    rewrite E2 in Hr. split; [exact Hr|congruence].
  - eapply yb. { eapply yb; [exact (xor_pq_ok colo FB x y u v I Hx Hy)|]. intros d (Hd & Sd). eapply y_weaken; [exact (and_ok prf colo Hprf FB d c _ _ I Hd Hc)|]. intros e0 (He0 & Se0). exact (conj He0 (eq_trans Se0 (or_false _ _ (eq_trans Sd Sx) Sc))). }
    intros e He. destruct He as (He & Se). eapply yb; [exact (xor_pp_ok colo FB e x _ _ I He Hx)|]. intros r (Hr & Sr). apply y_ret.
    rewrite E1 in Hr. split; [exact Hr|congruence].
  - eapply yb. { eapply yb; [exact (xor_pp_ok colo FB x y u v I Hx Hy)|]. intros d (Hd & Sd). eapply y_weaken; [exact (and_ok prf colo Hprf FB d c _ _ I Hd Hc)|]. intros e0 (He0 & Se0). exact (conj He0 (eq_trans Se0 (or_false _ _ (eq_trans Sd Sx) Sc))). }
    intros e He. destruct He as (He & Se). eapply yb; [exact (xor_pp_ok colo FB e x _ _ I He Hx)|]. intros r (Hr & Sr). apply y_ret.
    rewrite E1 in Hr. split; [exact Hr|congruence].
Qed.
Lemma last_max_nth {V} (vs : list Z) : forall (ix : list V) m i d, length vs = length ix -> last_max (combine vs ix) m i ->
  exists k, (k < length vs)%nat /\ nth k vs 0 = m /\ nth k ix d = i /\
    (forall j, (j < length vs)%nat -> nth j vs 0 <= m) /\ (forall j, (k < j < length vs)%nat -> nth j vs 0 < m).
Proof.
  intros ix m i d HL (l1 & l2 & E & H1 & H2).
  assert (HC : length (combine vs ix) = length vs) by (rewrite combine_length; lia).
  assert (Hn : forall j, (j < length vs)%nat -> nth j (combine vs ix) (0, d) = (nth j vs 0, nth j ix d)) by (intros j _; apply combine_nth, HL).
  exists (length l1). assert (Hk : (length l1 < length vs)%nat) by (rewrite <- HC, E, app_length; cbn; lia). split; [exact Hk|].
  assert (G := Hn _ Hk). rewrite E, nth_middle in G. injection G as <- <-. split; [reflexivity|]. split; [reflexivity|]. split.
  - intros j Hj. specialize (Hn j Hj). assert (HI : In (nth j (combine vs ix) (0, d)) (combine vs ix)) by (apply nth_In; lia).
    rewrite Hn in HI. rewrite E in HI. apply in_app_or in HI as [HI|[HI|HI]]; [exact (H1 _ HI)|injection HI as <- _; lia|].
    specialize (H2 _ HI). cbn in H2. lia.
  - intros j Hj. specialize (Hn j ltac:(lia)). rewrite E, app_nth2 in Hn by lia.
    destruct (j - length l1)%nat as [|t] eqn:Et; [lia|]. cbn [nth] in Hn.
    assert (Ht : (t < length l2)%nat). { rewrite <- HC, E, app_length in Hj. cbn in Hj. lia. }
    assert (HI := nth_In l2 (0, d) Ht). rewrite Hn in HI. exact (H2 _ HI).
Qed.
Lemma F2_combine2 {A B C D} (R : A -> B -> Prop) (S : C -> D -> Prop) xs vs ys ws : Forall2 R xs vs -> Forall2 S ys ws ->
  Forall2 (fun p q => R (fst p) (fst q) /\ S (snd p) (snd q)) (combine xs ys) (combine vs ws).
Proof. intros H. revert ys ws. induction H; intros ys ws H2; [constructor|]. inversion_clear H2; cbn; constructor; auto. Qed.
Lemma F2_map_l {A B C} (R : B -> C -> Prop) (g : A -> B) xs ys : Forall2 (fun a b => R (g a) b) xs ys -> Forall2 R (map g xs) ys.
Proof. induction 1; cbn; constructor; auto. Qed.
Lemma combine_nonnil {A B} (xs : list A) (ys : list B) : xs <> [] -> length xs = length ys -> combine xs ys <> [].
Proof. destruct xs, ys; cbn; intros; congruence. Qed.

Lemma argmax_ok n sc scale xs vs : pow2_size n -> shares n sc xs vs -> xs <> [] -> close n vs ->
  yields (argmax prf colo (FI n) scale xs) (fun z => exists k, (k < length vs)%nat /\
    (arith n (fst z) (nth k vs 0) /\ psc (fst z) = sc) /\ tens_arith n true (snd z) (swrap n (Z.of_nat k * 2 ^ scale)) /\
    (forall j, (j < length vs)%nat -> nth j vs 0 <= nth k vs 0) /\ (forall j, (k < j < length vs)%nat -> nth j vs 0 < nth k vs 0)).
Proof.
  intros Hsz H Hne Hc. assert (Hn8 : 8 <= n) by (destruct Hsz as (e & _ & G); exact G). assert (Hn : 0 < n) by lia.
  assert (HL := F2_length _ _ _ H). unfold argmax.
  set (ixs := map (fun i => swrap n (Z.of_nat i * 2 ^ scale)) (seq 0 (length xs))).
  apply (yb _ (fun idx => Forall2 (tens_arith n true) (map TPub idx) ixs)).
  { eapply y_weaken; [apply (mapM_map _ (fun i => swrap n (Z.of_nat i * 2 ^ scale)) (fun q v => tens_arith n true (TPub q) v))|].
    - intros i _. exact (const_ok colo (FI n) _ true Hn).
    - intros idx Hidx. apply F2_map_l. exact Hidx. }
  intros idx Hidx. assert (Lx : length ixs = length xs) by (unfold ixs; rewrite map_length, seq_length; reflexivity).
  assert (LC : length xs = length (combine xs (map TPub idx))) by (rewrite combine_length, (F2_length _ _ _ Hidx); lia).
  rewrite LC. eapply y_weaken.
  - apply (argmax_tree_ok n sc (select_t prf colo) (tens_arith n true) (combine vs ixs) Hsz).
    + intros u v Hu Hv. apply in_map_iff in Hu as ((a & b) & <- & Hu). apply in_map_iff in Hv as ((a' & b') & <- & Hv).
      apply Hc; eapply in_combine_l; eassumption.
    + intros c beta x y vx vy Hb _ Hx Hy. exact (select_t_ok n true c beta x y vx vy Hn Hb Hx Hy).
    + apply (F2_combine2 (fun x v => arith n x v /\ psc x = sc) (tens_arith n true)); [exact H|exact Hidx].
    + apply combine_nonnil; [exact Hne|]. rewrite (F2_length _ _ _ Hidx). lia.
  - intros z (m & i & Hm & Hz & Pz). destruct (last_max_nth vs ixs m i (swrap n (Z.of_nat 0 * 2 ^ scale)) ltac:(lia) Hm) as (k & Hk & Em & Ei & Hle & Hlt).
    exists k. split; [exact Hk|]. rewrite Em. split; [exact Hz|]. split; [|split; assumption].
    replace (swrap n (Z.of_nat k * 2 ^ scale)) with i; [exact Pz|]. rewrite <- Ei. unfold ixs.
    rewrite (map_nth (fun i => swrap n (Z.of_nat i * 2 ^ scale))). rewrite seq_nth by lia. reflexivity.
Qed.
Lemma argmax_onehot_ok n sc xs vs : pow2_size n -> shares n sc xs vs -> xs <> [] -> close n vs ->
  yields (argmax_onehot prf colo xs) (fun z => exists k, (k < length vs)%nat /\
    (arith n (fst z) (nth k vs 0) /\ psc (fst z) = sc) /\
    Forall2 tens_bool (snd z) (map (fun j => if Nat.eqb k j then 1 else 0) (seq 0 (length vs))) /\
    (forall j, (j < length vs)%nat -> nth j vs 0 <= nth k vs 0) /\ (forall j, (k < j < length vs)%nat -> nth j vs 0 < nth k vs 0)).
Proof.
  intros Hsz H Hne Hc. assert (Hn8 : 8 <= n) by (destruct Hsz as (e & _ & G); exact G). assert (Hn : 0 < n) by lia.
  assert (HL := F2_length _ _ _ H). unfold argmax_onehot.
  set (hot := fun i : nat => map (fun j => if Nat.eqb i j then 1 else 0) (seq 0 (length xs))).
  set (ixs := map hot (seq 0 (length xs))).
  apply (yb _ (fun idx => Forall2 (Forall2 tens_bool) (map (map TPub) idx) ixs)).
  { eapply y_weaken; [apply (mapM_map _ hot (fun q v => Forall2 tens_bool (map TPub q) v))|].
    - intros i _. eapply y_weaken; [apply (mapM_map _ (fun j => if Nat.eqb i j then 1 else 0) (fun q v => tens_bool (TPub q) v))|].
      + intros j _. eapply y_weaken; [exact (const_ok colo FB (if Nat.eqb i j then 1 else 0) false I)|]. intros q (Hq & Sq). split; [|exact Sq].
        destruct (Nat.eqb i j); exact Hq.
      + intros q Hq. apply F2_map_l. exact Hq.
    - intros idx Hidx. apply F2_map_l. exact Hidx. }
  intros idx Hidx. assert (Lx : length ixs = length xs) by (unfold ixs; rewrite map_length, seq_length; reflexivity).
  assert (LC : length xs = length (combine xs (map (map TPub) idx))) by (rewrite combine_length, (F2_length _ _ _ Hidx); lia).
  rewrite LC. eapply y_weaken.
  - apply (argmax_tree_ok n sc (fun c x y => mapM (fun p => select_b prf colo c (fst p) (snd p)) (combine x y)) (fun ts v => Forall2 tens_bool ts v /\ length v = length xs) (combine vs ixs) Hsz).
    + intros u v Hu Hv. apply in_map_iff in Hu as ((a & b) & <- & Hu). apply in_map_iff in Hv as ((a' & b') & <- & Hv).
      apply Hc; eapply in_combine_l; eassumption.
    + intros c beta x y vx vy Hb Sc (Hx & Lvx) (Hy & Lvy). eapply y_weaken.
      * apply (mapM_ok _ (fun p q => tens_bool (fst p) (fst q) /\ tens_bool (snd p) (snd q)) (fun z q => tens_bool z (if beta : bool then snd q else fst q)) _ (combine vx vy)).
        -- apply (F2_combine2 tens_bool tens_bool); assumption.
        -- intros p q (A & B). exact (select_b_ok c beta _ _ _ _ Hb Sc A B).
      * intros z Hz. apply F2_map_r with (R := tens_bool) in Hz. split; [|destruct beta; assumption].
        replace (if beta then vy else vx) with (map (fun q : Z * Z => if beta then snd q else fst q) (combine vx vy)); [exact Hz|].
        assert (LL : length vx = length vy) by congruence. clear - LL. revert vy LL. induction vx as [|a vx IH]; intros [|b vy] LL; try discriminate LL; [destruct beta; reflexivity|].
        cbn [combine map]. rewrite IH by (cbn in LL; lia). destruct beta; reflexivity.
    + apply (F2_impl (fun x p => (arith n (fst x) (fst p) /\ psc (fst x) = sc) /\ (Forall2 tens_bool (snd x) (snd p) /\ length (snd p) = length xs))); [auto|].
      apply (F2_combine2 (fun x v => arith n x v /\ psc x = sc) (fun ts v => Forall2 tens_bool ts v /\ length v = length xs)); [exact H|].
      apply F2_In_r in Hidx. revert Hidx. apply F2_impl. intros a b (A & B). split; [exact A|]. unfold ixs in B. apply in_map_iff in B as (i & <- & _). unfold hot. rewrite map_length, seq_length. reflexivity.
    + apply combine_nonnil; [exact Hne|]. rewrite (F2_length _ _ _ Hidx). lia.
  - intros z (m & i & Hm & Hz & Pz & _). destruct (last_max_nth vs ixs m i (hot O) ltac:(lia) Hm) as (k & Hk & Em & Ei & Hle & Hlt).
    exists k. split; [exact Hk|]. rewrite Em. split; [exact Hz|]. split; [|split; assumption].
    rewrite <- HL. change (Forall2 tens_bool (snd z) (hot k)). replace (hot k) with i; [exact Pz|]. rewrite <- Ei. unfold ixs.
    rewrite (map_nth hot). rewrite seq_nth by lia. reflexivity.
Qed.

(** * Powers and polynomials *)

Lemma pow_loop_ok n scale : 0 < n -> forall p res tmp t r, arith n tmp (swrap n t) -> psc tmp = false ->
  match res with None => r = 1 | Some x => arith n x (swrap n r) /\ psc x = false end ->
  yields (pow_loop prf colo scale p res tmp) (fun z => arith n z (swrap n (r * t ^ Zpos p)) /\ psc z = false).
Proof.
  intros Hn.
  assert (MUL : forall x y u v, arith n x (swrap n u) -> psc x = false -> arith n y (swrap n v) -> psc y = false ->
    yields (mul_pp prf colo scale x y) (fun z => arith n z (swrap n (u * v)) /\ psc z = false)).
  { intros x y u v Hx Sx Hy Sy. eapply y_weaken; [exact (mul_pp_unscaled_ok n scale x y _ _ Hn Hx Hy ltac:(rewrite Sx; reflexivity))|].
    intros z (Hz & Sz). split; [|rewrite Sz, Sx, Sy; reflexivity].
    replace (swrap n (u * v)) with (swrap n (swrap n u * swrap n v)); [exact Hz|]. apply eqm_swrap_eq; [exact Hn|]. rewrite !swrap_eqm by exact Hn. reflexivity. }
  induction p as [p IH|p IH|]; intros res tmp t r Ht St Hr.
  - cbn [pow_loop]. apply (yb _ (fun x => arith n x (swrap n (r * t)) /\ psc x = false)).
    { destruct res as [x|]; [destruct Hr as (Hx & Sx); exact (MUL x tmp r t Hx Sx Ht St)|]. apply y_ret. subst r. rewrite Z.mul_1_l. split; assumption. }
    intros x (Hx & Sx). apply (yb _ _ _ _ (MUL tmp tmp t t Ht St Ht St)). intros y (Hy & Sy).
    replace (r * t ^ Z.pos p~1) with ((r * t) * (t * t) ^ Z.pos p).
    + apply (IH (Some x) y (t * t) (r * t) Hy Sy). split; assumption.
    + rewrite Pos2Z.inj_xI, Z.pow_add_r, Z.pow_1_r, Z.pow_mul_r, Z.pow_2_r by lia. ring.
  - cbn [pow_loop]. apply (yb _ _ _ _ (MUL tmp tmp t t Ht St Ht St)). intros y (Hy & Sy).
    replace (r * t ^ Z.pos p~0) with (r * (t * t) ^ Z.pos p); [exact (IH res y (t * t) r Hy Sy Hr)|].
    rewrite (Pos2Z.inj_xO p), Z.pow_mul_r, Z.pow_2_r by lia. reflexivity.
  - cbn [pow_loop]. rewrite Z.pow_1_r. destruct res as [x|]; [destruct Hr as (Hx & Sx); exact (MUL x tmp r t Hx Sx Ht St)|].
    apply y_ret. subst r. rewrite Z.mul_1_l. split; assumption.
Qed.
Lemma arith_range n x v : arith n x v -> in_s n v.
Proof. intros H. destruct (arith_inv _ _ _ H) as (? & ? & ? & _ & _ & _ & _ & D & _). exact D. Qed.
Lemma is_arith_of n x v : arith n x v -> is_arith x = true.
Proof. intros (_ & E & _). unfold is_arith. rewrite E. reflexivity. Qed.
Lemma pow_ok n scale x u p : 0 < n -> arith n x u -> psc x = false -> 0 < p ->
  yields (pow prf colo scale x p) (fun z => arith n z (swrap n (u ^ p)) /\ psc z = false).
Proof.
  intros Hn Hx Sx Hp. unfold pow. apply y_assert; [exact (is_arith_of n x u Hx)|]. destruct p as [|p|p]; try lia.
  rewrite <- (Z.mul_1_l (u ^ Z.pos p)). apply pow_loop_ok; [exact Hn| |exact Sx|reflexivity].
  rewrite swrap_id; [exact Hx|exact Hn|exact (arith_range _ _ _ Hx)].
Qed.
Lemma pow_bad scale x p : p <= 0 -> raises (pow prf colo scale x p) AssertionError.
Proof. intros Hp s. unfold pow. destruct p; [|lia|]; destruct (is_arith x); reflexivity. Qed.

Lemma add_qp_vals n q y u v : 0 < n -> arith n y u -> vz (q0 q) = v -> vz (q2 q) = v -> in_s n v -> qsc q = psc y ->
  yields (add_qp colo q y) (fun z => arith n z (swrap n (v + u)) /\ psc z = psc y).
Proof.
  intros Hn Hy E0 E2 Hv Hs.
  assert (E : add_qp colo q y = add_qp colo (mkq (FI n) (qsc q) v) y).
  { unfold add_qp, op2, mkq. cbn. rewrite E0, E2. reflexivity. }
  rewrite E. apply add_qp_ok; [exact Hn|exact Hy|apply public_mk; exact Hv|exact Hs].
Qed.
Lemma poly_terms_ok n scale x u : 0 < n -> arith n x u -> psc x = false -> forall cs i t v, 0 < i -> tens_val n t (swrap n v) ->
  yields (poly_terms prf colo scale x i cs t) (fun z => tens_val n z (swrap n (v + u ^ i * peval cs u))).
Proof.
  intros Hn Hx Sx. assert (Fx : pfc x = FI n) by apply Hx. induction cs as [|c cs IH]; intros i t v Hi Ht; cbn [poly_terms peval fold_right].
  - rewrite Z.mul_0_r, Z.add_0_r. apply y_ret, Ht.
  - fold (peval cs u). assert (E : v + u ^ i * (c + u * peval cs u) = (v + u ^ i * c) + u ^ (i + 1) * peval cs u).
    { rewrite Z.pow_add_r, Z.pow_1_r by lia. ring. }
    rewrite E. destruct (Z.eqb_spec c 0) as [->|Hc].
    + rewrite Z.mul_0_r, Z.add_0_r. apply IH; [lia|exact Ht].
    + rewrite Fx. apply (yb _ _ _ _ (const_ok colo (FI n) c false Hn)). intros q (Hq & Sq).
      apply (yb _ _ _ _ (pow_ok n scale x u i Hn Hx Sx Hi)). intros xi (Hxi & Sxi).
      apply (yb _ _ _ _ (mul_pq_unscaled_ok n scale xi q _ _ Hn Hxi Hq ltac:(rewrite Sxi; reflexivity))). intros w (Hw & Sw).
      assert (Sw' : psc w = false) by (rewrite Sw, Sxi, Sq; reflexivity).
      apply (yb _ (fun r => arith n r (swrap n (v + u ^ i * c)) /\ psc r = false)).
      * destruct t as [q'|r].
        -- destruct Ht as (T0 & T1 & T2 & T3).
           eapply y_weaken; [exact (add_qp_vals n q' w _ _ Hn Hw T0 T2 (swrap_range n v Hn) ltac:(congruence))|].
           intros r (Hr & Sr). split; [|congruence].
           replace (swrap n (v + u ^ i * c)) with (swrap n (swrap n v + swrap n (swrap n (u ^ i) * fcast (FI n) c))); [exact Hr|].
           apply eqm_swrap_eq; [exact Hn|]. cbn [fcast]. rewrite !swrap_eqm by exact Hn. reflexivity.
        -- destruct Ht as (Hr0 & Sr0).
           eapply y_weaken; [exact (add_pp_ok colo n r w _ _ Hn Hr0 Hw)|]. intros r' (Hr & Sr). split; [|congruence].
           replace (swrap n (v + u ^ i * c)) with (swrap n (swrap n v + swrap n (swrap n (u ^ i) * fcast (FI n) c))); [exact Hr|].
           apply eqm_swrap_eq; [exact Hn|]. cbn [fcast]. rewrite !swrap_eqm by exact Hn. reflexivity.
      * intros r Hr. apply IH; [lia|exact Hr].
Qed.
Lemma pub_add_sc x y : colo = true -> qsc y = qsc x -> yields (add_qq colo x y) (fun z => qsc z = qsc x).
Proof. intros Hc Hs s. unfold add_qq. rewrite Hs, Bool.eqb_reflx, Hc. eexists. split; reflexivity. Qed.
Lemma polynomial_ok n scale x u c cs : 0 < n -> arith n x u -> psc x = false -> colo = true ->
  yields (polynomial prf colo scale x (c :: cs)) (fun z => tens_val n z (swrap n (peval (c :: cs) u))).
Proof.
  intros Hn Hx Sx Hc. unfold polynomial. apply y_assert; [exact (is_arith_of n x u Hx)|].
  assert (Fx : pfc x = FI n) by apply Hx. rewrite Fx, Sx.
  apply (yb _ _ _ _ (const_ok colo (FI n) 0 false Hn)). intros z0 (Hz0 & Sz0).
  apply (yb _ _ _ _ (const_ok colo (FI n) c false Hn)). intros c0 (Hc0 & Sc0).
  apply (yb _ _ _ _ (y_conj _ _ _ (pub_add_ok colo n z0 c0 _ _ Hn Hz0 Hc0 ltac:(congruence) Hc) (pub_add_sc z0 c0 Hc ltac:(congruence)))).
  intros r ((R0 & R1 & R2) & R3). eapply y_weaken; [apply (poly_terms_ok n scale x u Hn Hx Sx cs 1 (TPub r) c ltac:(lia))|].
  - assert (E : swrap n (fcast (FI n) 0 + fcast (FI n) c) = swrap n c).
    { apply eqm_swrap_eq; [exact Hn|]. cbn [fcast]. rewrite !swrap_eqm by exact Hn. reflexivity. }
    rewrite E in R0, R1, R2. cbn [tens_val]. repeat (split; [assumption|]). congruence.
  - intros z Hz. rewrite Z.pow_1_r in Hz. exact Hz.
Qed.
Lemma polynomial_remote scale x c cs : colo = false -> raises (polynomial prf colo scale x (c :: cs)) AssertionError.
Proof.
  intros Hc s. unfold polynomial, bind, assert_, const, lit, add_qq, op2, mk_pub, on. rewrite Hc.
  destruct (is_arith x); [|reflexivity]. cbn. destruct (psc x); reflexivity.
Qed.

(** * Pieces *)

Lemma bit_le (a b : Z) : Z.land (Z.b2z (a <=? b)) (Z.b2z (b <=? a)) = Z.b2z (a =? b).
Proof. destruct (Z.leb_spec a b), (Z.leb_spec b a), (Z.eqb_spec a b); cbn; lia. Qed.
Lemma bit_le_nat (a b : nat) : Z.land (Z.b2z (Nat.leb a b)) (Z.b2z (Nat.leb b a)) = Z.b2z (Nat.eqb b a).
Proof. destruct (Nat.leb_spec a b), (Nat.leb_spec b a), (Nat.eqb_spec b a); cbn; lia. Qed.
Lemma pick_sum : forall (fv : list Z) a j, (a <= j)%nat ->
  zsum (map (fun p => snd p * fst p) (combine fv (map (fun k => Z.b2z (Nat.eqb k j)) (seq a (length fv))))) = nth (j - a) fv 0.
Proof.
  induction fv as [|f fv IH]; intros a j Ha; cbn [length seq map combine].
  - destruct (j - a)%nat; reflexivity.
  - unfold zsum in *. cbn [fold_right fst snd]. destruct (Nat.eqb_spec a j) as [->|Hne].
    + rewrite Nat.sub_diag. cbn [nth Z.b2z]. rewrite Z.mul_1_l.
      assert (Z0 : forall l b, (j < b)%nat -> fold_right Z.add 0 (map (fun p : Z * Z => snd p * fst p) (combine l (map (fun k => Z.b2z (Nat.eqb k j)) (seq b (length l))))) = 0).
      { clear. induction l as [|x l IH]; intros b Hb; [reflexivity|]. cbn [length seq map combine fold_right fst snd].
        rewrite IH by lia. destruct (Nat.eqb_spec b j); [lia|reflexivity]. }
      rewrite Z0 by lia. lia.
    + rewrite IH by lia. cbn [Z.b2z]. rewrite Z.mul_0_l, Z.add_0_l.
      replace (j - a)%nat with (S (j - S a)) by lia. reflexivity.
Qed.
Lemma piecewise_ok n sc x u c fs fv j : pow2_size n -> arith n x u -> shares n sc fs fv -> length fs = S (length c) ->
  (forall ck, In ck c -> in_s n ck /\ in_s n (ck - u)) -> (j <= length c)%nat ->
  (forall i, (i < j)%nat -> nth i c 0 < u) -> (forall i, (j <= i < length c)%nat -> u <= nth i c 0) ->
  yields (piecewise prf colo x c fs) (fun z => arith n z (nth j fv 0) /\ psc z = sc).
Proof.
  intros Hsz Hx Hf HL Hc Hj Hlo Hhi. assert (Hn8 : 8 <= n) by (destruct Hsz as (e & _ & G); exact G). assert (Hn : 0 < n) by lia.
  assert (Fx : pfc x = FI n) by apply Hx. unfold piecewise. apply y_assert; [apply Nat.eqb_eq; lia|]. rewrite Fx.
  apply (yb _ (fun ps => Forall2 (fun p ck => boolean FB p (Z.b2z (negb (ck <? u))) /\ psc p = false) ps c)).
  { eapply y_weaken; [apply (mapM_map _ (fun ck => ck) (fun p ck => boolean FB p (Z.b2z (negb (ck <? u))) /\ psc p = false))|intros ps; rewrite map_id; auto].
    intros ck Hck. destruct (Hc ck Hck) as (Rk & Dk).
    apply (yb _ _ _ _ (const_ok colo (FI n) ck (psc x) Hn)). intros q (Hq & Sq). cbn [fcast] in Hq. rewrite swrap_id in Hq by assumption.
    apply (yb _ _ _ _ (less_than_qp_ok prf colo Hprf n q x ck u Hsz Hq Hx)). intros g (Hg & Sg). rewrite swrap_id in Hg by assumption.
    eapply y_weaken; [exact (not_FB_ok colo g _ Hg)|]. intros r (Hr & Sr). split; [|congruence].
    replace (Z.b2z (negb (ck <? u))) with (1 - Z.b2z (ck - u <? 0)); [exact Hr|].
    destruct (Z.ltb_spec ck u), (Z.ltb_spec (ck - u) 0); cbn; lia. }
  intros ps Hps. assert (Lp := F2_length _ _ _ Hps).
  apply (yb _ (fun fl => Forall2 (fun p ck => boolean FB p (Z.b2z (ck <? u)) /\ psc p = false) fl c)).
  { apply (mapM_ok _ _ _ _ _ Hps). intros p ck (Hp & Sp).
    apply (yb _ _ _ _ (const_ok colo FB 1 false I)). intros q (Hq & Sq).
    eapply y_weaken; [exact (xor_pq_ok colo FB p q _ _ I Hp Hq)|]. intros r (Hr & Sr). split; [|congruence].
    destruct (ck <? u); exact Hr. }
  intros fl Hfl. assert (Lfl := F2_length _ _ _ Hfl). cbv zeta.
  set (one := ones_private Bool_ FB). assert (H1 : boolean FB one 1) by exact one_bool.
  set (ks := seq 0 (length fs)).
  apply (yb _ (fun b => Forall2 (fun p v => bool_vals FB p v) b (map (fun k => Z.b2z (Nat.eqb k j)) ks))).
  { eapply y_weaken; [apply (mapM_ok _ (fun pq k => boolean FB (fst pq) (Z.b2z (Nat.leb j k)) /\ boolean FB (snd pq) (Z.b2z (Nat.leb k j)))
      (fun z k => bool_vals FB z (Z.b2z (Nat.eqb k j))) _ ks)|].
    - apply (F2_nth_intro _ (one, one) 0%nat).
      + rewrite combine_length, app_length. unfold ks. rewrite seq_length. cbn. lia.
      + intros i Hi. rewrite combine_length, app_length in Hi. cbn [length] in Hi. unfold ks. rewrite seq_nth by lia.
        rewrite combine_nth by (rewrite app_length; cbn; lia). cbn [fst snd Nat.add]. split.
        * destruct (Nat.lt_ge_cases i (length c)) as [Hic|Hic].
          -- rewrite app_nth1 by lia. assert (G := F2_nth _ _ _ one 0 i Hps ltac:(lia)). cbv beta in G.
             replace (Nat.leb j i) with (negb (nth i c 0 <? u)); [exact (proj1 G)|].
             destruct (Nat.leb_spec j i) as [Hji|Hji]; [specialize (Hhi i ltac:(lia))|specialize (Hlo i Hji)]; destruct (Z.ltb_spec (nth i c 0) u); cbn; lia.
          -- rewrite app_nth2 by lia. replace (i - length ps)%nat with 0%nat by lia. cbn [nth].
             replace (Nat.leb j i) with true by (symmetry; apply Nat.leb_le; lia). exact H1.
        * destruct i as [|i]; cbn [nth]; [exact H1|].
          assert (G := F2_nth _ _ _ one 0 i Hfl ltac:(lia)). cbv beta in G.
          replace (Nat.leb (S i) j) with (nth i c 0 <? u); [exact (proj1 G)|].
          destruct (Nat.leb_spec (S i) j) as [Hji|Hji]; [specialize (Hlo i ltac:(lia))|specialize (Hhi i ltac:(lia))]; destruct (Z.ltb_spec (nth i c 0) u); cbn; lia.
    - intros pq k (A & B). eapply y_weaken; [exact (and_ok prf colo Hprf FB _ _ _ _ I A B)|]. intros z (Hz & _). rewrite bit_le_nat in Hz. exact (proj2 Hz).
    - intros b Hb. apply F2_map_r. exact Hb. }
  intros b Hb. assert (Lb := F2_length _ _ _ Hb). unfold ks in Lb. rewrite map_length, seq_length in Lb.
  apply (yb _ (fun ts => shares n sc ts (map (fun p => swrap n (snd p * fst p)) (combine fv (map (fun k => Z.b2z (Nat.eqb k j)) ks))) /\ length ts = length fs)).
  { eapply y_weaken; [apply (mapM_ok _ (fun p q => (arith n (fst p) (fst q) /\ psc (fst p) = sc) /\ bool_vals FB (snd p) (snd q))
      (fun z q => arith n z (swrap n (snd q * fst q)) /\ psc z = sc) _ (combine fv (map (fun k => Z.b2z (Nat.eqb k j)) ks)))|].
    - apply (F2_combine2 (fun x v => arith n x v /\ psc x = sc) (bool_vals FB)); assumption.
    - intros p q ((A & B) & C). eapply y_weaken; [exact (mul_ab_pp_ok prf colo Hprf n _ _ _ _ Hn A C)|]. intros z (Hz & Sz). split; [exact Hz|congruence].
    - intros ts Hts. assert (Lt := F2_length _ _ _ Hts). split; [apply F2_map_r; exact Hts|].
      rewrite Lt, combine_length, map_length. unfold ks. rewrite seq_length, <- (F2_length _ _ _ Hf). lia. }
  intros ts (Hts & Lts).
  eapply y_weaken; [exact (reduce_sum_ok n sc (psc (hd x ts)) ts _ Hn Hts)|]. intros z (Hz & Sz). split.
  - replace (nth j fv 0) with (swrap n (zsum (map (fun p => swrap n (snd p * fst p)) (combine fv (map (fun k => Z.b2z (Nat.eqb k j)) ks))))); [exact Hz|].
    rewrite <- (swrap_id n (nth j fv 0)); [|exact Hn|].
    + apply eqm_swrap_eq; [exact Hn|]. assert (P := pick_sum fv 0%nat j (Nat.le_0_l j)). rewrite Nat.sub_0_r in P. rewrite <- P.
      unfold ks. rewrite (F2_length _ _ _ Hf). apply zsum_eqm. intros p _. apply swrap_eqm, Hn.
    + assert (G := F2_nth _ _ _ one 0 j Hf ltac:(lia)). exact (arith_range _ _ _ (proj1 G)).
  - rewrite Sz. destruct ts as [|t ts]; [cbn in Lts; lia|]. cbn [hd].
    inversion_clear Hts as [|? ? ? ? (_ & G) _]. exact G.
Qed.

(** * Sorting *)

Lemma scatter_rel {A B} (R : A -> B -> Prop) idx d d' p : R d d' -> forall vals zs, Forall2 R vals zs ->
  R (scatter_at idx vals d p) (scatter_at idx zs d' p).
Proof.
  intros Hd. induction idx as [|i idx IH]; intros vals zs H; [destruct H; exact Hd|].
  destruct H as [|v z vals zs Hv H]; cbn; [exact Hd|]. destruct (Nat.eqb i p); [exact Hv|]. apply IH, H.
Qed.
Lemma NoDup_disjoint {A} (l r : list A) : NoDup (l ++ r) -> forall a, In a l -> In a r -> False.
Proof.
  induction l as [|b l IH]; intros H a Hl Hr; [destruct Hl|]. cbn in H. inversion_clear H as [|? ? Hn H'].
  destruct Hl as [<-|Hl]; [apply Hn, in_or_app; right; exact Hr|exact (IH H' a Hl Hr)].
Qed.
Lemma NoDup_right {A} (l r : list A) : NoDup (l ++ r) -> NoDup r.
Proof. induction l as [|b l IH]; intros H; [exact H|]. cbn in H. inversion_clear H. auto. Qed.
Lemma NoDup_parts {A} (l r : list A) : NoDup (l ++ r) -> NoDup l /\ NoDup r.
Proof.
  intros H. split; [|exact (NoDup_right _ _ H)]. apply (Permutation_NoDup (Permutation_app_comm l r)) in H. exact (NoDup_right _ _ H).
Qed.
Definition vmins (vs : list Z) (lr : list nat * list nat) : list Z := map (fun ij => Z.min (nth (fst ij) vs 0) (nth (snd ij) vs 0)) (combine (fst lr) (snd lr)).
Definition vmaxs (vs : list Z) (lr : list nat * list nat) : list Z := map (fun ij => Z.max (nth (fst ij) vs 0) (nth (snd ij) vs 0)) (combine (fst lr) (snd lr)).
Definition vstep (n : Z) (acc : bool) (lr : list nat * list nat) (vs : list Z) : list Z :=
  map (fun p => swrap n (scatter_at (if acc then fst lr else snd lr) (vmins vs lr) 0 p +
      scatter_at (if acc then snd lr else fst lr) (vmaxs vs lr) 0 p)) (seq 0 (length vs)).
Lemma vstep_nth n acc lr vs p : (p < length vs)%nat -> nth p (vstep n acc lr vs) 0 =
  swrap n (scatter_at (if acc then fst lr else snd lr) (vmins vs lr) 0 p + scatter_at (if acc then snd lr else fst lr) (vmaxs vs lr) 0 p).
Proof.
  intros Hp. unfold vstep. set (f := fun p => swrap n _). rewrite (nth_indep _ 0 (f 0%nat)) by (rewrite map_length, seq_length; exact Hp).
  rewrite (map_nth f). rewrite seq_nth by exact Hp. reflexivity.
Qed.
Lemma vstep_stepped n acc lr s vs : 0 < n -> index_ok (length vs) lr s -> (forall v, In v vs -> in_s n v) -> stepped acc lr vs (vstep n acc lr vs).
Proof.
  intros Hn (HL & HP & _) Hr. assert (ND : NoDup (fst lr ++ snd lr)) by (apply (Permutation_NoDup (Permutation_sym HP)), seq_NoDup).
  destruct (NoDup_parts _ _ ND) as (Nl & Nr). assert (DJ := NoDup_disjoint _ _ ND).
  split; [unfold vstep; rewrite map_length, seq_length; reflexivity|]. intros k Hk.
  set (i := nth k (fst lr) 0%nat). set (j := nth k (snd lr) 0%nat).
  assert (Ii : In i (fst lr)) by (apply nth_In; exact Hk). assert (Ij : In j (snd lr)) by (apply nth_In; lia).
  assert (Hi : (i < length vs)%nat).
  { assert (G : In i (seq 0 (length vs))) by (apply (Permutation_in _ HP), in_or_app; left; exact Ii). apply in_seq in G. lia. }
  assert (Hj : (j < length vs)%nat).
  { assert (G : In j (seq 0 (length vs))) by (apply (Permutation_in _ HP), in_or_app; right; exact Ij). apply in_seq in G. lia. }
  rewrite !vstep_nth by assumption.
  assert (Lc : length (combine (fst lr) (snd lr)) = length (fst lr)) by (rewrite combine_length; lia).
  assert (Em : forall d, nth k (vmins vs lr) d = Z.min (nth i vs 0) (nth j vs 0)).
  { intros d. unfold vmins. set (f := fun ij : nat * nat => Z.min _ _). rewrite (nth_indep _ d (f (0%nat, 0%nat))) by (rewrite map_length; lia).
    rewrite (map_nth f). rewrite combine_nth by exact HL. reflexivity. }
  assert (EM : forall d, nth k (vmaxs vs lr) d = Z.max (nth i vs 0) (nth j vs 0)).
  { intros d. unfold vmaxs. set (f := fun ij : nat * nat => Z.max _ _). rewrite (nth_indep _ d (f (0%nat, 0%nat))) by (rewrite map_length; lia).
    rewrite (map_nth f). rewrite combine_nth by exact HL. reflexivity. }
  assert (Lm : length (vmins vs lr) = length (fst lr)) by (unfold vmins; rewrite map_length; exact Lc).
  assert (LM : length (vmaxs vs lr) = length (fst lr)) by (unfold vmaxs; rewrite map_length; exact Lc).
  assert (Ri := Hr _ (nth_In vs 0 Hi)). assert (Rj := Hr _ (nth_In vs 0 Hj)).
  assert (Rm : in_s n (Z.min (nth i vs 0) (nth j vs 0))) by (destruct (Z.min_spec (nth i vs 0) (nth j vs 0)) as [(_ & ->)|(_ & ->)]; assumption).
  assert (RM : in_s n (Z.max (nth i vs 0) (nth j vs 0))) by (destruct (Z.max_spec (nth i vs 0) (nth j vs 0)) as [(_ & ->)|(_ & ->)]; assumption).
  unfold swapped. destruct acc.
  - rewrite (scatter_at_notin (snd lr) _ 0 i) by (intros G; exact (DJ i Ii G)). rewrite (scatter_at_notin (fst lr) _ 0 j) by (intros G; exact (DJ j G Ij)).
    unfold i at 1. rewrite (scatter_at_nth (fst lr) _ 0 0 k Nl Hk Lm), Em.
    unfold j at 2. rewrite (scatter_at_nth (snd lr) (vmaxs vs lr) 0 0 k Nr ltac:(lia) ltac:(lia)), EM.
    rewrite Z.add_0_r, Z.add_0_l, !swrap_id by assumption. reflexivity.
  - rewrite (scatter_at_notin (snd lr) _ 0 i) by (intros G; exact (DJ i Ii G)). rewrite (scatter_at_notin (fst lr) _ 0 j) by (intros G; exact (DJ j G Ij)).
    unfold i at 1. rewrite (scatter_at_nth (fst lr) _ 0 0 k Nl Hk LM), EM.
    unfold j at 2. rewrite (scatter_at_nth (snd lr) (vmins vs lr) 0 0 k Nr ltac:(lia) ltac:(lia)), Em.
    rewrite Z.add_0_r, Z.add_0_l, !swrap_id by assumption. reflexivity.
Qed.
Lemma F2_both {A B} (R S : A -> B -> Prop) xs ys : Forall2 R xs ys -> Forall2 S xs ys -> Forall2 (fun a b => R a b /\ S a b) xs ys.
Proof. intros H. induction H; intros H2; inversion_clear H2; constructor; auto. Qed.
Lemma sort_step_ok n sc acc lr st xs vs : pow2_size n -> shares n sc xs vs -> xs <> [] -> index_ok (length vs) lr st -> close n vs ->
  yields (sort_step prf colo acc lr xs) (fun ys => shares n sc ys (vstep n acc lr vs)).
Proof.
  intros Hsz H Hne Hix Hc. assert (Hn8 : 8 <= n) by (destruct Hsz as (e & _ & G); exact G). assert (Hn : 0 < n) by lia.
  assert (HL := F2_length _ _ _ H). unfold sort_step. set (d := hd _ xs).
  assert (Hd : (exists v, arith n d v) /\ psc d = sc).
  { unfold d. destruct H as [|x v xs' vs' (A & B) _]; [congruence|]. cbn [hd]. split; [exists v; exact A|exact B]. }
  destruct Hd as ((dv & Hd) & Sd). assert (Fd : pfc d = FI n) by apply Hd. assert (Td : pty d = Arith) by (destruct Hd as (_ & E & _); exact E).
  destruct Hix as (HLlr & HPerm & _).
  assert (Bnd : forall i, In i (fst lr ++ snd lr) -> (i < length vs)%nat).
  { intros i Hi. apply (Permutation_in _ HPerm) in Hi. apply in_seq in Hi. lia. }
  eapply yb.
  { apply (mapM_map _ (fun ij => ij) (fun p ij => (arith n (fst p) (Z.min (nth (fst ij) vs 0) (nth (snd ij) vs 0)) /\ psc (fst p) = sc) /\
      (arith n (snd p) (Z.max (nth (fst ij) vs 0) (nth (snd ij) vs 0)) /\ psc (snd p) = sc))).
    intros (i, j) Hij. cbn [fst snd].
    assert (Hi : (i < length vs)%nat) by (apply Bnd, in_or_app; left; exact (in_combine_l _ _ _ _ Hij)).
    assert (Hj : (j < length vs)%nat) by (apply Bnd, in_or_app; right; exact (in_combine_r _ _ _ _ Hij)).
    destruct (F2_nth _ _ _ d 0 i H ltac:(lia)) as (Ai & Si). destruct (F2_nth _ _ _ d 0 j H ltac:(lia)) as (Aj & Sj).
    eapply y_weaken; [exact (cmp_swap_ok prf colo Hprf n _ _ _ _ Hsz Ai Aj ltac:(congruence) (Hc _ _ (nth_In vs 0 Hi) (nth_In vs 0 Hj)))|].
    intros p (A & B & C & D). exact (conj (conj A (eq_trans C Si)) (conj B (eq_trans D Si))). }
  intros ps Hps. rewrite map_id in Hps. cbv zeta. rewrite Fd, Td, Sd.
  set (zero := zeros_private sc Arith (FI n)).
  assert (Z0 : arith n zero 0 /\ psc zero = sc) by (split; [apply zero_arith, Hn|reflexivity]).
  assert (Hmin : shares n sc (map fst ps) (vmins vs lr)).
  { unfold shares, vmins. apply F2_map_l, F2_map_r. revert Hps. apply F2_impl. intros a b (A & _). exact A. }
  assert (Hmax : shares n sc (map snd ps) (vmaxs vs lr)).
  { unfold shares, vmaxs. apply F2_map_l, F2_map_r. revert Hps. apply F2_impl. intros a b (_ & A). exact A. }
  unfold vstep. rewrite <- HL. unfold shares.
  apply (mapM_map _ _ (fun x v => arith n x v /\ psc x = sc)). intros p _.
  destruct (scatter_rel _ (if acc then fst lr else snd lr) zero 0 p Z0 _ _ Hmin) as (A & B).
  destruct (scatter_rel _ (if acc then snd lr else fst lr) zero 0 p Z0 _ _ Hmax) as (C & D).
  eapply y_weaken; [exact (add_pp_ok colo n _ _ _ _ Hn A C)|]. intros z (Hz & Sz). split; [exact Hz|congruence].
Qed.
Lemma close_perm n vs ws : Permutation ws vs -> close n vs -> close n ws.
Proof. intros HP Hc u v Hu Hv. apply Hc; apply (Permutation_in _ HP); assumption. Qed.
Lemma sort_loop_ok n sc acc N : pow2_size n -> forall idxs steps, Forall2 (index_ok N) idxs steps -> forall xs vs,
  shares n sc xs vs -> xs <> [] -> length vs = N -> close n vs ->
  yields (sort_loop prf colo acc idxs xs) (fun ys => exists ws, shares n sc ys ws /\ Permutation ws vs /\
    runs N steps (fun i => sgn acc (nth i vs 0)) (fun i => sgn acc (nth i ws 0))).
Proof.
  intros Hsz idxs steps HI. assert (Hn8 : 8 <= n) by (destruct Hsz as (e & _ & G); exact G). assert (Hn : 0 < n) by lia.
  induction HI as [|lr (fl, w) idxs steps Hlr HI IH]; intros xs vs H Hne HN Hc; cbn [sort_loop].
  - apply y_ret. exists vs. split; [exact H|]. split; [reflexivity|constructor].
  - subst N. apply (yb _ _ _ _ (sort_step_ok n sc acc lr (fl, w) xs vs Hsz H Hne Hlr Hc)). intros ys Hys.
    assert (R : forall v, In v vs -> in_s n v).
    { intros v Hv. apply (In_nth _ _ 0) in Hv as (i & Hi & <-).
      exact (arith_range _ _ _ (proj1 (F2_nth _ _ _ (zeros_private sc Arith (FI n)) 0 i H ltac:(rewrite (F2_length _ _ _ H); exact Hi)))). }
    assert (ST := vstep_stepped n acc lr _ vs Hn Hlr R). assert (PM := stepped_perm acc lr _ vs _ Hlr ST).
    assert (EX := stepped_exchanged acc lr fl w vs _ Hlr ST).
    eapply y_weaken; [apply (IH ys _ Hys)|].
    + intros ->. apply F2_length in Hys. assert (L := F2_length _ _ _ H). destruct xs; [congruence|]. rewrite (Permutation_length PM) in Hys. cbn in *. lia.
    + exact (Permutation_length PM).
    + exact (close_perm n vs _ PM Hc).
    + intros zs (ws & A & B & C). exists ws. split; [exact A|]. split; [exact (Permutation_trans B PM)|]. econstructor; [exact EX|exact C].
Qed.
Lemma stages_le len : (len <= Nat.pow 2 (stages len))%nat.
Proof.
  unfold stages. destruct (Nat.le_gt_cases len 1) as [H|H].
  - assert (0 < Nat.pow 2 (Z.to_nat (Z.log2_up (Z.of_nat len))))%nat by (apply Nat.neq_0_lt_0, Nat.pow_nonzero; lia). lia.
  - destruct (Z.log2_up_spec (Z.of_nat len) ltac:(lia)) as (_ & U). apply Nat2Z.inj_le. rewrite Nat2Z.inj_pow. rewrite Z2Nat.id by apply Z.log2_up_nonneg. exact U.
Qed.
Lemma stages_pos len : (2 <= len)%nat -> exists m, stages len = S m.
Proof.
  intros H. unfold stages. assert (0 < Z.log2_up (Z.of_nat len)) by (apply Z.log2_up_pos; lia).
  exists (pred (Z.to_nat (Z.log2_up (Z.of_nat len)))). lia.
Qed.
Lemma sort_ok n sc acc xs vs : pow2_size n -> shares n sc xs vs -> (2 <= length xs)%nat ->
  let k := (Nat.pow 2 (stages (length xs)) - length xs)%nat in
  close n (vs ++ repeat (swrap n (pad_value n)) k) -> (k <> 0%nat -> forall v, In v vs -> v <= swrap n (pad_value n)) ->
  yields (sort_private prf colo acc xs) (fun ys => exists ws, shares n sc ys ws /\ Permutation ws vs /\
    StronglySorted (if acc then Z.le else Z.ge) ws).
Proof.
  intros Hsz H Hlen k Hc Hpad. assert (Hn8 : 8 <= n) by (destruct Hsz as (e & _ & G); exact G). assert (Hn : 0 < n) by lia.
  assert (HL := F2_length _ _ _ H). assert (HLE := stages_le (length xs)). destruct (stages_pos _ Hlen) as (m' & Em).
  unfold sort_private. destruct xs as [|x xs]; [cbn in Hlen; lia|]. set (l := x :: xs) in *.
  assert (Hx : (exists v, arith n x v) /\ psc x = sc).
  { unfold l in H. destruct vs as [|v vs]; [inversion H|]. inversion_clear H as [|? ? ? ? (A & B) _]. split; [exists v; exact A|exact B]. }
  destruct Hx as ((xv & Hx) & Sx). assert (Fx : pfc x = FI n) by apply Hx. assert (Tx : pty x = Arith) by (destruct Hx as (_ & E & _); exact E).
  rewrite Fx, Tx, Sx. cbn [fbits].
  apply (yb _ _ _ _ (const_ok colo (FI n) (pad_value n) false Hn)). intros q (Hq & _). cbv zeta. cbn [fcast] in Hq.
  set (P := swrap n (pad_value n)) in *. set (N := Nat.pow 2 (stages (length l))) in *. fold k.
  set (padx := set_scaled sc (to_private Arith q)). assert (Hp : arith n padx P /\ psc padx = sc) by (split; [apply to_private_ok, Hq|reflexivity]).
  assert (Hs : shares n sc (l ++ repeat padx k) (vs ++ repeat P k)).
  { unfold shares. apply Forall2_app; [exact H|]. clear - Hp. induction k; cbn; constructor; auto. }
  rewrite Em. assert (Lp : length (vs ++ repeat P k) = N) by (rewrite app_length, repeat_length; unfold k; lia).
  eapply yb; [apply (sort_loop_ok n sc acc N Hsz _ _ (eq_rect N (fun N => Forall2 (index_ok N) (bitonic_indices N (S m')) (flat_map stage (seq 0 (S m')))) (eq_rect_r (fun z => Forall2 (index_ok z) (bitonic_indices z (S m')) (flat_map stage (seq 0 (S m')))) (bitonic_indices_ok (S m')) (f_equal (Nat.pow 2) Em)) N eq_refl) _ _ Hs)|].
  - unfold l. discriminate.
  - exact Lp.
  - exact Hc.
  - intros ys (ws & A & B & C). apply y_ret.
    assert (INC : increasing (fun i => sgn acc (nth i ws 0)) N).
    { unfold N. rewrite Em. apply (network_sorts (S m') (fun i => sgn acc (nth i (vs ++ repeat P k) 0))). rewrite <- Em. fold N. rewrite Em. exact C. }
    assert (Lw : length ws = N) by (rewrite (Permutation_length B); exact Lp).
    assert (SS : StronglySorted (if acc then Z.le else Z.ge) ws).
    { apply sorted_nth. intros i j Hi Hj. specialize (INC i j ltac:(lia) ltac:(lia)). unfold sgn in INC. destruct acc; lia. }
    destruct (Nat.ltb_spec (length l) N) as [Hlt|Hge].
    + assert (Hk : k <> 0%nat) by (unfold k; lia). specialize (Hpad Hk). destruct acc.
      * exists (firstn (length l) ws). split; [apply F2_firstn, A|]. rewrite HL. split; [exact (drop_pads_up vs P Hpad k ws SS B)|apply strongly_firstn, SS].
      * exists (skipn k ws). split; [apply F2_skipn, A|]. split; [exact (drop_pads_down vs P Hpad k ws SS B)|apply strongly_skipn, SS].
    + assert (Hk : k = 0%nat) by (unfold k; lia). rewrite Hk in B. cbn [repeat] in B. rewrite app_nil_r in B. exists ws. auto.
Qed.
Lemma sort_one acc x : raises (sort_private prf colo acc [x]) ValueError.
Proof. intros s. destruct colo; reflexivity. Qed.
End NET.
