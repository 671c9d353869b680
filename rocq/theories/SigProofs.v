(** Proofs about ABY3's sigmoid. *)
From Coq Require Import Reals Lra Psatz QArith Qreals.
From Verif Require Import Base TensorModel TensorProofs Aby3Model Aby3Spec Aby3Proofs Aby3Bits Aby3Circ Aby3Cmp Aby3Trunc Aby3NetModel Aby3NetSpec Aby3Net FpModel FpSpec FpProofs FpLogSpec FpLogProofs SigReal SigModel SigSpec.
Local Open Scope Z_scope.

Lemma sigma_logistic x : sigma x = logistic x. Proof. unfold sigma, logistic, Rdiv. apply Rmult_1_l. Qed.

Lemma Rabs_def2_le x a : (Rabs x <= a)%R -> (- a <= x <= a)%R.
Proof. unfold Rabs. destruct (Rcase_abs x); lra. Qed.
Lemma pick {P : Q * Q -> Z -> Prop} n zs ps : Forall2 (fun z p => psc z = true /\ exists v, arith n z v /\ P p v) zs ps ->
  exists fv, shares n true zs fv /\ Forall2 P ps fv.
Proof.
  intros H. induction H as [|z p zs ps (S & v & A & B) H (fv & C & D)]; [exists []; split; constructor|].
  exists (v :: fv). split; constructor; auto.
Qed.

Lemma rounded_sign k X r : 0 <= k -> rounded k X r -> (0 <= X -> 0 <= r) /\ (X <= 0 -> r <= 0).
Proof.
  intros Hk [C Z]. pose proof (pow2_pos k Hk) as P. split; intros H.
  - pose proof (Z.div_pos X (2 ^ k) H P). lia.
  - pose proof (Z.div_mod X (2 ^ k) ltac:(lia)) as E. pose proof (Z.mod_pos_bound X (2 ^ k) P).
    destruct (Z.eq_dec (X mod 2 ^ k) 0) as [F|F]; [rewrite (Z F); nia|]. assert (X / 2 ^ k < 0) by nia. lia.
Qed.
Lemma rounded_near k X r : 0 <= k -> rounded k X r -> (Rabs (IZR r - IZR X / IZR (2 ^ k)) <= 1)%R.
Proof.
  intros Hk [C _]. pose proof (pow2_pos k Hk) as P. pose proof (Z.div_mod X (2 ^ k) ltac:(lia)) as E.
  pose proof (Z.mod_pos_bound X (2 ^ k) P) as B. set (K := 2 ^ k) in *. assert (L : (0 < IZR K)%R) by (apply IZR_lt; exact P).
  assert (H : - K <= r * K - X <= K) by nia. destruct H as [H1 H2]. apply IZR_le in H1, H2. rewrite opp_IZR, minus_IZR, mult_IZR in *.
  replace (IZR r - IZR X / IZR K)%R with ((IZR r * IZR K - IZR X) / IZR K)%R by (field; lra).
  apply Rabs_le. split; [apply Rmult_le_reg_r with (IZR K)|apply Rmult_le_reg_r with (IZR K)]; try exact L;
    unfold Rdiv; rewrite Rmult_assoc, Rinv_l by lra; lra.
Qed.

Section SIG.
Context (prf : fac -> key -> Z -> nat -> Z) (colo : bool) (Hprf : prf_words prf) (encode : Q -> Z).

Lemma mul_any n k x y u v : 1 < n -> 0 <= k -> k + k <= n - 2 ->
  arith n x u -> public (FI n) y v -> psc x = true -> qsc y = true ->
  yields (mul_pq prf colo k x y) (fun z => psc z = true /\ exists r, arith n z r /\ (fits n (u * v) -> rounded k (u * v) r)).
Proof.
  intros Hn Hk Hb Hx Hy Sx Sy.
  destruct (Z_le_dec (- 2 ^ (n - 2)) (u * v)) as [A|A]; [destruct (Z_lt_dec (u * v) (2 ^ (n - 2))) as [B|B]|].
  - eapply y_weaken; [apply (mul_pq_round prf colo Hprf n k x y u v Hn Hk Hb Hx Hy Sx Sy (conj A B))|].
    intros z (S & r & R & Z). split; [exact S|]. exists r. auto.
  - apply (y_weaken _ (fun z => psc z = true /\ exists r, arith n z r)); [|intros z (S & r & Z); split; [exact S|]; exists r; split; [exact Z|]; unfold fits; lia].
    unfold mul_pq. rewrite Sx, Sy. cbn [andb orb]. assert (Fx : pfc x = FI n) by apply Hx. rewrite Fx.
    eapply yb; [exact (mul_pq_raw_ok colo n x y u v _ ltac:(lia) Hx Hy)|]. intros z (Hz & Sz) s.
    destruct (heuristic_at prf colo Hprf n k k z _ s Hn Hk Hk ltac:(rewrite Sz; exact Hb) Hz) as (t & Et & St & Ht). exists t. split; [exact Et|]. split; [congruence|eauto].
  - apply (y_weaken _ (fun z => psc z = true /\ exists r, arith n z r)); [|intros z (S & r & Z); split; [exact S|]; exists r; split; [exact Z|]; unfold fits; lia].
    unfold mul_pq. rewrite Sx, Sy. cbn [andb orb]. assert (Fx : pfc x = FI n) by apply Hx. rewrite Fx.
    eapply yb; [exact (mul_pq_raw_ok colo n x y u v _ ltac:(lia) Hx Hy)|]. intros z (Hz & Sz) s.
    destruct (heuristic_at prf colo Hprf n k k z _ s Hn Hk Hk ltac:(rewrite Sz; exact Hb) Hz) as (t & Et & St & Ht). exists t. split; [exact Et|]. split; [congruence|eauto].
Qed.

(** What one polynomial of degree at most 1 yields. *)
Definition on_line (n k u : Z) (p : Q * Q) (v : Z) : Prop :=
  fits n (u * encode (snd p)) -> exists r, rounded k (u * encode (snd p)) r /\ v = swrap n (r + encode (fst p)).

Lemma multi_ok n k x u coeffs c0 c1 : 1 < n -> 0 <= k -> k + k <= n - 2 -> arith n x u -> psc x = true ->
  padded coeffs = [c0; c1] -> length c0 = length c1 -> (forall c, In c c0 \/ In c c1 -> in_s n (encode c)) ->
  yields (multi_polynomial prf colo encode k x coeffs)
    (fun zs => Forall2 (fun z p => psc z = true /\ exists v, arith n z v /\ on_line n k u p v) zs (combine c0 c1)).
Proof.
  intros Hn Hk Hb Hx Sx Ep HL Hin. assert (Fx : pfc x = FI n) by apply Hx. unfold multi_polynomial.
  apply y_assert; [exact (is_arith_of n x u Hx)|]. rewrite Ep. unfold pow. cbn [pow_loop].
  apply (yb _ (fun z => z = x)). { apply y_assert; [exact (is_arith_of n x u Hx)|]. apply y_ret. reflexivity. }
  intros ? ->.
  apply (yb _ (fun ts => Forall2 (fun z c => psc z = true /\ exists r, arith n z r /\ (fits n (u * encode c) -> rounded k (u * encode c) r)) ts c1)).
  { unfold terms. eapply y_weaken; [apply (mapM_map _ (fun c => c) (fun z c => psc z = true /\ exists r, arith n z r /\ (fits n (u * encode c) -> rounded k (u * encode c) r)))|intros ts; rewrite map_id; auto].
    intros c Hc. rewrite Fx. apply y_const. cbn [fcast]. rewrite swrap_id by (try lia; apply Hin; right; exact Hc).
    apply (mul_any n k x _ u _ Hn Hk Hb Hx (public_mk (FI n) true (encode c) (Hin c (or_intror Hc))) Sx eq_refl). }
  intros ts Hts. cbn [more_terms].
  apply (yb _ (fun zs => Forall2 (fun z p => psc z = true /\ exists v, arith n z v /\ on_line n k u p v) zs (combine c0 c1))); [|intros zs Hz; apply y_ret; exact Hz].
  clear Ep. revert c0 HL Hin. induction Hts as [|t c ts cs (St & r & At & Rt) Hts IH]; intros [|d ds] HL Hin; try discriminate HL.
  - cbn. apply y_ret. constructor.
  - cbn [combine mapM fst snd]. rewrite Fx.
    apply (yb _ (fun z => psc z = true /\ exists v, arith n z v /\ on_line n k u (d, c) v)).
    { apply y_const. cbn [fcast]. assert (Id : in_s n (encode d)) by (apply Hin; left; left; reflexivity). rewrite swrap_id by (try lia; exact Id).
      eapply y_weaken; [apply (add_pq_ok colo n t _ r (encode d)); [lia|exact At|apply (public_mk (FI n) true (encode d) Id)|rewrite St; reflexivity]|].
      intros z (Az & Sz). split; [congruence|]. eexists. split; [exact Az|]. intros F. exists r. split; [exact (Rt F)|reflexivity]. }
    intros z Hz. rewrite Fx in IH. eapply yb; [apply (IH ds); [cbn in HL; lia|]|].
    { intros c' [C|C]; apply Hin; [left; right; exact C|right; right; exact C]. }
    intros zs Hzs. apply y_ret. constructor; assumption.
Qed.

Lemma enc_range k q : 3 <= k -> encoder k encode -> (0 <= q <= 1)%Q -> 0 <= encode q <= 2 ^ k + 2 ^ k.
Proof.
  intros Hk (_ & _ & E) Hq. destruct (E q Hq) as [P B]. split; [exact P|]. apply Rabs_def2_le in B. destruct B as [_ B].
  assert (L : 2 ^ 3 <= 2 ^ k) by (apply Z.pow_le_mono_r; lia). apply IZR_le in L. change (2 ^ 3)%Z with 8 in L.
  destruct Hq as [_ Hq]. apply Qle_Rle in Hq. replace (Q2R 1) with 1%R in Hq by (unfold Q2R; cbn; lra).
  apply le_IZR. rewrite plus_IZR. nra.
Qed.
Lemma pow_double k : 0 <= k -> 2 ^ k = 2 * 2 ^ (k - 1) \/ k = 0.
Proof. intros H. destruct (Z.eq_dec k 0); [auto|left]. rewrite <- Z.pow_succ_r by lia. f_equal. lia. Qed.

Lemma piece_const n k u p v : 3 <= k -> k + k + 1 <= n - 2 -> encoder k encode -> (0 <= fst p <= 1)%Q -> snd p = (0 # 1)%Q -> on_line n k u p v ->
  v = encode (fst p) /\ (Rabs (real_of k v - Q2R (fst p)) <= 6 * ulp k + 0.0001)%R.
Proof.
  intros Hk Hb HE Hp Hs H. unfold on_line in H. rewrite Hs in H. pose proof (enc_range k _ Hk HE Hp) as R. destruct HE as (E0 & _ & E). rewrite E0, Z.mul_0_r in H.
  pose proof (pow2_pos (n - 2) ltac:(lia)). destruct H as (r & [_ Hr] & ->); [split; lia|].
  rewrite Z.mod_0_l, Z.div_0_l in Hr by (pose proof (pow2_pos k); lia). rewrite (Hr eq_refl), Z.add_0_l.
  assert (L : 2 ^ 3 <= 2 ^ k) by (apply Z.pow_le_mono_r; lia).
  assert (2 ^ k + 2 ^ k < 2 ^ (n - 1)). { replace (2 ^ k + 2 ^ k) with (2 ^ (k + 1)) by (rewrite Z.pow_add_r by lia; lia). apply Z.pow_lt_mono_r; lia. }
  rewrite swrap_id by (unfold in_s; lia). split; [reflexivity|]. destruct (E _ Hp) as [_ B]. unfold real_of, ulp.
  apply IZR_le in L. change (2 ^ 3)%Z with 8 in L. set (K := IZR (2 ^ k)) in *.
  replace (IZR (encode (fst p)) / K - Q2R (fst p))%R with ((IZR (encode (fst p)) - Q2R (fst p) * K) / K)%R by (field; lra).
  unfold Rdiv. rewrite Rabs_mult, (Rabs_right (/ K)) by (apply Rle_ge, Rlt_le, Rinv_0_lt_compat; lra).
  assert (I : (0 < / K)%R) by (apply Rinv_0_lt_compat; lra). assert (J : (K * / K = 1)%R) by (apply Rinv_r; lra). nra.
Qed.

Lemma piece_line n k u p v : 3 <= k -> k + k + 1 <= n - 2 -> encoder k encode -> (0 <= fst p <= 1)%Q -> (0 <= snd p <= 212 # 1000)%Q -> Z.abs u <= 8 * 2 ^ (k - 1) -> on_line n k u p v ->
  (Rabs (real_of k v - (Q2R (fst p) + Q2R (snd p) * real_of k u)) <= 6 * ulp k + 0.0001)%R /\ (0 <= u -> encode (fst p) <= v) /\ (u <= 0 -> v <= encode (fst p)).
Proof.
  intros Hk Hb HE Hp Hs Hu H. pose proof (enc_range k _ Hk HE Hp) as R. destruct HE as (_ & _ & E).
  assert (Hs1 : (0 <= snd p <= 1)%Q). { destruct Hs as [A B]. split; [exact A|]. apply (Qle_trans _ _ _ B). discriminate. }
  destruct (E _ Hp) as [_ B0]. destruct (E _ Hs1) as [P1 B1]. unfold on_line in H. set (e0 := encode (fst p)) in *. set (e1 := encode (snd p)) in *.
  assert (L : 2 ^ 3 <= 2 ^ k) by (apply Z.pow_le_mono_r; lia). pose proof L as LZ. apply IZR_le in L. change (2 ^ 3)%Z with 8 in *.
  assert (W : 2 ^ k = 2 * 2 ^ (k - 1)) by (destruct (pow_double k); lia).
  destruct Hs as [S0 S1]. apply Qle_Rle in S0, S1. replace (Q2R 0) with 0%R in S0 by (unfold Q2R; cbn; lra). replace (Q2R (212 # 1000)) with 0.212%R in S1 by (unfold Q2R; cbn; lra).
  assert (E1 : 2 * e1 < 2 ^ k). { apply lt_IZR. rewrite mult_IZR. apply Rabs_def2_le in B1. nra. }
  assert (N2 : 2 * 2 ^ k * 2 ^ k <= 2 ^ (n - 2)). { replace (2 * 2 ^ k * 2 ^ k) with (2 ^ (k + k + 1)) by (rewrite !Z.pow_add_r by lia; lia). apply Z.pow_le_mono_r; lia. }
  assert (N1 : 2 ^ (n - 1) = 2 * 2 ^ (n - 2)). { rewrite <- Z.pow_succ_r by lia. f_equal. lia. }
  assert (F : - 2 ^ (n - 2) < u * e1 < 2 ^ (n - 2)) by nia.
  destruct H as (r & Hr & ->); [split; lia|].
  assert (Rb : Z.abs r <= 2 * 2 ^ k + 1).
  { destruct Hr as [C _]. assert (- (2 * 2 ^ k) <= u * e1 / 2 ^ k <= 2 * 2 ^ k); [|lia]. split; [apply Z.div_le_lower_bound; nia|apply Z.div_le_upper_bound; nia]. }
  rewrite swrap_id by (unfold in_s; nia). destruct (rounded_sign k _ r ltac:(lia) Hr) as [G1 G2].
  split; [|split; intros; [assert (0 <= r) by (apply G1; nia)|assert (r <= 0) by (apply G2; nia)]; lia].
  pose proof (rounded_near k _ r ltac:(lia) Hr) as D. rewrite mult_IZR in D. unfold real_of, ulp. rewrite plus_IZR.
  assert (U : (Rabs (IZR u / IZR (2 ^ k)) <= 4)%R).
  { apply Rabs_le.
    assert (V : - (4 * 2 ^ k) <= u <= 4 * 2 ^ k) by lia. destruct V as [V1 V2]. apply IZR_le in V1, V2. rewrite opp_IZR, mult_IZR in *.
    split; apply Rmult_le_reg_r with (IZR (2 ^ k)); try lra; unfold Rdiv; rewrite Rmult_assoc, Rinv_l by lra; lra. }
  set (K := IZR (2 ^ k)) in *. set (x := (IZR u / K)%R) in *.
  assert (I : (0 < / K)%R) by (apply Rinv_0_lt_compat; lra). assert (J : (K * / K = 1)%R) by (apply Rinv_r; lra).
  assert (T : (IZR (r + e0) / K - (Q2R (fst p) + Q2R (snd p) * x) =
     ((IZR r - IZR u * IZR e1 / K) + (IZR e0 - Q2R (fst p) * K) + (IZR e1 - Q2R (snd p) * K) * x) * / K)%R).
  { rewrite plus_IZR. unfold x. field. lra. }
  rewrite <- plus_IZR, T. rewrite Rabs_mult, (Rabs_right (/ K)) by lra.
  assert (Q : (Rabs (IZR r - IZR u * IZR e1 / K + (IZR e0 - Q2R (fst p) * K) + (IZR e1 - Q2R (snd p) * K) * x) <= 6 + 5 * (K / 2 ^ 24))%R).
  { eapply Rle_trans; [apply Rabs_triang|]. eapply Rle_trans; [apply Rplus_le_compat_r, Rabs_triang|]. rewrite Rabs_mult.
    pose proof (Rabs_pos x). pose proof (Rabs_pos (IZR e1 - Q2R (snd p) * K)). nra. }
  nra.
Qed.

Lemma breaks_eq k h : 1 <= k -> Z.quot (h * 2 ^ k) 2 = h * 2 ^ (k - 1).
Proof. intros H. replace (2 ^ k) with (2 ^ (k - 1) * 2) by (destruct (pow_double k); lia). rewrite Z.mul_assoc. apply Z.quot_mul. lia. Qed.
Lemma real_of_le k a b : 0 <= k -> a <= b -> (real_of k a <= real_of k b)%R.
Proof. intros Hk H. apply IZR_le in H. unfold real_of. pose proof (IZR_lt _ _ (pow2_pos k Hk)). apply Rmult_le_compat_r; [apply Rlt_le, Rinv_0_lt_compat; lra|exact H]. Qed.
Lemma real_half k h : 1 <= k -> real_of k (h * 2 ^ (k - 1)) = (IZR h / 2)%R.
Proof.
  intros H. unfold real_of. rewrite mult_IZR. replace (2 ^ k) with (2 * 2 ^ (k - 1)) by (destruct (pow_double k); lia). rewrite mult_IZR.
  pose proof (IZR_lt _ _ (pow2_pos (k - 1) ltac:(lia))). field. lra.
Qed.
Lemma enc_side k q : 3 <= k -> encoder k encode -> (0 <= q <= 1)%Q -> ((Q2R q <= 0.281)%R -> encode q <= 2 ^ (k - 1)) /\ ((0.719 <= Q2R q)%R -> 2 ^ (k - 1) <= encode q).
Proof.
  intros Hk (_ & _ & E) Hq. destruct (E q Hq) as [_ B]. apply Rabs_def2_le in B.
  assert (L : 2 ^ 3 <= 2 ^ k) by (apply Z.pow_le_mono_r; lia). apply IZR_le in L. change (2 ^ 3)%Z with 8 in L.
  assert (W : 2 ^ k = 2 * 2 ^ (k - 1)) by (destruct (pow_double k); lia). apply (f_equal IZR) in W. rewrite mult_IZR in W.
  split; intros H; apply le_IZR; nra.
Qed.

(** The value and the side of one half. *)
Definition good (k : Z) (w : R) (u v : Z) : Prop :=
  (Rabs (real_of k v - logistic (real_of k u)) <= w + 6 * ulp k)%R /\ (0 <= u -> 2 ^ (k - 1) <= v) /\ (u <= 0 -> v <= 2 ^ (k - 1)).
Lemma good_of k w w' u v l : (Rabs (real_of k v - l) <= 6 * ulp k + 0.0001)%R -> (Rabs (l - logistic (real_of k u)) <= w')%R -> (w' + 0.0001 <= w)%R ->
  (0 <= u -> 2 ^ (k - 1) <= v) -> (u <= 0 -> v <= 2 ^ (k - 1)) -> good k w u v.
Proof.
  intros A B C D E. split; [|split; assumption]. replace (real_of k v - logistic (real_of k u))%R with ((real_of k v - l) + (l - logistic (real_of k u)))%R by ring.
  eapply Rle_trans; [apply Rabs_triang|]. lra.
Qed.

Ltac q_range := (split; discriminate).
Ltac q2r := unfold Q2R; cbn; lra.
Ltac sides H := first [exact (proj1 H ltac:(unfold Q2R; cbn; lra)) | exact (proj2 H ltac:(unfold Q2R; cbn; lra))].

Lemma five_pieces n k x u : pow2_size n -> 3 <= k -> k + k + 1 <= n - 2 -> encoder k encode -> arith n x u -> psc x = true -> - 2 ^ (n - 2) <= u <= 2 ^ (n - 2) ->
  yields (sigmoid prf colo encode k Five x) (fun z => psc z = true /\ exists v, arith n z v /\ good k 0.042 u v).
Proof.
  intros Hsz Hk Hb HE Hx Sx Hu. unfold sigmoid.
  assert (L : 2 ^ 3 <= 2 ^ k) by (apply Z.pow_le_mono_r; lia). change (2 ^ 3)%Z with 8 in L.
  assert (W : 2 ^ k = 2 * 2 ^ (k - 1)) by (destruct (pow_double k); lia).
  assert (N1 : 2 ^ (n - 1) = 2 * 2 ^ (n - 2)). { rewrite <- Z.pow_succ_r by lia. f_equal. lia. }
  assert (N2 : 2 * 2 ^ k * 2 ^ k <= 2 ^ (n - 2)). { replace (2 * 2 ^ k * 2 ^ k) with (2 ^ (k + k + 1)) by (rewrite !Z.pow_add_r by lia; lia). apply Z.pow_le_mono_r; lia. }
  eapply yb.
  { apply (multi_ok n k x u (lines Five) _ _ ltac:(lia) ltac:(lia) ltac:(lia) Hx Sx eq_refl eq_refl).
    intros c Hc. assert (Hq : (0 <= c <= 1)%Q) by (cbn in Hc; repeat (destruct Hc as [Hc|Hc]; [try subst c; try q_range|]); try contradiction; repeat (destruct Hc as [Hc|Hc]; [subst c; q_range|]); contradiction).
    pose proof (enc_range k c Hk HE Hq). unfold in_s. nia. }
  intros fs Hfs. destruct (pick n fs _ Hfs) as (fv & Hsh & Hfv). clear Hfs. cbn in Hfv.
  inversion Hfv as [|? v0 ? ? P0 Hv0]; subst. inversion Hv0 as [|? v1 ? ? P1 Hv1]; subst. inversion Hv1 as [|? v2 ? ? P2 Hv2]; subst.
  inversion Hv2 as [|? v3 ? ? P3 Hv3]; subst. inversion Hv3 as [|? v4 ? ? P4 Hv4]; subst. inversion Hv4; subst. clear Hfv Hv0 Hv1 Hv2 Hv3 Hv4.
  assert (HL : length fs = 5%nat) by (unfold shares in Hsh; do 5 (destruct fs as [|? fs]; [inversion Hsh|inversion Hsh as [|? ? ? ? ? Hsh']; subst; clear Hsh; rename Hsh' into Hsh]); inversion Hsh; reflexivity).
  set (w := 2 ^ (k - 1)) in *.
  assert (Hbr : map (fun h => Z.quot (h * 2 ^ k) 2) (breaks Five) = [-8 * w; -3 * w; 3 * w; 8 * w]) by (cbn [breaks map]; rewrite !breaks_eq by lia; reflexivity).
  rewrite Hbr.
  assert (J : exists j, (j <= 4)%nat /\ (forall i, (i < j)%nat -> nth i [-8 * w; -3 * w; 3 * w; 8 * w] 0 < u) /\
    (forall i, (j <= i < 4)%nat -> u <= nth i [-8 * w; -3 * w; 3 * w; 8 * w] 0) /\ good k 0.042 u (nth j [v0; v1; v2; v3; v4] 0)).
  { assert (Hw : 4 <= w) by lia.
    assert (HU : forall (a : Z) b h, u <= h * w -> (IZR h / 2 = b)%R -> (real_of k u <= b)%R) by (intros a b h Hh <-; rewrite <- (real_half k h ltac:(lia)); apply real_of_le; [lia|exact Hh]).
    assert (HG : forall (a : Z) b h, h * w <= u -> (IZR h / 2 = b)%R -> (b <= real_of k u)%R) by (intros a b h Hh <-; rewrite <- (real_half k h ltac:(lia)); apply real_of_le; [lia|exact Hh]).
    destruct (Z_le_dec u (-8 * w)) as [C0|C0]; [exists 0%nat|destruct (Z_le_dec u (-3 * w)) as [C1|C1]; [exists 1%nat|destruct (Z_le_dec u (3 * w)) as [C2|C2]; [exists 2%nat|destruct (Z_le_dec u (8 * w)) as [C3|C3]; [exists 3%nat|exists 4%nat]]]];
      (split; [lia|split; [intros i Hi; do 4 (destruct i as [|i]; [cbn [nth]; lia|]); lia|split; [intros i Hi; do 4 (destruct i as [|i]; [cbn [nth]; lia|]); lia|cbn [nth]]]]).
    - destruct (piece_const n k u (1 # 10000, 0 # 1)%Q v0 Hk Hb HE ltac:(q_range) eq_refl P0) as [E A]. cbn [fst] in *.
      pose proof (enc_side k (1 # 10000) Hk HE ltac:(q_range)) as SD.
      eapply (good_of k _ 0.0419 u v0 _ A); [replace (Q2R (1 # 10000)) with 0.0001%R by q2r; apply five_first, (HU 0 _ (-8)); [exact C0|lra]|lra|lia|].
      intros _. rewrite E. sides SD.
    - destruct (piece_line n k u (281 # 1000, 66 # 1000)%Q v1 Hk Hb HE ltac:(q_range) ltac:(q_range) ltac:(lia) P1) as (A & _ & B). cbn [fst snd] in *.
      pose proof (enc_side k (281 # 1000) Hk HE ltac:(q_range)) as SD.
      eapply (good_of k _ 0.0419 u v1 _ A); [replace (Q2R (281 # 1000)) with 0.281%R by q2r; replace (Q2R (66 # 1000)) with 0.066%R by q2r; apply five_left; split; [apply (HG 0 _ (-8)); [lia|lra]|apply (HU 0 _ (-3)); [lia|lra]]|lra|lia|].
      intros Hu0. apply (Z.le_trans _ _ _ (B Hu0)). sides SD.
    - destruct (piece_line n k u (5 # 10, 212 # 1000)%Q v2 Hk Hb HE ltac:(q_range) ltac:(q_range) ltac:(lia) P2) as (A & B & B'). cbn [fst snd] in *.
      assert (EH : encode (5 # 10) = w) by (apply HE; reflexivity).
      eapply (good_of k _ 0.0419 u v2 _ A); [replace (Q2R (5 # 10)) with 0.5%R by q2r; replace (Q2R (212 # 1000)) with 0.212%R by q2r; apply five_line; split; [apply (HG 0 _ (-3)); [lia|lra]|apply (HU 0 _ 3); [lia|lra]]|lra| |]; fold w; rewrite <- EH; assumption.
    - destruct (piece_line n k u (719 # 1000, 66 # 1000)%Q v3 Hk Hb HE ltac:(q_range) ltac:(q_range) ltac:(lia) P3) as (A & B & _). cbn [fst snd] in *.
      pose proof (enc_side k (719 # 1000) Hk HE ltac:(q_range)) as SD.
      eapply (good_of k _ 0.0419 u v3 _ A); [replace (Q2R (719 # 1000)) with 0.719%R by q2r; replace (Q2R (66 # 1000)) with 0.066%R by q2r; apply five_side; split; [apply (HG 0 _ 3); [lia|lra]|apply (HU 0 _ 8); [lia|lra]]|lra| |lia].
      intros Hu0. apply Z.le_trans with (2 := B Hu0). sides SD.
    - destruct (piece_const n k u (9999 # 10000, 0 # 1)%Q v4 Hk Hb HE ltac:(q_range) eq_refl P4) as [E A]. cbn [fst] in *.
      pose proof (enc_side k (9999 # 10000) Hk HE ltac:(q_range)) as SD.
      eapply (good_of k _ 0.0419 u v4 _ A); [replace (Q2R (9999 # 10000)) with (1 - 0.0001)%R by q2r; apply five_end, (HG 0 _ 8); [lia|lra]|lra| |lia].
      intros _. rewrite E. sides SD. }
  destruct J as (j & Hj & Jl & Jh & G).
  eapply y_weaken; [apply (piecewise_ok prf colo Hprf n true x u [-8 * w; -3 * w; 3 * w; 8 * w] fs _ j Hsz Hx Hsh HL)|].
  - intros ck Hc. cbn [In] in Hc. assert (-8 * w <= ck <= 8 * w) by lia. unfold in_s. nia.
  - exact Hj.
  - exact Jl.
  - exact Jh.
  - intros z (Az & Sz). split; [exact Sz|]. eexists. split; [exact Az|exact G].
Qed.
Lemma three_pieces n k x u : pow2_size n -> 3 <= k -> k + k + 1 <= n - 2 -> encoder k encode -> arith n x u -> psc x = true -> - 2 ^ (n - 2) <= u <= 2 ^ (n - 2) ->
  yields (sigmoid prf colo encode k Three x) (fun z => psc z = true /\ exists v, arith n z v /\ good k 0.077 u v).
Proof.
  intros Hsz Hk Hb HE Hx Sx Hu. unfold sigmoid.
  assert (L : 2 ^ 3 <= 2 ^ k) by (apply Z.pow_le_mono_r; lia). change (2 ^ 3)%Z with 8 in L.
  assert (W : 2 ^ k = 2 * 2 ^ (k - 1)) by (destruct (pow_double k); lia).
  assert (N1 : 2 ^ (n - 1) = 2 * 2 ^ (n - 2)). { rewrite <- Z.pow_succ_r by lia. f_equal. lia. }
  assert (N2 : 2 * 2 ^ k * 2 ^ k <= 2 ^ (n - 2)). { replace (2 * 2 ^ k * 2 ^ k) with (2 ^ (k + k + 1)) by (rewrite !Z.pow_add_r by lia; lia). apply Z.pow_le_mono_r; lia. }
  eapply yb.
  { apply (multi_ok n k x u (lines Three) _ _ ltac:(lia) ltac:(lia) ltac:(lia) Hx Sx eq_refl eq_refl).
    intros c Hc. assert (Hq : (0 <= c <= 1)%Q) by (cbn in Hc; repeat (destruct Hc as [Hc|Hc]; [try subst c; try q_range|]); try contradiction; repeat (destruct Hc as [Hc|Hc]; [subst c; q_range|]); contradiction).
    pose proof (enc_range k c Hk HE Hq). unfold in_s. nia. }
  intros fs Hfs. destruct (pick n fs _ Hfs) as (fv & Hsh & Hfv). clear Hfs. cbn in Hfv.
  inversion Hfv as [|? v0 ? ? P0 Hv0]; subst. inversion Hv0 as [|? v1 ? ? P1 Hv1]; subst. inversion Hv1 as [|? v2 ? ? P2 Hv2]; subst.
  inversion Hv2; subst. clear Hfv Hv0 Hv1 Hv2.
  assert (HL : length fs = 3%nat) by (unfold shares in Hsh; do 3 (destruct fs as [|? fs]; [inversion Hsh|inversion Hsh as [|? ? ? ? ? Hsh']; subst; clear Hsh; rename Hsh' into Hsh]); inversion Hsh; reflexivity).
  set (w := 2 ^ (k - 1)) in *.
  assert (Hbr : map (fun h => Z.quot (h * 2 ^ k) 2) (breaks Three) = [-5 * w; 5 * w]) by (cbn [breaks map]; rewrite !breaks_eq by lia; reflexivity).
  rewrite Hbr.
  assert (J : exists j, (j <= 2)%nat /\ (forall i, (i < j)%nat -> nth i [-5 * w; 5 * w] 0 < u) /\
    (forall i, (j <= i < 2)%nat -> u <= nth i [-5 * w; 5 * w] 0) /\ good k 0.077 u (nth j [v0; v1; v2] 0)).
  { assert (Hw : 4 <= w) by lia.
    assert (HU : forall (a : Z) b h, u <= h * w -> (IZR h / 2 = b)%R -> (real_of k u <= b)%R) by (intros a b h Hh <-; rewrite <- (real_half k h ltac:(lia)); apply real_of_le; [lia|exact Hh]).
    assert (HG : forall (a : Z) b h, h * w <= u -> (IZR h / 2 = b)%R -> (b <= real_of k u)%R) by (intros a b h Hh <-; rewrite <- (real_half k h ltac:(lia)); apply real_of_le; [lia|exact Hh]).
    destruct (Z_le_dec u (-5 * w)) as [C0|C0]; [exists 0%nat|destruct (Z_le_dec u (5 * w)) as [C1|C1]; [exists 1%nat|exists 2%nat]];
      (split; [lia|split; [intros i Hi; do 2 (destruct i as [|i]; [cbn [nth]; lia|]); lia|split; [intros i Hi; do 2 (destruct i as [|i]; [cbn [nth]; lia|]); lia|cbn [nth]]]]).
    - destruct (piece_const n k u (1 # 10000, 0 # 1)%Q v0 Hk Hb HE ltac:(q_range) eq_refl P0) as [E A]. cbn [fst] in *.
      pose proof (enc_side k (1 # 10000) Hk HE ltac:(q_range)) as SD.
      eapply (good_of k _ 0.0769 u v0 _ A); [replace (Q2R (1 # 10000)) with 0.0001%R by q2r; apply three_first, (HU 0 _ (-5)); [exact C0|lra]|lra|lia|].
      intros _. rewrite E. sides SD.
    - destruct (piece_line n k u (50 # 100, 17 # 100)%Q v1 Hk Hb HE ltac:(q_range) ltac:(q_range) ltac:(lia) P1) as (A & B & B'). cbn [fst snd] in *.
      assert (EH : encode (50 # 100) = w) by (apply HE; reflexivity).
      eapply (good_of k _ 0.0769 u v1 _ A); [replace (Q2R (50 # 100)) with 0.5%R by q2r; replace (Q2R (17 # 100)) with 0.17%R by q2r; apply three_line; split; [apply (HG 0 _ (-5)); [lia|lra]|apply (HU 0 _ 5); [lia|lra]]|lra| |]; fold w; rewrite <- EH; assumption.
    - destruct (piece_const n k u (9999 # 10000, 0 # 1)%Q v2 Hk Hb HE ltac:(q_range) eq_refl P2) as [E A]. cbn [fst] in *.
      pose proof (enc_side k (9999 # 10000) Hk HE ltac:(q_range)) as SD.
      eapply (good_of k _ 0.0769 u v2 _ A); [replace (Q2R (9999 # 10000)) with (1 - 0.0001)%R by q2r; apply three_end, (HG 0 _ 5); [lia|lra]|lra| |lia].
      intros _. rewrite E. sides SD. }
  destruct J as (j & Hj & Jl & Jh & G).
  eapply y_weaken; [apply (piecewise_ok prf colo Hprf n true x u [-5 * w; 5 * w] fs _ j Hsz Hx Hsh HL)|].
  - intros ck Hc. cbn [In] in Hc. assert (-5 * w <= ck <= 5 * w) by lia. unfold in_s. nia.
  - exact Hj.
  - exact Jl.
  - exact Jh.
  - intros z (Az & Sz). split; [exact Sz|]. eexists. split; [exact Az|exact G].
Qed.

Lemma sigmoid_ok n k a x u : pow2_size n -> 3 <= k -> k + k + 1 <= n - 2 -> encoder k encode -> a <> Unknown -> arith n x u -> psc x = true -> - 2 ^ (n - 2) <= u <= 2 ^ (n - 2) ->
  yields (sigmoid prf colo encode k a x) (fun z => psc z = true /\ exists v, arith n z v /\ good k (worst a) u v).
Proof. intros. destruct a; [apply three_pieces|apply five_pieces|congruence]; assumption. Qed.
End SIG.
