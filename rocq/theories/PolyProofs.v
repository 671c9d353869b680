(** Proofs about ABY3's polynomials. *)
From Coq Require Import Reals Lra Psatz QArith Qreals Qround.
From Verif Require Import Base TensorModel TensorProofs Aby3Model Aby3Spec Aby3Proofs Aby3Bits Aby3Circ Aby3Cmp Aby3Trunc Aby3NetModel Aby3NetSpec Aby3Net FpModel FpSpec FpProofs FpLogSpec FpLogProofs SigModel SigProofs PolyModel PolySpec PolyReal.
Local Open Scope Z_scope.

Lemma real_add k a b : real_of k (a + b) = (real_of k a + real_of k b)%R.
Proof. unfold real_of. rewrite plus_IZR. unfold Rdiv. ring. Qed.
Lemma whole_of_some c z : whole_of c = Some z -> Q2R c = IZR z.
Proof.
  unfold whole_of. destruct (Qeq_bool _ _) eqn:E; [|discriminate]. intros [= <-]. apply Qeq_bool_eq, Qeq_eqR in E. rewrite E. unfold Q2R. cbn. field.
Qed.
Lemma whole_of_none c : whole_of c = None -> whole c = false.
Proof.
  unfold whole_of, whole. destruct (Qeq_bool c (inject_Z (int_of c))) eqn:E; [discriminate|]. intros _. destruct (Qeq_bool c (inject_Z (Qfloor c))) eqn:F; [|reflexivity].
  assert (G : int_of c = Qfloor c).
  { apply Qeq_bool_eq in F. unfold Qeq, inject_Z in F. cbn [Qnum Qden] in F. rewrite Z.mul_1_r in F. unfold int_of. rewrite F. apply Z.quot_mul. discriminate. }
  congruence.
Qed.
Lemma whole_of_whole c z : whole_of c = Some z -> whole c = true.
Proof.
  unfold whole_of. destruct (Qeq_bool c (inject_Z (int_of c))) eqn:E; [|discriminate]. intros _. apply Qeq_bool_eq in E. unfold whole.
  apply Qeq_eq_bool. rewrite (Qfloor_comp _ _ E) at 1. rewrite Qfloor_Z. exact E.
Qed.
Lemma half_of_some c e : half_of c = Some e -> 0 <= e /\ Q2R c = ulp e.
Proof.
  unfold half_of. cbv zeta. destruct (_ && _) eqn:E; [|discriminate]. intros H. assert (H1 : e = Z.log2 (Z.pos (Qden (Qred c)))) by congruence. subst e. clear H. apply andb_prop in E. destruct E as [A B]. apply Z.eqb_eq in A, B.
  split; [apply Z.log2_nonneg|]. rewrite <- (Qeq_eqR _ _ (Qred_correct c)). unfold Q2R, ulp. rewrite <- B, A. ring.
Qed.

Section POLY.
Context (prf : fac -> key -> Z -> nat -> Z) (colo : bool) (Hprf : prf_words prf) (encode : Q -> Z).
Context (n k u : Z) (B d : R) (Hn : 1 < n) (Hk : 0 <= k) (Hb : k + k <= n - 2) (HB : (1 <= B)%R) (Hd : (0 <= d)%R).
Context (Hu : (Rabs (real_of k u) <= B)%R).
Notation X := (real_of k u).
Notation C := (B + ulp k)%R.
Notation K := (IZR (2 ^ k)).

Lemma K_pos : (1 <= K)%R. Proof. apply IZR_le. pose proof (Z.pow_pos_nonneg 2 k). lia. Qed.
Lemma C_ge1 : (1 <= C)%R. Proof. pose proof (ulp_pos k Hk). lra. Qed.
Lemma real_K v : IZR v = (real_of k v * K)%R. Proof. unfold real_of. pose proof K_pos. field. lra. Qed.
Lemma fits_of v w m : (Rabs (real_of k v * real_of k w) < m)%R -> roomy n k m -> fits n (v * w).
Proof.
  intros H R. unfold roomy in R. pose proof K_pos as P. assert (G : (Rabs (IZR (v * w)) < IZR (2 ^ (n - 2)))%R).
  { rewrite mult_IZR, (real_K v), (real_K w). replace (real_of k v * K * (real_of k w * K))%R with (K * K * (real_of k v * real_of k w))%R by ring.
    rewrite Rabs_mult, (Rabs_pos_eq (K * K)) by nra. eapply Rlt_le_trans; [|exact R]. apply Rmult_lt_compat_l; [nra|exact H]. }
  rewrite <- abs_IZR in G. apply lt_IZR in G. unfold fits. lia.
Qed.
Lemma small_of v m : (Rabs (real_of k v) <= m)%R -> roomy n k m -> in_s n v.
Proof.
  intros H R. unfold roomy in R. pose proof K_pos as P. assert (0 <= m)%R by (pose proof (Rabs_pos (real_of k v)); lra).
  assert (G : (Rabs (IZR v) <= IZR (2 ^ (n - 2)))%R).
  { rewrite (real_K v), Rabs_mult, (Rabs_pos_eq K) by lra. eapply Rle_trans; [|exact R].
    apply Rle_trans with (m * K)%R; [apply Rmult_le_compat_r; lra|]. assert (0 <= m * K)%R by nra. nra. }
  rewrite <- abs_IZR in G. apply le_IZR in G. unfold in_s.
  assert (E1 : 2 ^ (n - 1) = 2 * 2 ^ (n - 2)) by (rewrite (pow2_half (n - 1)) by lia; do 2 f_equal; lia).
  pose proof (pow2_pos (n - 2) ltac:(lia)). lia.
Qed.
Lemma rounded_real v w r : rounded k (v * w) r -> (Rabs (real_of k r - real_of k v * real_of k w) <= ulp k)%R.
Proof.
  intros R. pose proof (rounded_near k _ r Hk R) as G. pose proof K_pos as P. rewrite mult_IZR in G.
  replace (real_of k r - real_of k v * real_of k w)%R with ((IZR r - IZR v * IZR w / K) * / K)%R by (unfold real_of; field; lra).
  rewrite Rabs_mult, (Rabs_pos_eq (/ K)) by (apply Rlt_le, Rinv_0_lt_compat; lra). unfold ulp.
  assert (0 < / K)%R by (apply Rinv_0_lt_compat; lra). nra.
Qed.

(** * Powers *)
Lemma mul_pp_any x y a b : arith n x a -> arith n y b -> psc x = true -> psc y = true ->
  yields (mul_pp prf colo k x y) (fun z => psc z = true /\ exists r, arith n z r /\ (fits n (a * b) -> rounded k (a * b) r)).
Proof.
  intros Hx Hy Sx Sy.
  assert (D : fits n (a * b) \/ ~ fits n (a * b)) by (unfold fits; lia). destruct D as [D|D].
  - eapply y_weaken; [apply (mul_round prf colo Hprf n k x y a b Hn Hk Hb Hx Hy Sx Sy D)|].
    intros z (S & r & R & Z). split; [exact S|]. exists r. auto.
  - unfold mul_pp. rewrite Sx, Sy. cbn [andb].
    eapply yb; [exact (mul_raw_ok prf colo Hprf n x y a b ltac:(lia) Hx Hy)|]. intros z (Hz & Sz) s. rewrite Sx, Sy in Sz. cbn in Sz.
    destruct (heuristic_at prf colo Hprf n k k z _ s Hn Hk Hk ltac:(rewrite Sz; exact Hb) Hz) as (t & Et & St & Ht). exists t. split; [exact Et|].
    split; [congruence|]. eexists. split; [exact Ht|]. intros F. contradiction.
Qed.
(** A private value near the [m]-th power, if powers up to [E] fit. *)
Definition near (E m : nat) (z : priv) : Prop :=
  psc z = true /\ exists v, arith n z v /\ (roomy n k (C ^ E) -> (Rabs (real_of k v - X ^ m) <= power_err k B m)%R).
Lemma mul_near E a b x y : (1 <= a)%nat -> (1 <= b)%nat -> (a + b <= E)%nat -> near E a x -> near E b y ->
  yields (mul_pp prf colo k x y) (near E (a + b)).
Proof.
  intros Ha Hb' HE (Sx & v & Ax & Nx) (Sy & w & Ay & Ny).
  eapply y_weaken; [exact (mul_pp_any x y v w Ax Ay Sx Sy)|]. intros z (Sz & r & Az & Rz). split; [exact Sz|]. exists r. split; [exact Az|].
  intros R. specialize (Nx R). specialize (Ny R). unfold power_err in *. pose proof (ulp_pos k Hk) as [U U1].
  pose proof (pow_abs_le _ _ a Hu) as Pa. pose proof (pow_abs_le _ _ b Hu) as Pb.
  pose proof (pow_geC C a C_ge1 Ha) as Ca. pose proof (pow_geC C b C_ge1 Hb') as Cb.
  assert (F : fits n (v * w)).
  { apply (fits_of v w (C ^ E)); [|exact R]. eapply Rlt_le_trans with (C ^ (a + b))%R; [|apply Rle_pow; [exact C_ge1|exact HE]].
    rewrite Rabs_mult, pow_add. pose proof (size_err _ _ _ _ _ Pa Nx). pose proof (size_err _ _ _ _ _ Pb Ny).
    pose proof (Rabs_pos (real_of k v)). pose proof (Rabs_pos (real_of k w)).
    apply Rle_lt_trans with ((C ^ a - ulp k) * (C ^ b - ulp k))%R; [apply Rmult_le_compat; assumption|].
    set (p := (C ^ a)%R) in *. set (q := (C ^ b)%R) in *. assert (0 < ulp k * (p + q - ulp k))%R by (apply Rmult_lt_0_compat; lra). lra. }
  rewrite !pow_add. apply (prod_err (real_of k v) (real_of k w)); try assumption; try lra. apply rounded_real, Rz, F.
Qed.
Lemma pow_loop_near E : forall p res tmp t r, (1 <= t)%nat -> near E t tmp ->
  match res with None => r = 0%nat | Some x => (1 <= r)%nat /\ near E r x end -> (r + t * Pos.to_nat p <= E)%nat ->
  yields (pow_loop prf colo k p res tmp) (near E (r + t * Pos.to_nat p)).
Proof.
  assert (TIMES : forall res tmp t r, (1 <= t)%nat -> near E t tmp ->
    match res with None => r = 0%nat | Some x => (1 <= r)%nat /\ near E r x end -> (r + t <= E)%nat ->
    yields (match res with None => ret tmp | Some x => mul_pp prf colo k x tmp end) (near E (r + t))).
  { intros [x|] tmp t r Ht Nt Hr HE.
    - destruct Hr as (R1 & Nr). apply mul_near; assumption.
    - subst r. apply y_ret. exact Nt. }
  induction p as [p IH|p IH|]; intros res tmp t r Ht Nt Hr HE; cbn [pow_loop].
  - rewrite Pos2Nat.inj_xI in *. pose proof (Pos2Nat.is_pos p) as PP.
    apply (yb _ (near E (r + t))); [apply TIMES; [exact Ht|exact Nt|exact Hr|nia]|]. intros x Nx.
    apply (yb _ (near E (t + t))); [apply mul_near; [exact Ht|exact Ht|nia|exact Nt|exact Nt]|]. intros y Ny.
    replace (r + t * S (2 * Pos.to_nat p))%nat with ((r + t) + (t + t) * Pos.to_nat p)%nat by lia.
    apply IH; [lia|exact Ny|split; [lia|exact Nx]|lia].
  - rewrite Pos2Nat.inj_xO in *. pose proof (Pos2Nat.is_pos p) as PP.
    apply (yb _ (near E (t + t))); [apply mul_near; [exact Ht|exact Ht|nia|exact Nt|exact Nt]|]. intros y Ny.
    replace (r + t * (2 * Pos.to_nat p))%nat with (r + (t + t) * Pos.to_nat p)%nat by lia.
    apply IH; [lia|exact Ny|exact Hr|lia].
  - change (Pos.to_nat 1) with 1%nat in *. rewrite Nat.mul_1_r in *. apply TIMES; assumption.
Qed.
Lemma pow_near x i : arith n x u -> psc x = true -> 0 < i -> yields (pow prf colo k x i) (near (Z.to_nat i) (Z.to_nat i)).
Proof.
  intros Hx Sx Hi. unfold pow. apply y_assert; [exact (is_arith_of n x u Hx)|]. destruct i as [|p|p]; try lia.
  replace (near (Z.to_nat (Z.pos p)) (Z.to_nat (Z.pos p))) with (near (Z.to_nat (Z.pos p)) (0 + 1 * Pos.to_nat p)) by (f_equal; cbn; lia).
  apply pow_loop_near; [lia| |reflexivity|cbn; lia]. split; [exact Sx|]. exists u. split; [exact Hx|]. intros _.
  unfold power_err. rewrite !pow_1, Rminus_diag_eq, Rabs_R0 by reflexivity. lra.
Qed.

(** * Terms *)
Lemma enc_room c m : (1 <= m)%R -> (Rabs (real_of k (encode c) - Q2R c) <= d)%R -> roomy n k ((Rabs (Q2R c) + d + 1) * m) -> in_s n (encode c).
Proof.
  intros Hm He R. apply (small_of _ ((Rabs (Q2R c) + d + 1) * m)); [|exact R]. pose proof (Rabs_pos (Q2R c)).
  replace (real_of k (encode c)) with (Q2R c + (real_of k (encode c) - Q2R c))%R by ring. eapply Rle_trans; [apply Rabs_triang|]. nra.
Qed.
Lemma coeff_near i z c : (1 <= i)%nat -> near i i z -> (Rabs (real_of k (encode c) - Q2R c) <= d)%R ->
  yields (do q <- const colo (pfc z) (encode c) true; mul_pq prf colo k z q) (fun t => psc t = true /\ exists v, arith n t v /\
    (roomy n k ((Rabs (Q2R c) + d + 1) * C ^ i) -> (Rabs (real_of k v - Q2R c * X ^ i) <= Rabs (Q2R c) * power_err k B i + d * C ^ i + ulp k)%R) /\
    (encode c = 0 -> v = 0)).
Proof.
  intros Hi (Sz & a & Az & Nz) He. assert (Fz : pfc z = FI n) by apply Az. rewrite Fz.
  apply (yb _ _ _ _ (const_ok colo (FI n) (encode c) true ltac:(cbn; lia))). intros q (Hq & Sq). cbn [fcast] in Hq.
  eapply y_weaken; [exact (mul_any prf colo Hprf n k z q a _ Hn Hk Hb Az Hq Sz Sq)|]. intros t (St & r & At & Rt).
  split; [exact St|]. exists r. split; [exact At|]. pose proof (ulp_pos k Hk) as [U U1]. pose proof (pow_ge1 C i C_ge1) as G. pose proof (Rabs_pos (Q2R c)) as C0.
  split.
  - intros R. rewrite (swrap_id n (encode c) ltac:(lia) (enc_room c _ G He R)) in Rt.
    assert (R1 : roomy n k (C ^ i)) by (eapply roomy_le; [|exact R]; nra). specialize (Nz R1). unfold power_err in *.
    pose proof (pow_abs_le _ _ i Hu) as P. pose proof (size_err _ _ _ _ _ P Nz) as S.
    assert (F : fits n (a * encode c)).
    { apply (fits_of _ _ _) with (2 := R). rewrite Rabs_mult.
      assert (S2 : (Rabs (real_of k (encode c)) <= Rabs (Q2R c) + d)%R).
      { replace (real_of k (encode c)) with (Q2R c + (real_of k (encode c) - Q2R c))%R by ring. eapply Rle_trans; [apply Rabs_triang|]. lra. }
      pose proof (Rabs_pos (real_of k a)). pose proof (Rabs_pos (real_of k (encode c))).
      apply Rle_lt_trans with (C ^ i * (Rabs (Q2R c) + d))%R; [apply Rmult_le_compat; lra|]. lra. }
    apply (scale_err (real_of k a) (real_of k (encode c))); try assumption; try lra. apply rounded_real, Rt, F.
  - intros E0. rewrite E0 in Rt. rewrite (swrap_id n 0) in Rt by (try lia; unfold in_s; pose proof (pow2_pos (n - 1)); lia).
    rewrite Z.mul_0_r in Rt. pose proof (pow2_pos (n - 2)). pose proof (pow2_pos k). assert (F : fits n 0) by (unfold fits; lia). destruct (Rt F) as [_ Q].
    rewrite Q by (apply Z.mod_0_l; lia). apply Z.div_0_l. lia.
Qed.
Lemma term_near x i c : arith n x u -> psc x = true -> (1 <= i)%nat -> Qeq_bool c 0 = false -> (Rabs (real_of k (encode c) - Q2R c) <= d)%R ->
  (forall e, 0 <= e -> Q2R c = ulp e -> k + e <= n - 2) -> roomy n k ((Rabs (Q2R c) + d + 1) * C ^ i) ->
  yields (term prf colo encode k x (Z.of_nat i) c) (fun t => psc t = true /\ exists v, arith n t v /\
    (Rabs (real_of k v - Q2R c * X ^ i) <= term_err whole d k B i c)%R).
Proof.
  intros Hx Sx Hi Hc He Hh R. unfold term. pose proof (ulp_pos k Hk) as [U U1]. pose proof (pow_ge1 C i C_ge1) as G. pose proof (Rabs_pos (Q2R c)) as C0.
  assert (R1 : roomy n k (C ^ i)) by (eapply roomy_le; [|exact R]; nra).
  pose proof (pow_near x (Z.of_nat i) Hx Sx ltac:(lia)) as PN. rewrite Nat2Z.id in PN. assert (Fx : pfc x = FI n) by apply Hx.
  unfold term_err. rewrite Hc. pose proof (pow_abs_le _ _ i Hu) as P.
  destruct (whole_of c) as [z|] eqn:W.
  - rewrite (whole_of_whole c z W). apply whole_of_some in W. rewrite Fx.
    apply (yb _ _ _ _ (const_ok colo (FI n) z false ltac:(cbn; lia))). intros q (Hq & Sq). cbn [fcast] in Hq.
    apply (yb _ _ _ _ PN). intros xi (Sxi & a & Ai & Ni). specialize (Ni R1). unfold power_err in *. pose proof (size_err _ _ _ _ _ P Ni) as S.
    eapply y_weaken; [exact (mul_pq_unscaled_ok prf colo n k xi q a _ ltac:(lia) Ai Hq ltac:(rewrite Sq; apply andb_false_r))|].
    intros t (At & St). rewrite Sxi in St. cbn in St. split; [exact St|]. eexists. split; [exact At|].
    assert (E : (Rabs (real_of k (a * z)) <= (Rabs (Q2R c) + d + 1) * C ^ i)%R).
    { unfold real_of at 1. rewrite mult_IZR, <- W. replace (IZR a * Q2R c / K)%R with (real_of k a * Q2R c)%R by (unfold real_of, Rdiv; ring).
      rewrite Rabs_mult. assert (Rabs (real_of k a) * Rabs (Q2R c) <= C ^ i * Rabs (Q2R c))%R by (apply Rmult_le_compat_r; lra). nra. }
    assert (Z1 : in_s n z).
    { apply (small_of z (Rabs (Q2R c) + d + 1)); [|eapply roomy_le; [|exact R]; nra]. unfold real_of. rewrite <- W. unfold Rdiv. rewrite Rabs_mult.
      pose proof K_pos. rewrite (Rabs_pos_eq (/ K)) by (apply Rlt_le, Rinv_0_lt_compat; lra). fold (ulp k). nra. }
    rewrite (swrap_id n z) by (try lia; exact Z1). rewrite swrap_id by (try lia; exact (small_of _ _ E R)).
    unfold real_of at 1. rewrite mult_IZR, <- W. replace (IZR a * Q2R c / K - Q2R c * X ^ i)%R with (Q2R c * (real_of k a - X ^ i))%R by (unfold real_of at 1, Rdiv; ring).
    rewrite Rabs_mult, Rplus_0_r. apply Rmult_le_compat_l; [exact C0|exact Ni].
  - rewrite (whole_of_none c W). apply (yb _ _ _ _ PN). intros xi Nxi. destruct (half_of c) as [e|] eqn:H2.
    + apply half_of_some in H2. destruct H2 as [E0 E]. destruct Nxi as (Sxi & a & Ai & Ni). specialize (Ni R1). unfold power_err in *. pose proof (size_err _ _ _ _ _ P Ni) as S.
      assert (F : fits n a).
      { rewrite <- (Z.mul_1_r a). apply (fits_of a 1 (C ^ i)); [|exact R1]. unfold real_of at 2. rewrite Rabs_mult. replace (1 / K)%R with (ulp k) by (unfold ulp, Rdiv; ring).
        rewrite (Rabs_pos_eq (ulp k)) by lra. pose proof (Rabs_pos (real_of k a)). nra. }
      eapply y_weaken; [exact (trunc_round prf colo Hprf n k e xi a Hn Hk E0 (Hh e E0 E) Ai Sxi F)|].
      intros t (St & r & Rr & At). split; [exact St|]. exists r. split; [exact At|]. rewrite Rplus_assoc || idtac.
      pose proof (rounded_near e a r E0 Rr) as N. fold (Rdiv (IZR a) (IZR (2 ^ e))) in N.
      assert (N2 : (Rabs (real_of k r - real_of k a * Q2R c) <= ulp k)%R).
      { pose proof K_pos. replace (real_of k r - real_of k a * Q2R c)%R with ((IZR r - IZR a / IZR (2 ^ e)) * ulp k)%R by (rewrite E; unfold real_of, ulp, Rdiv; ring).
        rewrite Rabs_mult, (Rabs_pos_eq (ulp k)) by lra. nra. }
      pose proof (scale_err (real_of k a) (Q2R c) (real_of k r) _ _ _ (Q2R c) d (ulp k) P Ni ltac:(lra) ltac:(rewrite Rminus_diag_eq, Rabs_R0 by reflexivity; exact Hd) N2). lra.
    + assert (Sxi : psc xi = true) by apply Nxi. unfold lifted. rewrite Sxi. eapply y_weaken; [exact (coeff_near i xi c Hi Nxi He)|].
      intros t (St & v & At & Nt & _). split; [exact St|]. exists v. split; [exact At|]. specialize (Nt R). lra.
Qed.
Lemma add_room a b ma mb : (Rabs (real_of k a) <= ma)%R -> (Rabs (real_of k b) <= mb)%R -> roomy n k (ma + mb) -> swrap n (a + b) = a + b.
Proof.
  intros Ha Hb' R. apply swrap_id; [lia|]. apply (small_of _ (ma + mb)); [|exact R]. rewrite real_add. eapply Rle_trans; [apply Rabs_triang|]. lra.
Qed.
Lemma gap_add a b p q ea eb : (Rabs (real_of k a - p) <= ea)%R -> (Rabs (real_of k b - q) <= eb)%R -> (Rabs (real_of k (a + b) - (p + q)) <= ea + eb)%R.
Proof.
  intros Ha Hb'. rewrite real_add. replace (real_of k a + real_of k b - (p + q))%R with ((real_of k a - p) + (real_of k b - q))%R by ring.
  eapply Rle_trans; [apply Rabs_triang|]. lra.
Qed.
Lemma term_bound v i c ex : (1 <= i)%nat -> Qeq_bool c 0 = false -> (Rabs (real_of k v - Q2R c * X ^ i) <= term_err ex d k B i c)%R ->
  (Rabs (real_of k v) <= (Rabs (Q2R c) + d + 1) * C ^ i)%R.
Proof.
  intros Hi Hc H. eapply Rle_trans; [|exact (term_size d k B i c ex Hk HB Hi Hd Hc)].
  replace (real_of k v) with (Q2R c * X ^ i + (real_of k v - Q2R c * X ^ i))%R by ring. eapply Rle_trans; [apply Rabs_triang|].
  rewrite Rabs_mult. pose proof (pow_abs_le _ _ i Hu). pose proof (Rabs_pos (Q2R c)). nra.
Qed.
Lemma zero_real c : Qeq_bool c 0 = true -> Q2R c = 0%R.
Proof. intros H. apply Qeq_bool_eq, Qeq_eqR in H. rewrite H. apply RMicromega.Q2R_0. Qed.
Lemma sum_near x : arith n x u -> psc x = true -> forall cs i t v T e m, (1 <= i)%nat -> holds n t v ->
  (Rabs (real_of k v - T) <= e)%R -> (Rabs (real_of k v) <= m)%R -> roomy n k (m + mass d k B i cs) ->
  (forall c, In c cs -> (Rabs (real_of k (encode c) - Q2R c) <= d)%R) -> (forall c e, In c cs -> 0 <= e -> Q2R c = ulp e -> k + e <= n - 2) ->
  yields (sum_terms prf colo encode k x (Z.of_nat i) cs t)
    (fun z => exists r, holds n z r /\ (Rabs (real_of k r - (T + X ^ i * value_at cs X)) <= e + terms_err whole d k B i cs)%R).
Proof.
  intros Hx Sx cs. induction cs as [|c cs IH]; intros i t v T e m Hi Ht HT Hm R He Hh; cbn [sum_terms value_at fold_right terms_err].
  - apply y_ret. exists v. split; [exact Ht|]. rewrite Rmult_0_r, !Rplus_0_r. exact HT.
  - fold (value_at cs X). cbn [mass] in R. replace (Z.of_nat i + 1) with (Z.of_nat (S i)) by lia.
    assert (Em : (0 <= mass d k B (S i) cs)%R) by (apply mass_nonneg; assumption).
    change (Qeq_bool c (0 # 1)) with (Qeq_bool c 0). unfold term_err at 1. destruct (Qeq_bool c 0) eqn:Z0.
    + rewrite Rplus_0_l in R. eapply y_weaken; [apply (IH (S i) t v T e m); try assumption; [lia|intros; apply He; right; assumption|intros c' e' I; apply Hh; right; exact I]|].
      intros z (r & Hr & G). exists r. split; [exact Hr|]. rewrite (zero_real c Z0). rewrite <- tech_pow_Rmult in G.
      replace (T + X ^ i * (0 + X * value_at cs X))%R with (T + X * X ^ i * value_at cs X)%R by ring. lra.
    + apply (yb _ _ _ _ (term_near x i c Hx Sx Hi Z0 (He c (or_introl eq_refl)) (fun e' => Hh c e' (or_introl eq_refl))
        ltac:(eapply roomy_le; [|exact R]; pose proof (Rabs_pos (real_of k v)); lra))). intros w (Sw & b & Ab & Nb).
      pose proof (term_bound b i c whole Hi Z0 Nb) as Bb.
      assert (Esum : swrap n (v + b) = v + b) by (apply (add_room v b _ _ Hm Bb); eapply roomy_le; [|exact R]; lra).
      assert (Iv : in_s n v) by (apply (small_of v _ Hm); eapply roomy_le; [|exact R]; pose proof (Rabs_pos (real_of k b)); lra).
      apply (yb _ (fun r => arith n r (v + b) /\ psc r = true)).
      { destruct t as [q|r0].
        - destruct Ht as (T0 & T1 & T2 & T3). rewrite <- Esum. eapply y_weaken; [exact (add_qp_vals colo n q w b v ltac:(lia) Ab T0 T2 Iv ltac:(congruence))|].
          intros r (Hr & Sr). split; [exact Hr|congruence].
        - destruct Ht as (Hr0 & Sr0). rewrite <- Esum. eapply y_weaken; [exact (add_pp_ok colo n r0 w v b ltac:(lia) Hr0 Ab)|].
          intros r (Hr & Sr). split; [exact Hr|congruence]. }
      intros r1 Hr1. eapply y_weaken; [apply (IH (S i) (TPriv r1) (v + b) (T + Q2R c * X ^ i)%R (e + term_err whole d k B i c)%R (m + (Rabs (Q2R c) + d + 1) * C ^ i)%R)|].
      * lia.
      * exact Hr1.
      * apply gap_add; assumption.
      * rewrite real_add. eapply Rle_trans; [apply Rabs_triang|]. lra.
      * rewrite Rplus_assoc. exact R.
      * intros c' I. apply He. right. exact I.
      * intros c' e' I. apply Hh. right. exact I.
      * intros z (r & Hr & G). exists r. split; [exact Hr|]. unfold term_err at 1 in G. rewrite Z0 in G. rewrite <- tech_pow_Rmult in G.
        replace (T + X ^ i * (Q2R c + X * value_at cs X))%R with (T + Q2R c * X ^ i + X * X ^ i * value_at cs X)%R by ring. lra.
Qed.
Lemma poly_near x c cs : colo = true -> arith n x u -> psc x = true -> roomy n k (Rabs (Q2R c) + d + mass d k B 1 cs) ->
  (forall a, In a (c :: cs) -> (Rabs (real_of k (encode a) - Q2R a) <= d)%R) -> (forall c e, In c cs -> 0 <= e -> Q2R c = ulp e -> k + e <= n - 2) ->
  yields (poly prf colo encode k x (c :: cs))
    (fun z => exists r, holds n z r /\ (Rabs (real_of k r - value_at (c :: cs) X) <= d + terms_err whole d k B 1 cs)%R).
Proof.
  intros Hc Hx Sx R He Hh. unfold poly. apply y_assert; [exact (is_arith_of n x u Hx)|]. assert (Fx : pfc x = FI n) by apply Hx. unfold lifted. rewrite Fx, Sx.
  assert (N0 : 0 < n) by lia. apply (yb _ _ _ _ (const_ok colo (FI n) 0 true N0)). intros z0 (Hz0 & Sz0).
  apply (yb _ _ _ _ (const_ok colo (FI n) (encode c) true N0)). intros c0 (Hc0 & Sc0).
  apply (yb _ _ _ _ (y_conj _ _ _ (pub_add_ok colo n z0 c0 _ _ N0 Hz0 Hc0 ltac:(congruence) Hc) (pub_add_sc colo z0 c0 Hc ltac:(congruence)))).
  intros r ((R0 & R1 & R2) & R3). pose proof (He c (or_introl eq_refl)) as Ec.
  assert (Bc : (Rabs (real_of k (encode c)) <= Rabs (Q2R c) + d)%R).
  { replace (real_of k (encode c)) with (Q2R c + (real_of k (encode c) - Q2R c))%R by ring. eapply Rle_trans; [apply Rabs_triang|]. lra. }
  assert (Em : (0 <= mass d k B 1 cs)%R) by (apply mass_nonneg; assumption).
  assert (Ic : in_s n (encode c)) by (apply (small_of _ _ Bc); eapply roomy_le; [|exact R]; lra).
  assert (E : swrap n (fcast (FI n) 0 + fcast (FI n) (encode c)) = encode c).
  { rewrite <- (swrap_id n (encode c) N0 Ic) at 2. apply eqm_swrap_eq; [exact N0|]. cbn [fcast]. rewrite !swrap_eqm by exact N0. reflexivity. }
  rewrite E in R0, R1, R2. eapply y_weaken; [apply (sum_near x Hx Sx cs 1%nat (TPub r) (encode c) (Q2R c) d (Rabs (Q2R c) + d)%R)|].
  - lia.
  - cbn [holds]. repeat (split; [assumption|]). congruence.
  - exact Ec.
  - exact Bc.
  - exact R.
  - intros a I. apply He. right. exact I.
  - exact Hh.
  - intros z (v & Hv & G). exists v. split; [exact Hv|]. rewrite pow_1 in G. exact G.
Qed.

(** * Pieces *)
Definition rough (_ : Q) : bool := false.
(** A private value near the terms of degree below [i] of the polynomial [cs]. *)
Definition upto (i : nat) (z : priv) (cs : list Q) : Prop := psc z = true /\ exists v, arith n z v /\
  (roomy n k (whole_mass d k B cs) -> exists T e m, (Rabs (real_of k v - T) <= e)%R /\ (Rabs (real_of k v) <= m)%R /\
    value_at cs X = (T + X ^ i * value_at (skipn i cs) X)%R /\
    whole_err rough d k B cs = (e + terms_err rough d k B i (skipn i cs))%R /\
    whole_mass d k B cs = (m + mass d k B i (skipn i cs))%R).
(** A private value near the term of degree [i]. *)
Definition piece_term (i : nat) (t : priv) (cs : list Q) : Prop := psc t = true /\ exists v, arith n t v /\
  let c := nth i cs (0 # 1) in
  (roomy n k ((Rabs (Q2R c) + d + 1) * C ^ i) -> (Rabs (real_of k v - Q2R c * X ^ i) <= Rabs (Q2R c) * power_err k B i + d * C ^ i + ulp k)%R) /\
  (Qeq_bool c 0 = true -> v = 0).
Lemma skipn_nth (i : nat) (cs : list Q) : skipn i cs = [] /\ nth i cs (0 # 1) = (0 # 1) /\ skipn (S i) cs = [] \/ skipn i cs = nth i cs (0 # 1) :: skipn (S i) cs.
Proof.
  revert cs. induction i as [|i IH]; intros [|c cs]; try (left; repeat split; reflexivity); [right; reflexivity|].
  destruct (IH cs) as [(A & B0 & C0)|E]; [left|right]; cbn [skipn nth]; auto.
Qed.
Lemma coeff_error cs i : encodes d k encode cs -> (Rabs (real_of k (encode (nth i cs (0 # 1))) - Q2R (nth i cs (0 # 1))) <= d)%R.
Proof.
  intros [E0 E]. destruct (nth_in_or_default i cs (0 # 1)) as [I|I]; [apply E, I|]. rewrite I, (E0 (0 # 1) ltac:(reflexivity)).
  unfold real_of, Q2R, Rdiv. cbn. rewrite !Rmult_0_l, Rminus_0_r, Rabs_R0. exact Hd.
Qed.
Lemma terms_near x i z coeffs : (1 <= i)%nat -> arith n x u -> near i i z -> Forall (encodes d k encode) coeffs ->
  yields (terms prf colo encode k z (map (fun c => nth i c (0 # 1)) coeffs)) (fun ts => Forall2 (piece_term i) ts coeffs).
Proof.
  intros Hi Hx Nz HE. unfold terms. induction HE as [|cs coeffs E HE IH]; cbn [map mapM].
  - apply y_ret. constructor.
  - eapply yb; [exact (coeff_near i z _ Hi Nz (coeff_error cs i E))|]. intros t (St & v & At & Nt & Zt).
    eapply yb; [exact IH|]. intros ts Hts. apply y_ret. constructor; [|exact Hts]. split; [exact St|]. exists v. split; [exact At|].
    cbv zeta. split; [exact Nt|]. intros Z0. apply Zt. destruct E as [E0 _]. apply E0, Qeq_bool_eq, Z0.
Qed.
(** Adding the next term. *)
Lemma upto_add i v cs a b : (1 <= i)%nat -> in_s n a -> arith n v (swrap n (a + b)) -> psc v = true ->
  (roomy n k (whole_mass d k B cs) -> exists T e m, (Rabs (real_of k a - T) <= e)%R /\ (Rabs (real_of k a) <= m)%R /\
    value_at cs X = (T + X ^ i * value_at (skipn i cs) X)%R /\
    whole_err rough d k B cs = (e + terms_err rough d k B i (skipn i cs))%R /\
    whole_mass d k B cs = (m + mass d k B i (skipn i cs))%R) ->
  (let c := nth i cs (0 # 1) in
    (roomy n k ((Rabs (Q2R c) + d + 1) * C ^ i) -> (Rabs (real_of k b - Q2R c * X ^ i) <= Rabs (Q2R c) * power_err k B i + d * C ^ i + ulp k)%R) /\
    (Qeq_bool c 0 = true -> b = 0)) -> upto (S i) v cs.
Proof.
  intros Hi Ia Av Sv Hz Ht. cbv zeta in Ht. destruct Ht as [Nt Zt]. split; [exact Sv|]. eexists. split; [exact Av|]. intros R.
  destruct (Hz R) as (T & e & m & HT & Hm & V & E & M). assert (N0 : 0 < n) by lia.
  destruct (skipn_nth i cs) as [(S0 & NZ & S1)|S0].
  - rewrite NZ in Zt. rewrite (Zt eq_refl), Z.add_0_r, (swrap_id n a N0 Ia). exists T, e, m. rewrite S1. rewrite S0 in V, E, M. cbn [value_at fold_right terms_err mass] in *.
    repeat (split; [assumption|]). repeat split; [rewrite V; ring|exact E|exact M].
  - set (c := nth i cs (0 # 1)) in *. rewrite S0 in V, E, M. cbn [value_at fold_right terms_err mass] in V, E, M. fold (value_at (skipn (S i) cs) X) in V.
    assert (Em : (0 <= mass d k B (S i) (skipn (S i) cs))%R) by (apply mass_nonneg; assumption).
    unfold term_err in E. destruct (Qeq_bool c 0) eqn:Z0.
    + rewrite (Zt eq_refl), Z.add_0_r, (swrap_id n a N0 Ia). exists T, e, m. rewrite (zero_real c Z0) in V. rewrite <- tech_pow_Rmult.
      repeat (split; [assumption|]). repeat split; [rewrite V; ring|rewrite E; ring|rewrite M; ring].
    + rewrite M in R.
      assert (Nb : (Rabs (real_of k b - Q2R c * X ^ i) <= term_err rough d k B i c)%R).
      { unfold term_err. rewrite Z0. cbn [rough]. rewrite <- Rplus_assoc. apply Nt. eapply roomy_le; [|exact R]. pose proof (Rabs_pos (real_of k a)). lra. }
      pose proof (term_bound b i c rough Hi Z0 Nb) as Bb.
      rewrite (add_room a b _ _ Hm Bb ltac:(eapply roomy_le; [|exact R]; lra)).
      exists (T + Q2R c * X ^ i)%R, (e + term_err rough d k B i c)%R, (m + (Rabs (Q2R c) + d + 1) * C ^ i)%R.
      split; [apply gap_add; assumption|]. split; [rewrite real_add; eapply Rle_trans; [apply Rabs_triang|]; lra|].
      rewrite <- tech_pow_Rmult. repeat split; [rewrite V; ring|rewrite E; unfold term_err; rewrite Z0; ring|rewrite M; ring].
Qed.
Lemma add_upto i : (1 <= i)%nat -> forall zs ts coeffs, Forall2 (upto i) zs coeffs -> Forall2 (piece_term i) ts coeffs ->
  yields (mapM (fun p => add_pp colo (fst p) (snd p)) (combine zs ts)) (fun rs => Forall2 (upto (S i)) rs coeffs).
Proof.
  intros Hi zs ts coeffs Hz. revert ts. induction Hz as [|z cs zs coeffs (Sz & a & Az & Nz) Hz IH]; intros ts Ht; inversion Ht as [|t ? ts' ? (St & b & At & Nt) Ht']; subst; cbn [combine mapM fst snd].
  - apply y_ret. constructor.
  - eapply yb; [exact (add_pp_ok colo n z t a b ltac:(lia) Az At)|]. intros v (Av & Sv).
    eapply yb; [exact (IH ts' Ht')|]. intros rs Hrs. apply y_ret. constructor; [|exact Hrs].
    apply (upto_add i v cs a b Hi (arith_range _ _ _ Az) Av ltac:(congruence) Nz Nt).
Qed.
Lemma more_near x coeffs : arith n x u -> psc x = true -> Forall (encodes d k encode) coeffs -> forall m i zs, (1 <= i)%nat -> Forall2 (upto i) zs coeffs ->
  yields (more_terms prf colo encode k x (Z.of_nat i) (map (fun i => map (fun c => nth i c (0 # 1)) coeffs) (seq i m)) zs) (fun rs => Forall2 (upto (i + m)) rs coeffs).
Proof.
  intros Hx Sx HE m. induction m as [|m IH]; intros i zs Hi Hz; cbn [seq map more_terms].
  - apply y_ret. rewrite Nat.add_0_r. exact Hz.
  - pose proof (pow_near x (Z.of_nat i) Hx Sx ltac:(lia)) as PN. rewrite Nat2Z.id in PN. apply (yb _ _ _ _ PN). intros xi Nxi.
    apply (yb _ _ _ _ (terms_near x i xi coeffs Hi Hx Nxi HE)). intros ts Hts.
    apply (yb _ _ _ _ (add_upto i Hi zs ts coeffs Hz Hts)). intros rs Hrs.
    replace (Z.of_nat i + 1) with (Z.of_nat (S i)) by lia. replace (i + S m)%nat with (S i + m)%nat by lia. apply IH; [lia|exact Hrs].
Qed.
(** The constants and the terms of degree 1. *)
Lemma first_upto x : arith n x u -> forall ts coeffs, Forall (encodes d k encode) coeffs -> Forall2 (piece_term 1) ts coeffs ->
  yields (mapM (fun p => do q <- const colo (pfc x) (encode (snd p)) true; add_pq colo (fst p) q) (combine ts (map (fun c => nth 0 c (0 # 1)) coeffs)))
    (fun rs => Forall2 (upto 2) rs coeffs).
Proof.
  intros Hx ts coeffs HE Ht. assert (Fx : pfc x = FI n) by apply Hx. revert HE. induction Ht as [|t cs ts coeffs (St & b & At & Nt) Ht IH]; intros HE; cbn [combine map mapM fst snd].
  - apply y_ret. constructor.
  - inversion HE as [|? ? E HE']; subst. rewrite Fx in IH |- *. assert (N0 : 0 < n) by lia.
    apply (yb _ (fun v => arith n v (swrap n (b + swrap n (encode (nth 0 cs (0 # 1))))) /\ psc v = true)).
    { apply (yb _ _ _ _ (const_ok colo (FI n) (encode (nth 0 cs (0 # 1))) true N0)). intros q (Hq & Sq). cbn [fcast] in Hq.
      eapply y_weaken; [exact (add_pq_ok colo n t q b _ N0 At Hq ltac:(congruence))|]. intros v (Av & Sv). split; [exact Av|congruence]. }
    intros v (Av & Sv). eapply yb; [exact (IH HE')|]. intros rs Hrs. apply y_ret. constructor; [|exact Hrs].
    destruct cs as [|c cs'].
    + split; [exact Sv|]. eexists. split; [exact Av|]. intros R. destruct Nt as [_ Zt]. rewrite (Zt eq_refl). cbn [nth]. destruct E as [E0 _]. rewrite (E0 (0 # 1) ltac:(reflexivity)).
      assert (I0 : in_s n 0) by (unfold in_s; pose proof (pow2_pos (n - 1)); lia). rewrite (swrap_id n 0 N0 I0), Z.add_0_r, (swrap_id n 0 N0 I0).
      exists 0%R, 0%R, 0%R. cbn. unfold real_of, Rdiv. rewrite Rmult_0_l, Rminus_0_r, Rabs_R0. repeat split; try lra.
    + cbn [nth] in Av. rewrite Z.add_comm in Av. apply (upto_add 1 v (c :: cs') _ b (le_n _) (swrap_range n _ N0) Av Sv); [|exact Nt].
      cbn [whole_mass]. intros R. assert (Em : (0 <= mass d k B 1 cs')%R) by (apply mass_nonneg; assumption). destruct E as [_ E]. specialize (E c (or_introl eq_refl)).
      assert (Bc : (Rabs (real_of k (encode c)) <= Rabs (Q2R c) + d)%R).
      { replace (real_of k (encode c)) with (Q2R c + (real_of k (encode c) - Q2R c))%R by ring. eapply Rle_trans; [apply Rabs_triang|]. lra. }
      assert (Ic : in_s n (encode c)) by (apply (small_of _ _ Bc); eapply roomy_le; [|exact R]; lra).
      rewrite (swrap_id n _ N0 Ic). exists (Q2R c), d, (Rabs (Q2R c) + d)%R. cbn [skipn value_at fold_right whole_err]. rewrite pow_1. repeat split; try assumption; ring.
Qed.
Lemma longest_ge coeffs : forall cs, In cs coeffs -> (length cs <= longest coeffs)%nat.
Proof. induction coeffs as [|c coeffs IH]; intros cs []; cbn; [subst; lia|]. specialize (IH cs H). unfold longest in IH. lia. Qed.
Lemma multi_near x coeffs : arith n x u -> psc x = true -> Forall (encodes d k encode) coeffs -> (2 <= longest coeffs)%nat ->
  yields (multi_polynomial prf colo encode k x coeffs) (fun zs => exists fv, shares n true zs fv /\
    Forall2 (fun v cs => roomy n k (whole_mass d k B cs) -> (Rabs (real_of k v - value_at cs X) <= whole_err rough d k B cs)%R) fv coeffs).
Proof.
  intros Hx Sx HE HL. unfold multi_polynomial. apply y_assert; [exact (is_arith_of n x u Hx)|].
  unfold padded. destruct (longest coeffs) as [|[|m]] eqn:EL; [lia|lia|]. cbn [seq map].
  pose proof (pow_near x 1 Hx Sx ltac:(lia)) as PN. change (Z.to_nat 1) with 1%nat in PN. apply (yb _ _ _ _ PN). intros xi Nxi.
  apply (yb _ _ _ _ (terms_near x 1 xi coeffs (le_n _) Hx Nxi HE)). intros ts Hts.
  apply (yb _ _ _ _ (first_upto x Hx ts coeffs HE Hts)). intros rs Hrs.
  eapply y_weaken; [exact (more_near x coeffs Hx Sx HE m 2%nat rs ltac:(lia) Hrs)|]. intros zs Hzs.
  assert (LE : forall cs, In cs coeffs -> (length cs <= 2 + m)%nat) by (intros cs I; pose proof (longest_ge coeffs cs I); lia).
  clear EL Hts Hrs PN HE HL. induction Hzs as [|z cs zs coeffs (Sz & v & Az & Nz) Hzs IH].
  - exists []. split; constructor.
  - destruct (IH (fun cs' I => LE cs' (or_intror I))) as (fv & Sf & Nf). exists (v :: fv). split; [constructor; auto|]. constructor; [|exact Nf].
    intros R. destruct (Nz R) as (T & e & mm & HT & _ & V & E & _). rewrite skipn_all2 in V, E by (apply LE; left; reflexivity).
    cbn [value_at fold_right terms_err] in V, E. rewrite V, E, Rmult_0_r, !Rplus_0_r. exact HT.
Qed.
Lemma pieces_near x c coeffs j : pow2_size n -> arith n x u -> psc x = true -> Forall (encodes d k encode) coeffs -> (2 <= longest coeffs)%nat ->
  length coeffs = S (length c) -> (forall ck, In ck c -> in_s n ck /\ in_s n (ck - u)) -> (j <= length c)%nat ->
  (forall i, (i < j)%nat -> nth i c 0 < u) -> (forall i, (j <= i < length c)%nat -> u <= nth i c 0) -> roomy n k (whole_mass d k B (nth j coeffs [])) ->
  yields (pieces prf colo encode k x c coeffs) (fun z => psc z = true /\ exists v, arith n z v /\
    (Rabs (real_of k v - value_at (nth j coeffs []) X) <= whole_err rough d k B (nth j coeffs []))%R).
Proof.
  intros Hsz Hx Sx HE HL Hlen Hc Hj Hlo Hhi R. unfold pieces. apply (yb _ _ _ _ (multi_near x coeffs Hx Sx HE HL)). intros fs (fv & Sf & Nf).
  assert (L1 : length fs = length fv) by (exact (F2_length _ _ _ Sf)). assert (L2 : length fv = length coeffs) by (exact (F2_length _ _ _ Nf)).
  eapply y_weaken; [apply (piecewise_ok prf colo Hprf n true x u c fs fv j Hsz Hx Sf ltac:(congruence) Hc Hj Hlo Hhi)|].
  intros z (Az & Sz). split; [exact Sz|]. exists (nth j fv 0). split; [exact Az|].
  assert (G : forall fv coeffs j, Forall2 (fun v cs => roomy n k (whole_mass d k B cs) -> (Rabs (real_of k v - value_at cs X) <= whole_err rough d k B cs)%R) fv coeffs ->
    (j < length coeffs)%nat -> roomy n k (whole_mass d k B (nth j coeffs [])) ->
    (Rabs (real_of k (nth j fv 0%Z) - value_at (nth j coeffs []) X) <= whole_err rough d k B (nth j coeffs []))%R).
  { clear. intros fv coeffs j H. revert j. induction H as [|v cs fv coeffs H0 H IH]; intros j Hj R; [cbn in Hj; lia|]. destruct j as [|j]; cbn [nth] in *; [apply H0, R|]. apply IH; [cbn in Hj; lia|exact R]. }
  apply (G fv coeffs j Nf); [lia|exact R].
Qed.
End POLY.
