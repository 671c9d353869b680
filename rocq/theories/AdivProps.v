(** C113: division by public tensors, public reciprocals and square roots in ABY3. *)
From Coq Require Import Reals Lra Psatz.
From Verif Require PdivSpec PdivProofs PdivProps.
From Verif Require Import Base TensorModel TensorProofs Aby3Model Aby3Spec Aby3Proofs Aby3Circ Aby3Cmp Aby3Props Aby3Trunc Aby3NetModel Aby3NetSpec Aby3Net FpModel FpSpec FpProofs FpLogSpec FpLogProofs SigProofs PolySpec PolyProofs AdivModel AdivSpec.
Local Open Scope Z_scope.

Lemma K_pos' k : 0 <= k -> (1 <= IZR (2 ^ k))%R. Proof. intros H. apply IZR_le. pose proof (Z.pow_pos_nonneg 2 k). lia. Qed.
Lemma tiny_small : (0 < tiny <= / 1000000000)%R. Proof. exact PdivProofs.eps_small. Qed.
(** A cast in units. *)
Lemma cast_real k a c : 0 <= k -> PdivSpec.computed (IZR (2 ^ k) * a) c -> (Rabs (real_of k c - a) <= ulp k + tiny * Rabs a /\ Rabs (real_of k c) <= (1 + tiny) * Rabs a)%R.
Proof.
  intros Hk H. pose proof (K_pos' k Hk) as P. destruct (PdivProofs.computed_near _ _ H) as [A B]. fold tiny in A, B. set (K := IZR (2 ^ k)) in *.
  rewrite Rabs_mult, (Rabs_right K) in A, B by lra. unfold real_of, ulp. fold K.
  assert (I : (0 < / K)%R) by (apply Rinv_0_lt_compat; lra). split.
  - replace (IZR c / K - a)%R with ((IZR c - K * a) * / K)%R by (field; lra). rewrite Rabs_mult, (Rabs_right (/ K)) by lra.
    apply Rle_trans with ((1 + tiny * (K * Rabs a)) * / K)%R; [apply Rmult_le_compat_r; lra|]. apply Req_le. field. lra.
  - unfold Rdiv. rewrite Rabs_mult, (Rabs_right (/ K)) by lra. apply Rle_trans with ((1 + tiny) * (K * Rabs a) * / K)%R; [apply Rmult_le_compat_r; lra|]. apply Req_le. field. lra.
Qed.
Lemma in_room n k c m : 1 < n -> 0 <= k -> (Rabs (real_of k c) <= m)%R -> (IZR (2 ^ k) * m < IZR (2 ^ (n - 1)))%R -> in_s n c.
Proof.
  intros Hn Hk H R. pose proof (K_pos' k Hk) as P. assert (E : IZR c = (real_of k c * IZR (2 ^ k))%R) by (unfold real_of; field; lra).
  assert (G : (Rabs (IZR c) < IZR (2 ^ (n - 1)))%R). { rewrite E, Rabs_mult, (Rabs_right (IZR (2 ^ k))) by lra. nra. }
  rewrite <- abs_IZR in G. apply lt_IZR in G. unfold in_s. lia.
Qed.
Lemma real_inv k v : 0 <= k -> v <> 0 -> (IZR (2 ^ k) * IZR (2 ^ k) / IZR v = IZR (2 ^ k) * / real_of k v)%R.
Proof. intros Hk Hv. pose proof (K_pos' k Hk). unfold real_of. field. split; [lra|]. apply not_0_IZR. exact Hv. Qed.
Lemma word_limit n k m : 0 <= k -> n <= 63 -> (IZR (2 ^ k) * m < IZR (2 ^ (n - 1)))%R -> (IZR (2 ^ k) * m < 2 ^ 62)%R.
Proof.
  intros Hk Hn H. eapply Rlt_le_trans; [exact H|]. assert (E : (2 ^ 62)%R = IZR (2 ^ 62)) by exact (pow_IZR 2 62). rewrite E. apply IZR_le.
  destruct (Z_lt_le_dec (n - 1) 0); [rewrite Z.pow_neg_r by lia; pose proof (Z.pow_pos_nonneg 2 62); lia|apply Z.pow_le_mono_r; lia].
Qed.

(** Each server computes the same word from its copy. *)
Lemma locally_ok colo f n x v : 0 < n -> public (FI n) x v -> qsc x = true -> in_s n (f v) -> yields (locally colo f x) (fun z => public (FI n) z (f v) /\ qsc z = true).
Proof.
  intros Hn (E0 & E1 & E2 & Fx & W) Sx I. unfold locally. rewrite E0, E1, E2, Fx, Sx. cbn [assert_]. yrun. cbn [fcast vz]. rewrite (swrap_id n (f v) Hn I).
  split; [apply (public_mk (FI n) true); exact I|reflexivity].
Qed.

(** The public reciprocal: one unit and floating point, where it has room. *)
Theorem C113_reciprocal : forall colo fl n k x v, 0 <= k -> 1 < n -> casts_ok k fl -> public (FI n) x v -> qsc x = true -> v <> 0 ->
  (IZR (2 ^ k) * (2 * Rabs (/ real_of k v)) < IZR (2 ^ (Z.min n 63 - 1)))%R ->
  yields (reciprocal colo fl x) (fun z => qsc z = true /\ exists w, public (FI n) z w /\ (Rabs (real_of k w - / real_of k v) <= ulp k + tiny * Rabs (/ real_of k v))%R).
Proof.
  intros colo fl n k x v Hk Hn (H1 & _ & _) Hx Sx Hv R. pose proof (K_pos' k Hk) as P. pose proof tiny_small as T. pose proof (Rabs_pos (/ real_of k v)) as A.
  assert (Hc : PdivSpec.computed (IZR (2 ^ k) * / real_of k v) (c_rcp fl v)).
  { rewrite <- (real_inv k v Hk Hv). apply H1; [exact Hv|]. rewrite (real_inv k v Hk Hv), Rabs_mult, (Rabs_right (IZR (2 ^ k))) by lra.
    apply Rle_lt_trans with (IZR (2 ^ k) * (2 * Rabs (/ real_of k v)))%R; [nra|]. apply (word_limit (Z.min n 63)); try lia. exact R. }
  destruct (cast_real k _ _ Hk Hc) as [B1 B2]. unfold reciprocal. eapply y_weaken; [apply (locally_ok colo (c_rcp fl) n x v); try assumption; try lia|].
  - apply (in_room n k _ (2 * Rabs (/ real_of k v))); try assumption; [nra|]. eapply Rlt_le_trans; [exact R|]. apply IZR_le, Z.pow_le_mono_r; lia.
  - intros z (Hz & Sz). split; [exact Sz|]. exists (c_rcp fl v). split; [exact Hz|exact B1].
Qed.
Print Assumptions C113_reciprocal.

(** The public square root. *)
Theorem C113_sqrt : forall colo fl n k x v, 0 <= k -> 1 < n -> casts_ok k fl -> public (FI n) x v -> qsc x = true -> 0 <= v ->
  (IZR (2 ^ k) * (2 * sqrt (real_of k v)) < IZR (2 ^ (Z.min n 63 - 1)))%R ->
  yields (sqrt_ colo fl x) (fun z => qsc z = true /\ exists w, public (FI n) z w /\ (Rabs (real_of k w - sqrt (real_of k v)) <= ulp k + tiny * sqrt (real_of k v))%R).
Proof.
  intros colo fl n k x v Hk Hn (_ & H1 & _) Hx Sx Hv R. pose proof (K_pos' k Hk) as P. pose proof tiny_small as T. pose proof (sqrt_pos (real_of k v)) as A.
  assert (V0 : (0 <= real_of k v)%R) by (unfold real_of; apply Rmult_le_pos; [apply IZR_le; exact Hv|left; apply Rinv_0_lt_compat; lra]).
  assert (E : sqrt (IZR (2 ^ k) * IZR v) = (IZR (2 ^ k) * sqrt (real_of k v))%R).
  { replace (IZR (2 ^ k) * IZR v)%R with ((IZR (2 ^ k) * IZR (2 ^ k)) * real_of k v)%R by (unfold real_of; field; lra). rewrite sqrt_mult_alt by nra. rewrite sqrt_square by lra. reflexivity. }
  assert (Hc : PdivSpec.computed (IZR (2 ^ k) * sqrt (real_of k v)) (c_root fl v)).
  { rewrite <- E. apply H1; [exact Hv|]. rewrite E.
    apply Rle_lt_trans with (IZR (2 ^ k) * (2 * sqrt (real_of k v)))%R; [nra|]. apply (word_limit (Z.min n 63)); try lia. exact R. }
  destruct (cast_real k _ _ Hk Hc) as [B1 B2]. rewrite (Rabs_right (sqrt (real_of k v))) in B1, B2 by lra.
  unfold sqrt_. eapply y_weaken; [apply (locally_ok colo (c_root fl) n x v); try assumption; try lia|].
  - apply (in_room n k _ (2 * sqrt (real_of k v))); try assumption; [nra|]. eapply Rlt_le_trans; [exact R|]. apply IZR_le, Z.pow_le_mono_r; lia.
  - intros z (Hz & Sz). split; [exact Sz|]. exists (c_root fl v). split; [exact Hz|exact B1].
Qed.
Print Assumptions C113_sqrt.

(** A private number over a public one, both fixed-point: one unit, one unit of the inverse times the number, and floating point. *)
Theorem C113_division : forall prf colo fl n k x u y v, prf_words prf -> 0 <= k -> 2 * k + 2 <= n -> 1 < n -> casts_ok k fl ->
  arith n x u -> psc x = true -> public (FI n) y v -> qsc y = true -> v <> 0 ->
  (IZR (2 ^ k) * (2 * Rabs (/ real_of k v)) < IZR (2 ^ (Z.min n 63 - 1)))%R -> roomy n k (2 * Rabs (real_of k u / real_of k v) + 1) ->
  yields (div prf colo fl k x (DPub y)) (fun z => psc z = true /\ exists w, arith n z w /\
    (Rabs (real_of k w - real_of k u / real_of k v) <= ulp k * (1 + Rabs (real_of k u)) + tiny * Rabs (real_of k u / real_of k v))%R).
Proof.
  intros prf colo fl n k x u y v Hp Hk Hb Hn (H1 & _ & _) Hx Sx Hy Sy Hv R F. pose proof (K_pos' k Hk) as P. pose proof tiny_small as T. pose proof (Rabs_pos (/ real_of k v)) as A.
  assert (Hc : PdivSpec.computed (IZR (2 ^ k) * / real_of k v) (c_rcp fl v)).
  { rewrite <- (real_inv k v Hk Hv). apply H1; [exact Hv|]. rewrite (real_inv k v Hk Hv), Rabs_mult, (Rabs_right (IZR (2 ^ k))) by lra.
    apply Rle_lt_trans with (IZR (2 ^ k) * (2 * Rabs (/ real_of k v)))%R; [nra|]. apply (word_limit (Z.min n 63)); try lia. exact R. }
  destruct (cast_real k _ _ Hk Hc) as [B1 B2]. set (c := c_rcp fl v) in *.
  assert (Ic : in_s n c). { apply (in_room n k _ (2 * Rabs (/ real_of k v))); try assumption; [nra|]. eapply Rlt_le_trans; [exact R|]. apply IZR_le, Z.pow_le_mono_r; lia. }
  unfold div. rewrite Sy, Sx. destruct Hy as (-> & _). cbn [vz]. fold c. assert (Fx : pfc x = FI n) by apply Hx. rewrite Fx.
  apply (yb _ _ _ _ (const_ok colo (FI n) c true ltac:(cbn; lia))). intros q (Hq & Sq). cbn [fcast] in Hq. rewrite (swrap_id n c ltac:(lia) Ic) in Hq.
  eapply y_weaken; [exact (mul_any prf colo Hp n k x q u c Hn Hk ltac:(lia) Hx Hq Sx Sq)|]. intros z (Sz & r & Az & Rz). split; [exact Sz|]. exists r. split; [exact Az|].
  unfold Rdiv in *. set (X := real_of k u) in *. set (I := (/ real_of k v)%R) in *. set (Cc := real_of k c) in *. rewrite Rabs_mult in F |- *. pose proof (Rabs_pos X) as X0.
  assert (Ft : fits n (u * c)).
  { apply (fits_of n k Hn Hk u c _) with (2 := F). fold X Cc. rewrite Rabs_mult. apply Rle_lt_trans with (Rabs X * ((1 + tiny) * Rabs I))%R; [apply Rmult_le_compat_l; lra|]. assert (0 <= Rabs X * Rabs I)%R by nra. nra. }
  pose proof (rounded_real k Hk u c r (Rz Ft)) as Q. fold X Cc in Q.
  replace (real_of k r - X * I)%R with ((real_of k r - X * Cc) + X * (Cc - I))%R by ring. eapply Rle_trans; [apply Rabs_triang|]. rewrite (Rabs_mult X). 
  assert (Rabs X * Rabs (Cc - I) <= Rabs X * (ulp k + tiny * Rabs I))%R by (apply Rmult_le_compat_l; lra). lra.
Qed.
Print Assumptions C113_division.

(** A number without scaling is not divided: over anything a little above 1 in size the result is 0. *)
Theorem C113_unscaled_refuted : forall prf colo fl n k x u y v, prf_words prf -> 0 <= k <= 61 -> 1 < n -> casts_ok k fl ->
  arith n x u -> psc x = false -> public (FI n) y v -> qsc y = true -> (1.001 <= Rabs (real_of k v))%R ->
  yields (div prf colo fl k x (DPub y)) (fun z => arith n z 0 /\ psc z = false).
Proof.
  intros prf colo fl n k x u y v Hp Hk Hn (_ & _ & H1) Hx Sx Hy Sy HV. pose proof (K_pos' k ltac:(lia)) as P.
  assert (Hv : v <> 0). { intros ->. unfold real_of, Rdiv in HV. rewrite Rmult_0_l, Rabs_R0 in HV. lra. }
  assert (E : (IZR (2 ^ k) / IZR v = / real_of k v)%R) by (unfold real_of; field; split; [lra|apply not_0_IZR; exact Hv]).
  assert (S : (Rabs (/ real_of k v) <= 0.99999)%R).
  { rewrite Rabs_inv. apply Rle_trans with (/ 1.001)%R; [apply Rinv_le_contravar; lra|lra]. }
  assert (Z0 : c_inv fl v = 0). { apply (PdivProofs.computed_zero (/ real_of k v)); [|exact S]. rewrite <- E. apply H1; [exact Hv|]. rewrite E. lra. }
  unfold div. rewrite Sy, Sx. destruct Hy as (-> & _). cbn [vz]. rewrite Z0. assert (Fx : pfc x = FI n) by apply Hx. rewrite Fx.
  apply (yb _ _ _ _ (const_ok colo (FI n) 0 false ltac:(cbn; lia))). intros q (Hq & Sq). cbn [fcast] in Hq.
  assert (I0 : in_s n 0) by (unfold in_s; pose proof (Z.pow_pos_nonneg 2 (n - 1)); lia). rewrite (swrap_id n 0 ltac:(lia) I0) in Hq.
  eapply y_weaken; [apply (C46_mul_public prf colo n k x q u 0 0); [lia|exact Hx|exact Hq|rewrite Sx; reflexivity|]|].
  - split; [exact I0|]. rewrite Z.mul_0_r. reflexivity.
  - intros z (Az & Sz). split; [exact Az|]. rewrite Sz, Sx, Sq. reflexivity.
Qed.
Print Assumptions C113_unscaled_refuted.

(** What is refused: divisors that are integers without scaling or private, roots and reciprocals without scaling. *)
Theorem C113_raises : forall prf colo fl k x y q, qsc q = false ->
  raises (div prf colo fl k x (DPub q)) TypeError /\ raises (div prf colo fl k x (DPriv y)) TypeError /\
  raises (reciprocal colo fl q) AssertionError /\ raises (sqrt_ colo fl q) AssertionError.
Proof.
  intros prf colo fl k x y q Sq. unfold raises, div, reciprocal, sqrt_, locally. rewrite Sq. repeat split; reflexivity.
Qed.
Print Assumptions C113_raises.

(** ** Instances *)
(** Exact arithmetic is a computation of the kind assumed. *)
Definition exact (s : Z) : casts := MkCasts (fun v => Z.quot (s * s) v) (fun v => Z.sqrt (s * v)) (fun v => Z.quot s v).
Example C113_exact : forall k, 0 <= k -> casts_ok k (exact (2 ^ k)).
Proof.
  intros k Hk. pose proof (Z.pow_pos_nonneg 2 k ltac:(lia) Hk) as P. set (s := 2 ^ k) in *. unfold casts_ok. fold s. split; [|split].
  - intros v Hv _. apply PdivProps.exactly. rewrite <- mult_IZR. apply PdivProps.quot_toward, Hv.
  - intros v Hv _. apply PdivProps.exactly. cbn [exact c_root]. rewrite <- mult_IZR. assert (N0 : 0 <= s * v) by nia. destruct (Z.sqrt_spec (s * v) N0) as [A B].
    pose proof (Z.sqrt_nonneg (s * v)) as N. set (m := Z.sqrt (s * v)) in *. apply IZR_le in A. apply IZR_lt in B. rewrite (mult_IZR m) in A. rewrite (mult_IZR (Z.succ m)), succ_IZR in B. apply IZR_le in N.
    assert (A' : (IZR m <= sqrt (IZR (s * v)))%R) by (rewrite <- (sqrt_square (IZR m)) by lra; apply sqrt_le_1_alt; exact A).
    assert (B' : (sqrt (IZR (s * v)) < IZR m + 1)%R) by (rewrite <- (sqrt_square (IZR m + 1)) by lra; apply sqrt_lt_1_alt; split; [apply IZR_le; assumption|exact B]).
    split; intros; split; lra.
  - intros v Hv _. apply PdivProps.exactly, PdivProps.quot_toward, Hv.
Qed.
(** 3 over 2 with 16 fractional bits of 64 has room. *)
Example C113_room : (IZR (2 ^ 16) * (2 * Rabs (/ real_of 16 131072)) < IZR (2 ^ (Z.min 64 63 - 1)))%R /\ roomy 64 16 (2 * Rabs (real_of 16 196608 / real_of 16 131072) + 1) /\
  (IZR (2 ^ 16) * (2 * sqrt (real_of 16 131072)) < IZR (2 ^ (Z.min 64 63 - 1)))%R.
Proof.
  change (Z.min 64 63 - 1) with 62. change (2 ^ 62) with 4611686018427387904. unfold roomy, real_of. change (2 ^ 16) with 65536. change (2 ^ (64 - 2)) with 4611686018427387904.
  replace (131072 / 65536)%R with 2%R by lra. replace (196608 / 65536 / 2)%R with (3 / 2)%R by lra. rewrite !Rabs_right by lra.
  assert (sqrt 2 <= 2)%R by (rewrite <- (sqrt_square 2) at 2 by lra; apply sqrt_le_1_alt; lra). repeat split; lra.
Qed.
(** 3 over 2 on three machines is 1.5, 7 without scaling over 2 is 0. *)
Definition ex_div (v : Z) (sc : bool) (w : Z) : option Z :=
  match snd (bind (share ex_prf false Arith (FI 64) v sc) (fun x => bind (const false (FI 64) w true) (fun y => div ex_prf false (exact 65536) 16 x (DPub y))) ex_st) with
  | Ok z => Some (swrap 64 (vz (p00 z) + vz (p10 z) + vz (p20 z)))
  | _ => None end.
Example C113_runs : ex_div 196608 true 131072 = Some 98304 /\ ex_div 7 false 131072 = Some 0.
Proof. split; vm_compute; reflexivity. Qed.
