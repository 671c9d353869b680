(** Theorems about ABY3's private reciprocal and division. *)
From Coq Require Import Reals Lra Psatz.
From Verif Require Import Base TensorModel TensorProofs Aby3Model Aby3Spec Aby3Proofs Aby3Props FpModel FpSpec FpProofs FpReal FpRecip.
Open Scope Z_scope.

(** The configurations in use: int64 with 16 fractional and 11 integral bits, int128 with 32 and 20. *)
Example configs : fp_config 64 16 27 /\ fp_config 128 32 52.
Proof. unfold fp_config. lia. Qed.

Theorem C62_normalise : forall prf colo n k m x v nonsigned, prf_words prf -> fp_config n k m -> arith n x v -> psc x = true ->
  ranged m nonsigned v -> 0 < Z.abs v < 2 ^ (m - 1) ->
  yields (fp_normalize prf colo k m x nonsigned) (fun p => exists g E, arith n (fst p) g /\ arith n (snd p) E /\ normal_form k v g E).
Proof.
  intros prf colo n k m x v ns Hp Hc Hx Sx Hr Hv.
  assert (Hk : 0 < k) by (destruct Hc as (_ & Hc & _); lia). assert (Hm : 0 < m < 2 * k) by (destruct Hc as (_ & A & B & _); lia).
  eapply y_weaken; [apply (normalize_ok prf colo Hp n k m x v ns Hc Hx Sx Hr)|].
  intros [s e]. cbn [fst snd]. cbv zeta. rewrite swrap_below by lia. intros (_ & _ & (g & Rg & Hg) & He).
  set (w := Z.abs v) in *. pose proof (Z.log2_nonneg w) as L0. destruct (Z.log2_spec w ltac:(lia)) as [L1 L2].
  assert (Lm : Z.log2 w < m - 1) by (apply Z.log2_lt_pow2; lia).
  unfold expo in *. destruct (Z.ltb_spec 0 w) as [_|?]; [|lia]. set (j := Z.log2 w) in *. set (E := 2 ^ (2 * k - 1 - j)) in *.
  assert (PE : 0 < E) by (apply pow2_pos; lia).
  assert (ES : sign_of ns v = Z.sgn v).
  { unfold w in Hv. clear - Hv Hr. destruct ns; cbn in Hr; unfold sign_of; [rewrite Z.sgn_pos by lia; reflexivity|]. destruct (Z.lt_ge_cases v 0); [rewrite !Z.sgn_neg by lia|rewrite !Z.sgn_pos by lia]; reflexivity. }
  rewrite ES in He. exists g, (Z.sgn v * E). split; [exact Hg|]. split; [exact He|]. exists j.
  split; [exact L0|]. split; [rewrite Z.add_1_r; lia|]. split; [reflexivity|].
  replace (Z.sgn v * E * v) with (w * E) by (unfold w; rewrite <- (Z.sgn_abs v) at 1; ring).
  assert (E1 : 2 ^ k * 2 ^ k = 2 * (2 ^ j * E)).
  { unfold E. rewrite <- !Z.pow_add_r by lia. rewrite <- Z.pow_succ_r by lia. f_equal. lia. }
  assert (E2 : 2 ^ k = 2 * 2 ^ (k - 1)) by (apply pow2_half; lia).
  pose proof (pow2_pos k ltac:(lia)) as Pk. rewrite Z.pow_succ_r in L2 by exact L0.
  pose proof (Z.div_mod (w * E) (2 ^ k) ltac:(lia)) as D. pose proof (Z.mod_pos_bound (w * E) (2 ^ k) Pk) as B.
  destruct Rg as [Rg _]. set (d := w * E / 2 ^ k) in *. set (r := (w * E) mod 2 ^ k) in *. clearbody d r.
  assert (W1 : 2 ^ k * 2 ^ (k - 1) <= w * E) by (clear - E1 E2 L1 PE; nia).
  assert (W2 : w * E < 2 ^ k * 2 ^ k) by (clear - E1 L2 PE; nia).
  assert (D1 : 2 ^ (k - 1) <= d) by (clear - D B W1 Pk; nia). assert (D2 : d < 2 ^ k) by (clear - D B W2 Pk; nia).
  split; [|clear - Rg D1 D2; lia]. set (p := 2 ^ k) in *. set (X := w * E) in *. clearbody p X. destruct Rg as [-> | ->]; lia.
Qed.
Print Assumptions C62_normalise.

(** The upper half of the advertised range: the exponent is zero, and so is the reciprocal. *)
Theorem C62_top_half_refuted : forall prf colo n k m x v nonsigned, prf_words prf -> fp_config n k m -> arith n x v -> psc x = true ->
  ranged m nonsigned v -> 2 ^ (m - 1) <= Z.abs v ->
  yields (fp_normalize prf colo k m x nonsigned) (fun p => arith n (fst p) 0 /\ arith n (snd p) 0) /\
  (forall g, ~ normal_form k v g 0).
Proof.
  intros prf colo n k m x v ns Hp Hc Hx Sx Hr Hv.
  assert (Hk : 0 < k) by (destruct Hc as (_ & Hc & _); lia). assert (Hm : 0 < m < 2 * k) by (destruct Hc as (_ & A & B & _); lia).
  pose proof (pow2_pos (m - 1) ltac:(lia)) as Pm. split.
  - eapply y_weaken; [apply (normalize_ok prf colo Hp n k m x v ns Hc Hx Sx Hr)|].
    intros [s e]. cbn [fst snd]. cbv zeta. assert (H0 : Z.abs v <= 2 ^ m) by (destruct ns; cbn in Hr; lia).
    rewrite expo_above by lia. rewrite !Z.mul_0_r. intros (_ & _ & (g & Rg & Hg) & He).
    destruct Rg as [_ Rg]. pose proof (pow2_pos k ltac:(lia)). rewrite Z.mod_0_l, Z.div_0_l in Rg by lia. rewrite (Rg eq_refl) in Hg. auto.
  - intros g (j & Hj & Hjv & E0 & Hb & Hg). rewrite Z.mul_0_l, Z.sub_0_r in Hb. pose proof (pow2_pos k ltac:(lia)) as Pk.
    pose proof (pow2_pos (k - 1) ltac:(lia)) as Pk1.
    assert (H0 : Z.abs v <= 2 ^ m) by (destruct ns; cbn in Hr; lia).
    assert (Jm : j <= m) by (apply (Z.pow_le_mono_r_iff 2); lia).
    assert (P : 0 < 2 ^ (2 * k - 1 - j)) by (apply pow2_pos; lia).
    destruct (Z.sgn_spec v) as [[? S] | [[? S] | [? S]]]; rewrite S in E0; lia.
Qed.
Print Assumptions C62_top_half_refuted.
(** For instance the value 2000.0 of the default configuration (raw 2000 * 2^16 < 2^27). *)
Example C62_nonvacuous :
  (ranged 27 false (-3 * 2 ^ 15) /\ 0 < Z.abs (-3 * 2 ^ 15) < 2 ^ (27 - 1) /\ normal_form 16 (-3 * 2 ^ 15) (3 * 2 ^ 14) (-2 ^ 15)) /\
  (ranged 27 false (2000 * 2 ^ 16) /\ 2 ^ (27 - 1) <= Z.abs (2000 * 2 ^ 16)).
Proof.
  split; [|split; [split; vm_compute; congruence|vm_compute; congruence]].
  split; [split; vm_compute; congruence|]. split; [split; vm_compute; congruence|].
  exists 16. split; [lia|]. split; [split; vm_compute; congruence|]. split; [reflexivity|]. split; [vm_compute; congruence|split; vm_compute; congruence].
Qed.
(** The program, on concrete shares of -1.5 (one server set, default configuration). *)
Example C62_run : match snd (bind (share ex_prf false Arith (FI 64) (-3 * 2 ^ 15) true) (fun x => bind (fp_normalize ex_prf false 16 27 x false) (fun p =>
    bind (reveal false (fst p)) (fun g => bind (reveal false (snd p)) (fun e => ret (vz (q0 g), vz (q0 e)))))) ex_st) with Ok r => Some r | Err _ => None end
  = Some (3 * 2 ^ 14, - 2 ^ 15).
Proof. vm_compute. reflexivity. Qed.

Lemma within_of_resid k v r : 0 <= k -> (resid k v r <= target k v)%R -> recip_within k v r.
Proof.
  intros Hk H. unfold resid, target, recip_within, recip_error in *. pose proof (pow2_pos k Hk) as Pk. set (p := 2 ^ k) in *. clearbody p.
  apply le_IZR. rewrite plus_IZR, !mult_IZR, plus_IZR, !mult_IZR, !abs_IZR, minus_IZR, !mult_IZR.
  apply IZR_lt in Pk. set (s := IZR p) in *. clearbody s. clear p Hk. set (V := IZR v) in *. set (A := IZR r) in *. clearbody V A.
  assert (s2 : (0 < s * s)%R) by nra.
  assert (E1 : Rabs (A * V - s * s) = (Rabs (1 - A * V / (s * s)) * (s * s))%R).
  { rewrite <- (Rabs_right (s * s)) at 3 by lra. rewrite <- Rabs_mult. rewrite <- Rabs_Ropp. f_equal. field. lra. }
  assert (E2 : (Rabs (V / (s * s)) * (s * s) = Rabs V)%R).
  { rewrite <- (Rabs_right (s * s)) at 2 by lra. rewrite <- Rabs_mult. f_equal. field. lra. }
  rewrite E1. apply (Rmult_le_compat_r (s * s)) in H; [|lra].
  replace ((0.0000062 + 2.2 * / s + 1.13 * Rabs (V / (s * s))) * (s * s))%R with (0.0000062 * (s * s) + 2.2 * s + 1.13 * (Rabs (V / (s * s)) * (s * s)))%R in H by (field; lra).
  rewrite E2 in H. pose proof (Rabs_pos V). lra.
Qed.

(** Any number of rounds but none gives the advertised precision. *)
Theorem C89_reciprocal : forall prf colo n k m x v nonsigned precision, prf_words prf -> fp_config n k m -> 11 <= k -> m + 5 <= 2 * k ->
  arith n x v -> psc x = true -> ranged m nonsigned v -> 0 < Z.abs v < 2 ^ (m - 1) -> precision <> O ->
  yields (fp_recip prf colo k m x nonsigned precision) (fun z => psc z = true /\ exists r, arith n z r /\ recip_within k v r).
Proof.
  intros prf colo n k m x v ns pr Hp Hc Hk Hmk Hx Sx Hr Hv Hpr.
  eapply y_weaken; [apply (first_ok prf colo Hp n k m Hc Hk x v ns pr Hx Sx Hr); lia|].
  intros z (Sz & r & Hz & _ & H). split; [exact Sz|]. exists r. split; [exact Hz|]. apply within_of_resid; [lia|]. apply H, Hpr.
Qed.
Print Assumptions C89_reciprocal.
(** In the upper half of the advertised range, and for zero, the result is zero. *)
Theorem C89_top_half_refuted : forall prf colo n k m x v nonsigned precision, prf_words prf -> fp_config n k m ->
  arith n x v -> psc x = true -> ranged m nonsigned v -> 2 ^ (m - 1) <= Z.abs v \/ v = 0 ->
  yields (fp_recip prf colo k m x nonsigned precision) (fun z => psc z = true /\ arith n z 0).
Proof. intros prf colo n k m x v ns pr Hp Hc Hx Sx Hr Hv. exact (top_half_ok prf colo Hp n k m Hc x v ns pr Hx Sx Hr Hv). Qed.
Print Assumptions C89_top_half_refuted.

(** Division by a private value: the quotient must fit in the word before its truncation. *)
Theorem C89_division : forall prf colo n k m x y u v nonsigned precision, prf_words prf -> fp_config n k m -> 11 <= k -> m + 5 <= 2 * k ->
  arith n x u -> psc x = true -> arith n y v -> psc y = true -> ranged m nonsigned v -> 0 < Z.abs v < 2 ^ (m - 1) -> precision <> O ->
  2 * Z.abs u * 2 ^ (2 * k) < Z.abs v * 2 ^ (n - 2) ->
  yields (fp_div prf colo k m x y nonsigned precision) (fun z => psc z = true /\ exists q, arith n z q /\ quotient_within k u v q).
Proof.
  intros prf colo n k m x y u v ns pr Hp Hc Hk Hmk Hx Sx Hy Sy Hr Hv Hpr Hfit. unfold fp_div.
  destruct (cfg_facts n k m Hc) as (N1 & N0 & K0 & KK & K1 & N3 & M1). pose proof (pow2_pos k K0) as Pk.
  eapply y_bind; [apply (first_ok prf colo Hp n k m Hc Hk y v ns pr Hy Sy Hr); lia|].
  intros z (Sz & r & Hz & H09 & H). specialize (H Hpr). apply within_of_resid in H; [|lia].
  assert (B : Z.abs (r * v) < 2 * (2 ^ k * 2 ^ k)).
  { unfold resid in H09. apply lt_IZR. rewrite abs_IZR, !mult_IZR. apply IZR_lt in Pk. set (s := IZR (2 ^ k)) in *. clearbody s.
    assert (s2 : (0 < s * s)%R) by nra. replace (IZR r * IZR v)%R with ((IZR r * IZR v / (s * s)) * (s * s))%R by (field; lra).
    rewrite Rabs_mult, (Rabs_right (s * s)) by lra. apply Rmult_lt_compat_r; [exact s2|]. apply Rabs_le_iff in H09. eapply Rle_lt_trans; [apply (Rabs_le _ 1.09); lra|]. lra. }
  assert (F : fits n (u * r)).
  { unfold fits. replace (2 ^ (2 * k)) with (2 ^ k * 2 ^ k) in Hfit by (rewrite <- Z.pow_add_r by lia; f_equal; lia).
    set (p := 2 ^ k * 2 ^ k) in *. set (N := 2 ^ (n - 2)) in *. assert (0 < N) by (apply pow2_pos; lia). clearbody p N.
    assert (Z.abs (u * r) < N); [|lia]. rewrite Z.abs_mul in *. clear - B Hfit Hv H0. set (a := Z.abs u) in *. set (b := Z.abs r) in *. set (w := Z.abs v) in *.
    assert (0 <= a) by apply Z.abs_nonneg. assert (0 <= b) by apply Z.abs_nonneg. clearbody a b w.
    destruct (Z.eq_dec a 0) as [->|Ha]; [lia|]. assert (a * b * w < N * w); [|nia]. nia. }
  eapply y_weaken; [apply (mul_round prf colo Hp n k x z u r N1 K0 KK Hx Hz Sx Sz F)|].
  intros t (St & q & [Rq _] & Ht). split; [exact St|]. exists q. split; [exact Ht|].
  unfold quotient_within, recip_within in *. set (e := recip_error k v) in *. clearbody e.
  pose proof (Z.div_mod (u * r) (2 ^ k) ltac:(lia)) as D. pose proof (Z.mod_pos_bound (u * r) (2 ^ k) Pk) as Bm.
  set (p := 2 ^ k) in *. clearbody p. set (X := u * r / p) in *. set (R := (u * r) mod p) in *. clearbody X R.
  assert (D1 : exists d, - p <= d <= p /\ p * q = u * r + d).
  { destruct Rq as [-> | ->]; [exists (- R)|exists (p - R)]; lia. }
  destruct D1 as (d & Hd & Eq).
  assert (E : p * (q * v - u * p) = u * (r * v - p * p) + d * v) by (rewrite !Z.mul_sub_distr_l; replace (p * (q * v)) with (p * q * v) by ring; rewrite Eq; ring).
  assert (A1 : p * Z.abs (q * v - u * p) <= Z.abs u * Z.abs (r * v - p * p) + p * Z.abs v).
  { rewrite <- (Z.abs_eq p) at 1 by lia. rewrite <- Z.abs_mul, E. eapply Z.le_trans; [apply Z.abs_triangle|]. rewrite !Z.abs_mul. apply Z.add_le_mono_l, Z.mul_le_mono_nonneg_r; [apply Z.abs_nonneg|]. clear - Hd. lia. }
  assert (A2 : Z.abs u * (1000000 * Z.abs (r * v - p * p)) <= Z.abs u * e) by (apply Z.mul_le_mono_nonneg_l; [apply Z.abs_nonneg|exact H]).
  set (U := Z.abs u * Z.abs (r * v - p * p)) in *. replace (Z.abs u * (1000000 * Z.abs (r * v - p * p))) with (1000000 * U) in A2 by (unfold U; ring).
  set (W := p * Z.abs v) in *. replace (1000000 * p * Z.abs v) with (1000000 * W) by (unfold W; ring).
  rewrite <- Z.mul_assoc. clear - A1 A2. lia.
Qed.
Print Assumptions C89_division.
(** 1 / -1.5 and 7 / -1.5 in the default configuration. *)
Example C89_nonvacuous : ranged 27 false (-3 * 2 ^ 15) /\ 0 < Z.abs (-3 * 2 ^ 15) < 2 ^ (27 - 1) /\ 11 <= 16 /\ 27 + 5 <= 2 * 16 /\ 52 + 5 <= 2 * 32 /\
  2 * Z.abs (7 * 2 ^ 16) * 2 ^ (2 * 16) < Z.abs (-3 * 2 ^ 15) * 2 ^ (64 - 2) /\
  recip_within 16 (-3 * 2 ^ 15) (-43690) /\ ~ recip_within 16 (-3 * 2 ^ 15) (-43680) /\ quotient_within 16 (7 * 2 ^ 16) (-3 * 2 ^ 15) (-305835).
Proof. unfold ranged, recip_within, quotient_within, recip_error. repeat split; vm_compute; congruence. Qed.
Example C89_run :
  match snd (bind (share ex_prf false Arith (FI 64) (-3 * 2 ^ 15) true) (fun x => bind (fp_recip ex_prf false 16 27 x false 1) (fun p => bind (reveal false p) (fun g => ret (vz (q0 g))))) ex_st)
  with Ok r => Some r | Err _ => None end = Some (-43690).
Proof. vm_compute. reflexivity. Qed.
