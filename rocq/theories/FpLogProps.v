(** Theorems about ABY3's private logarithms. *)
From Coq Require Import Reals Lra Psatz.
From Verif Require Import Base TensorModel TensorProofs Aby3Model Aby3Spec Aby3Proofs Aby3Props FpModel FpSpec FpProofs FpRecip FpProps FpLogModel FpLogSpec FpLogReal FpLogProofs FpLogMain.
Open Scope Z_scope.

(** Between the smallest positive value and half of the advertised range. *)
Theorem C90_log : forall prf colo n k m c x v b, prf_words prf -> fp_config n k m -> 11 <= k -> arith n x v -> psc x = true -> 1 < v < 2 ^ (m - 1) ->
  (2 <= b)%R -> coeffs_for k b c ->
  yields (fp_log prf colo k m c x) (fun z => exists r, arith n z r /\
    (Rabs (real_of k r - log_to b (real_of k v)) <= 0.022 * log_to b 2 + (IZR k + 13) * ulp k)%R).
Proof. intros prf colo n k m c x v b Hp Hc Hk. exact (log_ok prf colo Hp n k m Hc Hk c x v b). Qed.
Print Assumptions C90_log.

(** The smallest positive value: the exponent is lost. *)
Theorem C90_smallest_refuted : forall prf colo n k m c x b, prf_words prf -> fp_config n k m -> 11 <= k -> arith n x 1 -> psc x = true ->
  (2 <= b)%R -> coeffs_for k b c ->
  yields (fp_log prf colo k m c x) (fun z => exists r, arith n z r /\
    (log_to b (real_of k 1) - real_of k r >= 1.84 * log_to b 2 - (IZR k + 2) * ulp k)%R).
Proof.
  intros prf colo n k m c x b Hp Hc Hk Hx Sx Hb Hco. destruct (log_facts n k m Hc) as (N1 & N0 & K0 & KK & K1 & N3 & M0 & MK & N4 & Ha).
  assert (P1 : 1 < 2 ^ (m - 1)) by (apply Z.pow_gt_1; destruct Hc as (_ & X & _); lia).
  eapply y_weaken; [apply (log_lost prf colo Hp n k m Hc Hk c x 1 b 1 Hx Sx); [apply swrap_below; lia|lia|exact Hb|exact Hco]|].
  intros z (r & Hr & E). exists r. split; [exact Hr|].
  pose proof ln2_bounds as [L2 _]. assert (Lb : (ln 2 <= ln b)%R) by (destruct (Req_dec b 2) as [->|?]; [lra|left; apply ln_increasing; lra]).
  assert (EL : log_to b (real_of k 1) = (- IZR k * (ln 2 / ln b))%R).
  { unfold log_to, real_of, Rdiv. rewrite Rmult_1_l, ln_Rinv by (apply IZR_lt, pow2_pos; lia). rewrite ln_pow2 by exact K0. field. lra. }
  rewrite EL. unfold log_to. assert (0 < ln 2 / ln b)%R by (apply Rdiv_lt_0_compat; lra). apply abs2 in E. lra.
Qed.
Print Assumptions C90_smallest_refuted.

(** The upper half of the advertised range: the result is the logarithm of about a quarter of the smallest positive value. *)
Theorem C90_top_half_refuted : forall prf colo n k m c x v b, prf_words prf -> fp_config n k m -> 11 <= k -> arith n x v -> psc x = true -> 2 ^ (m - 1) <= v < 2 ^ m ->
  (2 <= b)%R -> coeffs_for k b c ->
  yields (fp_log prf colo k m c x) (fun z => exists r, arith n z r /\
    (log_to b (real_of k v) - real_of k r >= IZR m * log_to b 2 - (IZR k + 2) * ulp k)%R).
Proof.
  intros prf colo n k m c x v b Hp Hc Hk Hx Sx Hv Hb Hco. destruct (log_facts n k m Hc) as (N1 & N0 & K0 & KK & K1 & N3 & M0 & MK & N4 & Ha).
  assert (S0 : swrap m v <= 1) by (pose proof (swrap_above m v ltac:(lia) ltac:(lia)); lia).
  eapply y_weaken; [apply (log_lost prf colo Hp n k m Hc Hk c x v b _ Hx Sx eq_refl S0 Hb Hco)|].
  intros z (r & Hr & E). exists r. split; [exact Hr|].
  pose proof ln2_bounds as [L2 _]. assert (Lb : (ln 2 <= ln b)%R) by (destruct (Req_dec b 2) as [->|?]; [lra|left; apply ln_increasing; lra]).
  pose proof (pow2_pos (m - 1) ltac:(lia)) as Pm.
  assert (EL : (log_to b (real_of k v) >= (IZR (m - 1) - IZR k) * (ln 2 / ln b))%R).
  { unfold log_to, real_of, Rdiv. rewrite ln_mult; [|apply IZR_lt; lia|apply Rinv_0_lt_compat, IZR_lt, pow2_pos; lia].
    rewrite ln_Rinv by (apply IZR_lt, pow2_pos; lia). rewrite ln_pow2 by exact K0.
    assert (M : (ln (IZR (2 ^ (m - 1))) <= ln (IZR v))%R).
    { destruct (Z.eq_dec v (2 ^ (m - 1))) as [->|?]; [lra|]. left. apply ln_increasing; [apply IZR_lt; lia|apply IZR_lt; lia]. }
    rewrite ln_pow2 in M by lia. replace ((IZR (m - 1) - IZR k) * (ln 2 * / ln b))%R with ((IZR (m - 1) * ln 2 + - (IZR k * ln 2)) * / ln b)%R by ring.
    apply Rle_ge, Rmult_le_compat_r; [left; apply Rinv_0_lt_compat; lra|lra]. }
  rewrite minus_IZR in EL. unfold log_to. assert (0 < ln 2 / ln b)%R by (apply Rdiv_lt_0_compat; lra). unfold log_to in EL. apply abs2 in E. lra.
Qed.
Print Assumptions C90_top_half_refuted.

(** Numbers for the program exist for every base; for base 2 and 16 fractional bits they are these. *)
Example C90_coeffs : coeffs_for 16 2 (MkCo (-28355) 149199 (-120843) None).
Proof.
  unfold coeffs_for. replace (ln 2 / ln 2)%R with 1%R by (pose proof ln2_bounds; field; lra). cbn [co2 co1 co0 coadj]. unfold encodes.
  change (2 ^ 16) with 65536. split; [|split; [|split; [|reflexivity]]]; apply abs2; lra.
Qed.
Example C90_coeffs_exist : forall k b, 0 <= k -> exists c, coeffs_for k b c.
Proof.
  intros k b Hk. assert (H : forall r, exists z, encodes k z r).
  { intros r. exists (up (r * IZR (2 ^ k)) - 1). unfold encodes. destruct (archimed (r * IZR (2 ^ k))) as [A B]. rewrite minus_IZR. apply abs2. lra. }
  destruct (H (-0.4326728 * (ln 2 / ln b)))%R as (c2 & H2), (H (2.276597 * (ln 2 / ln b)))%R as (c1 & H1), (H (-1.843924 * (ln 2 / ln b)))%R as (c0 & H0), (H (ln 2 / ln b))%R as (a & Ha).
  exists (MkCo c2 c1 c0 (Some a)). split; [exact H2|]. split; [exact H1|]. split; [exact H0|exact Ha].
Qed.
(** The program, on concrete shares in the default configuration: log2 of 10.0, as a raw value. *)
Example C90_run : map (fun v => match snd (bind (share ex_prf false Arith (FI 64) v true) (fun x => bind (fp_log ex_prf false 16 27 (MkCo (-28355) 149199 (-120843) None) x)
    (fun p => bind (reveal false p) (fun g => ret (vz (q0 g))))) ex_st) with Ok r => Some r | Err _ => None end) [10 * 2 ^ 16]
  = [Some 217959].
Proof. vm_compute. reflexivity. Qed.
