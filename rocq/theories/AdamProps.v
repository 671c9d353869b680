(** Theorems on the divisors of the Adam optimizer and on products of public tensors with plain numbers. *)
From Coq Require Import QArith Qpower Lqa.
From Verif Require Import Base TensorModel TensorProofs AdamModel AdamProofs.
Local Open Scope Z_scope.

(** A decay rate below one that is no power of two. *)
Definition rate (b : Q) : Prop := (0 <= b)%Q /\ (b < 1)%Q /\ forall k, ~ (b == 2 ^ k)%Q.
(** How often a layer has been trained. *)
Definition trained (layer : nat) (history : list nat) : nat := count_occ Nat.eq_dec history layer.

Section ADAM.
Context (w f : Z) (F : 0 <= f) (W : 2 * f < w) (W2 : f < w - 1) (b1 b2 : Q) (R1 : rate b1) (R2 : rate b2) (layers : list nat).
Let c := MkC w f.
Definition state (before : list nat) (a : adam) : Prop := beta1 a = b1 /\ beta2 a = b2 /\
  forall k, In k layers -> pows a k = Some (copies (pw f b1 (trained k before)), copies (pw f b2 (trained k before))).
Lemma state_start : state [] (compile c layers (new b1 b2)).
Proof.
  split; [easy|]. split; [easy|]. intros k K. unfold compile. cbn [pows]. replace (existsb (Nat.eqb k) layers) with true.
  - unfold c. rewrite (one_const w f F W2). reflexivity.
  - symmetry. apply existsb_exists. exists k. split; [easy|apply Nat.eqb_refl].
Qed.
Lemma state_step before a k : state before a -> In k layers ->
  exists a', apply_gradients c a k = Ok (a', (decode (2 ^ f) (2 ^ f - pw f b1 (S (trained k before))), decode (2 ^ f) (2 ^ f - pw f b2 (S (trained k before))))) /\
  state (before ++ [k]) a'.
Proof.
  intros (B1 & B2 & P) K. unfold apply_gradients. rewrite (P k K), B1, B2. destruct R1 as (A1 & A2 & A3). destruct R2 as (D1 & D2 & D3).
  unfold c. rewrite (mul_pw w f F W b1 A1 A2 A3), (mul_pw w f F W b2 D1 D2 D3).
  rewrite (divisor_raw w f F b1 A1 A2 _ W2), (divisor_raw w f F b2 D1 D2 _ W2). eexists. split; [reflexivity|].
  split; [easy|]. split; [easy|]. intros k' K'. cbn [pows]. unfold trained in *. rewrite count_occ_app. cbn [count_occ].
  destruct (Nat.eqb_spec k' k) as [->|N].
  - destruct (Nat.eq_dec k k); [|easy]. now rewrite Nat.add_1_r.
  - destruct (Nat.eq_dec k k'); [congruence|]. rewrite Nat.add_0_r. now apply P.
Qed.
Lemma steps_spec history : forall before a, state before a -> Forall (fun k => In k layers) history ->
  exists ds, steps c a history = Ok ds /\ length ds = length history /\
  forall i k d, nth_error history i = Some k -> nth_error ds i = Some d ->
    d = (decode (2 ^ f) (2 ^ f - pw f b1 (trained k (before ++ firstn (S i) history))), decode (2 ^ f) (2 ^ f - pw f b2 (trained k (before ++ firstn (S i) history)))).
Proof.
  induction history as [|k history IH]; intros before a S Fo.
  - exists []. split; [easy|]. split; [easy|]. intros [|i]; discriminate.
  - assert (K : In k layers) by now inversion Fo. destruct (state_step before a k S K) as (a' & E & S'). destruct (IH _ _ S') as (ds & E2 & L & H); [now inversion Fo|].
    eexists. cbn [steps]. rewrite E, E2. split; [reflexivity|]. split; [cbn; now rewrite L|]. intros [|i] k' d N1 N2.
    + cbn in N1, N2. injection N1 as <-. injection N2 as <-. cbn [firstn]. unfold trained. rewrite count_occ_app. cbn [count_occ]. destruct (Nat.eq_dec k k); [|easy]. now rewrite Nat.add_1_r.
    + change (nth_error history i = Some k') in N1. change (nth_error ds i = Some d) in N2. rewrite (H i k' d N1 N2). rewrite <- app_assoc. reflexivity.
Qed.
Lemma trained_last history i (k : nat) : nth_error history i = Some k -> trained k (firstn (S i) history) <> O.
Proof.
  intros N. unfold trained. assert (I : In k (firstn (S i) history)).
  { revert i N. induction history as [|a l IH]; intros [|i] N; try discriminate; cbn in N.
    - injection N as <-. now left.
    - right. now apply IH. }
  apply (count_occ_In Nat.eq_dec) in I. lia.
Qed.
End ADAM.

Lemma decode_pw f b t : 0 <= f -> (decode (2 ^ f) (2 ^ f - pw f b t) == 1 - inject_Z (pw f b t) / inject_Z (2 ^ f))%Q.
Proof.
  intros F. pose proof (pow2_pos f F) as P. unfold decode. unfold Z.sub. rewrite inject_Z_plus, inject_Z_opp. field.
  change 0%Q with (inject_Z 0). rewrite inject_Z_injective. lia.
Qed.

(** ** C68: in any order of training the layers, every divisor is positive and at most one *)
Theorem C68_divisors w f b1 b2 layers history : 0 <= f -> 2 * f < w -> f < w - 1 -> rate b1 -> rate b2 -> Forall (fun k => In k layers) history ->
  exists ds, steps (MkC w f) (compile (MkC w f) layers (new b1 b2)) history = Ok ds /\ length ds = length history /\
  forall d, In d ds -> (0 < fst d)%Q /\ (fst d <= 1)%Q /\ (0 < snd d)%Q /\ (snd d <= 1)%Q.
Proof.
  intros F W W2 R1 R2 Fo. destruct (steps_spec w f F W W2 b1 b2 R1 R2 layers history [] _ (state_start w f F W2 b1 b2 layers) Fo) as (ds & E & L & H).
  exists ds. split; [easy|]. split; [easy|]. intros d D. apply In_nth_error in D. destruct D as [i D].
  destruct (nth_error history i) as [k|] eqn:K; [|apply nth_error_None in K; assert (i < length ds)%nat by (apply nth_error_Some; congruence); lia].
  rewrite (H i k d K D). cbn [fst snd]. pose proof (trained_last history i k K) as T.
  assert (G : forall b, rate b -> let v := pw f b (trained k ([] ++ firstn (S i) history)) in (0 < decode (2 ^ f) (2 ^ f - v))%Q /\ (decode (2 ^ f) (2 ^ f - v) <= 1)%Q).
  { intros b (B0 & B1 & _) v. destruct (pw_bounds f F b B0 B1 (trained k (firstn (S i) history))) as [P Q]. specialize (Q T).
    cbn [app] in v. fold v in P, Q. pose proof (pow2_pos f F) as O. unfold decode.
    assert (OQ : (0 < inject_Z (2 ^ f))%Q) by (change 0%Q with (inject_Z 0); rewrite <- Zlt_Qlt; lia). split.
    - apply Qlt_shift_div_l; [easy|]. rewrite Qmult_0_l. change 0%Q with (inject_Z 0). rewrite <- Zlt_Qlt. lia.
    - apply Qle_shift_div_r; [easy|]. rewrite Qmult_1_l. rewrite <- Zle_Qle. lia. }
  destruct (G b1 R1). destruct (G b2 R2). easy.
Qed.
Print Assumptions C68_divisors.

(** They are the numbers 1 - beta^t of the layer, up to 2t units in the last place and never below; after 2^f steps they are exactly one. *)
Theorem C68_accuracy w f b1 b2 layers history i k : 0 <= f -> 2 * f < w -> f < w - 1 -> rate b1 -> rate b2 -> Forall (fun k => In k layers) history ->
  nth_error history i = Some k -> let t := trained k (firstn (S i) history) in
  exists ds d, steps (MkC w f) (compile (MkC w f) layers (new b1 b2)) history = Ok ds /\ nth_error ds i = Some d /\
  (1 - b1 ^ Z.of_nat t <= fst d <= 1 - b1 ^ Z.of_nat t + inject_Z (2 * Z.of_nat t) / inject_Z (2 ^ f))%Q /\
  (1 - b2 ^ Z.of_nat t <= snd d <= 1 - b2 ^ Z.of_nat t + inject_Z (2 * Z.of_nat t) / inject_Z (2 ^ f))%Q /\
  (2 ^ f <= Z.of_nat t -> (fst d == 1)%Q /\ (snd d == 1)%Q).
Proof.
  intros F W W2 R1 R2 Fo K t. destruct (steps_spec w f F W W2 b1 b2 R1 R2 layers history [] _ (state_start w f F W2 b1 b2 layers) Fo) as (ds & E & L & H).
  exists ds. destruct (nth_error ds i) as [d|] eqn:D; [|apply nth_error_None in D; assert (i < length history)%nat by (apply nth_error_Some; congruence); lia].
  exists d. split; [easy|]. split; [easy|]. rewrite (H i k d K D). cbn [fst snd app]. fold t.
  destruct R1 as (A1 & A2 & _). destruct R2 as (D1 & D2 & _).
  rewrite !decode_pw by easy. pose proof (pw_accuracy f F b1 A1 A2 t) as [P1 P2]. pose proof (pw_accuracy f F b2 D1 D2 t) as [Q1 Q2].
  split; [lra|]. split; [lra|]. intros T. rewrite (pw_zero f F b1 A1 A2 t T), (pw_zero f F b2 D1 D2 t T). pose proof (pow2_pos f F) as O.
  assert (OQ : (0 < inject_Z (2 ^ f))%Q) by (change 0%Q with (inject_Z 0); rewrite <- Zlt_Qlt; lia). split; field; lra.
Qed.
Print Assumptions C68_accuracy.

Lemma inverse_pw w f b t : 0 <= f -> 2 * f < w - 1 -> rate b -> t <> O -> let d := decode (2 ^ f) (2 ^ f - pw f b t) in
  inverse_raw (MkC w f) d = encode (2 ^ f) (/ d) /\ 2 ^ f <= inverse_raw (MkC w f) d <= 2 ^ (2 * f).
Proof.
  intros F W (B0 & B1 & _) T d. destruct (pw_bounds f F b B0 B1 t) as [P Q]. specialize (Q T). pose proof (pow2_pos f F) as O.
  assert (S2 : 2 ^ (2 * f) = 2 ^ f * 2 ^ f) by (rewrite <- Z.pow_add_r by lia; f_equal; lia).
  assert (EQ : encode (2 ^ f) (/ d) = 2 ^ f * 2 ^ f / (2 ^ f - pw f b t)).
  { set (m := 2 ^ f) in *. set (n := m - pw f b t) in *. assert (N : 0 < n <= m) by lia. unfold d. fold m. fold n. clearbody m n. clear - O N.
    rewrite (encode_Qeq m _ (m # Z.to_pos n)%Q O).
    - unfold encode. cbn [Qnum Qden]. rewrite Z2Pos.id by lia. apply Z.quot_div_nonneg; nia.
    - rewrite (Qmake_Qdiv m). rewrite Z2Pos.id by lia. unfold decode. field. split; change 0%Q with (inject_Z 0); rewrite inject_Z_injective; lia. }
  assert (BD : 2 ^ f <= encode (2 ^ f) (/ d) <= 2 ^ (2 * f)).
  { rewrite EQ, S2. set (m := 2 ^ f) in *. set (n := m - pw f b t) in *. assert (N : 0 < n <= m) by lia. clear - O N. split.
    - apply Z.div_le_lower_bound; nia.
    - apply Z.div_le_upper_bound; nia. }
  assert (I : inverse_raw (MkC w f) d = encode (2 ^ f) (/ d)).
  { unfold inverse_raw. cbn [bits frac]. apply swrap_id; [lia|]. unfold in_s. pose proof (Z.pow_lt_mono_r 2 (2 * f) (w - 1) ltac:(lia) ltac:(lia) W). lia. }
  split; [easy|]. rewrite I. exact BD.
Qed.
(** The inverses by which the moments are multiplied fit in the word and are at least one. *)
Theorem C68_inverse w f b1 b2 layers history : 0 <= f -> 2 * f < w - 1 -> rate b1 -> rate b2 -> Forall (fun k => In k layers) history ->
  exists ds, steps (MkC w f) (compile (MkC w f) layers (new b1 b2)) history = Ok ds /\
  forall d q, In d ds -> q = fst d \/ q = snd d ->
    inverse_raw (MkC w f) q = encode (2 ^ f) (/ q) /\ 2 ^ f <= inverse_raw (MkC w f) q <= 2 ^ (2 * f).
Proof.
  intros F W R1 R2 Fo. assert (W2 : 2 * f < w) by lia. assert (W3 : f < w - 1) by lia.
  destruct (steps_spec w f F W2 W3 b1 b2 R1 R2 layers history [] _ (state_start w f F W3 b1 b2 layers) Fo) as (ds & E & L & H).
  exists ds. split; [easy|]. intros d q D Q. apply In_nth_error in D. destruct D as [i D].
  destruct (nth_error history i) as [k|] eqn:K; [|apply nth_error_None in K; assert (i < length ds)%nat by (apply nth_error_Some; congruence); lia].
  pose proof (trained_last history i k K) as T. rewrite (H i k d K D) in Q. cbn [fst snd app] in Q. destruct Q as [-> | ->]; now apply inverse_pw.
Qed.
Print Assumptions C68_inverse.

(** With a power of two as beta, the very first step raises TypeError. *)
Theorem C68_power_of_two_refuted w f b1 b2 layers k e : In k layers -> e <> 0 -> (b1 == 2 ^ e)%Q \/ (b2 == 2 ^ e)%Q /\ (forall e, ~ (b1 == 2 ^ e)%Q) ->
  steps (MkC w f) (compile (MkC w f) layers (new b1 b2)) [k] = Err TypeError.
Proof.
  intros K N B. cbn [steps]. unfold apply_gradients, compile. cbn [pows beta1 beta2]. replace (existsb (Nat.eqb k) layers) with true by (symmetry; apply existsb_exists; exists k; split; [easy|apply Nat.eqb_refl]).
  cbn [new beta1 beta2]. unfold mul, mul_pow2. apply Z.eqb_neq in N. destruct B as [B|[B NB]].
  - now rewrite (log2_exact_pow _ _ B), N.
  - destruct (log2_exact b1) as [x|] eqn:L; [apply log2_exact_some in L; now destruct (NB x)|]. now rewrite (log2_exact_pow _ _ B), N.
Qed.
Print Assumptions C68_power_of_two_refuted.

(** ** C86: public tensors and plain numbers *)

(** Products with other numbers are those of the encodings, truncated. *)
Theorem C86_product w f q v : 0 <= f -> 0 < w -> in_s w v -> (forall k, ~ (q == 2 ^ k)%Q) -> in_s w (encode (2 ^ f) q) -> in_s w (v * encode (2 ^ f) q) ->
  mul (MkC w f) (v, v, v) q = Ok (let r := v * encode (2 ^ f) q / 2 ^ f in (r, r, r)).
Proof.
  intros F W V NP E P. unfold mul. destruct (log2_exact q) as [x|] eqn:L; [apply log2_exact_some in L; now destruct (NP x)|].
  unfold mul_public_public, constant, each. cbn [bits frac]. rewrite (swrap_id w (encode _ q)) by easy. rewrite swrap_id by easy. now rewrite Z.shiftr_div_pow2.
Qed.
Print Assumptions C86_product.
(** Quotients by other numbers are the truncated products with the encoding of the inverse. *)
Theorem C86_quotient w f q v : 0 <= f -> 0 < w -> in_s w v -> (forall k, ~ (q == 2 ^ k)%Q) -> in_s w (encode (2 ^ f) (1 / q)) -> in_s w (v * encode (2 ^ f) (1 / q)) ->
  div (MkC w f) (v, v, v) q = Ok (let r := v * encode (2 ^ f) (1 / q) / 2 ^ f in (r, r, r)).
Proof.
  intros F W V NP E P. unfold div. destruct (log2_exact q) as [x|] eqn:L; [apply log2_exact_some in L; now destruct (NP x)|].
  assert (I : encode (2 ^ f) (1 / q) = encode (2 ^ f) (/ q)). { apply encode_Qeq; [now apply pow2_pos|]. unfold Qdiv. apply Qmult_1_l. }
  rewrite I in *. apply C86_product; try easy. intros k K. apply (NP (- k)). rewrite Qpower_opp, <- K. symmetry. apply Qinv_involutive.
Qed.
Print Assumptions C86_quotient.
(** Products with and quotients by a power of two other than one raise TypeError. *)
Theorem C86_power_of_two_refuted c x q e : (q == 2 ^ e)%Q -> e <> 0 -> mul c x q = Err TypeError /\ div c x q = Err TypeError.
Proof.
  intros E N. unfold mul, div, mul_pow2. rewrite (log2_exact_pow q e E). split.
  - now apply Z.eqb_neq in N as ->.
  - assert (M : - e <> 0) by lia. now apply Z.eqb_neq in M as ->.
Qed.
Print Assumptions C86_power_of_two_refuted.

(** ** Cases *)
Lemma rate_09 : rate (9 # 10).
Proof. split; [easy|]. split; [easy|]. intros k E. apply log2_exact_pow in E. vm_compute in E. discriminate. Qed.
Lemma rate_0999 : rate (999 # 1000).
Proof. split; [easy|]. split; [easy|]. intros k E. apply log2_exact_pow in E. vm_compute in E. discriminate. Qed.
Example C68_nonvacuous : rate (9 # 10) /\ rate (999 # 1000) /\
  steps (MkC 64 16) (compile (MkC 64 16) [7; 8]%nat (new (9 # 10) (999 # 1000))) [7; 8; 7]%nat =
  Ok [(6554 # 65536, 66 # 65536); (6554 # 65536, 66 # 65536); (12453 # 65536, 132 # 65536)]%Q.
Proof. split; [exact rate_09|]. split; [exact rate_0999|]. vm_compute. reflexivity. Qed.
Example C86_nonvacuous : mul (MkC 64 16) (65536, 65536, 65536) 3 = Ok (196608, 196608, 196608) /\ mul (MkC 64 16) (65536, 65536, 65536) (1 # 4) = Err TypeError /\
  div (MkC 64 16) (65536, 65536, 65536) 8 = Err TypeError /\ div (MkC 64 16) (65536, 65536, 65536) 3 = Ok (21845, 21845, 21845).
Proof. repeat split; vm_compute; reflexivity. Qed.
