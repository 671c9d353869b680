(** Proofs about the powers kept by the Adam optimizer. *)
From Coq Require Import QArith Qpower Lqa.
From Coq Require Qcanon.
From Verif Require Import Base TensorModel TensorProofs AdamModel.
Local Open Scope Z_scope.

(** ** Powers of two *)
Lemma Qpow2_pos k : 0 <= k -> (2 ^ k == inject_Z (2 ^ k))%Q.
Proof. intros K. change 2%Q with (inject_Z 2). destruct k as [|p|p]; [reflexivity| |easy]. now rewrite Zpower_Qpower. Qed.
Lemma Qpow2_neg k : 0 <= k -> (2 ^ (- k) == / inject_Z (2 ^ k))%Q.
Proof. intros K. now rewrite Qpower_opp, Qpow2_pos. Qed.
Lemma log2_exact_some q e : log2_exact q = Some e -> (q == 2 ^ e)%Q.
Proof.
  unfold log2_exact. intros E. apply Qeq_trans with (Qred q); [apply Qeq_sym, Qred_correct|]. revert E. set (r := Qred q). destruct r as [n d]. cbn [Qnum Qden].
  destruct (Z.ltb_spec 0 n) as [P|]; [|discriminate]. cbn [andb].
  destruct (Z.eqb_spec n (2 ^ Z.log2 n)) as [N|]; [|discriminate]. cbn [andb].
  destruct (Z.eqb_spec (Zpos d) (2 ^ Z.log2 (Zpos d))) as [D|]; [|discriminate]. intros E. apply (f_equal (fun o => match o with Some v => v | None => 0 end)) in E. cbv beta iota in E. subst e.
  assert (Q2 : ~ (2 == 0)%Q) by discriminate.
  pose proof (Z.log2_nonneg n). pose proof (Z.log2_nonneg (Zpos d)).
  replace (Z.log2 n - Z.log2 (Z.pos d)) with (Z.log2 n + - Z.log2 (Z.pos d)) by ring.
  rewrite Qpower_plus, Qpow2_pos, Qpow2_neg by easy. rewrite <- N, <- D. rewrite (Qmake_Qdiv n d). reflexivity.
Qed.
Lemma log2_exact_pow q e : (q == 2 ^ e)%Q -> log2_exact q = Some e.
Proof.
  intros E. assert (R : Qred q = if 0 <=? e then (2 ^ e # 1)%Q else (1 # Z.to_pos (2 ^ (- e)))%Q).
  { rewrite (Qred_complete _ _ E). destruct (Z.leb_spec 0 e) as [P|P].
    - rewrite (Qred_complete _ _ (Qpow2_pos e P)). unfold inject_Z. apply Qcanon.Qred_identity. cbn. apply Z.gcd_1_r.
    - replace e with (- (- e)) at 1 by lia. rewrite (Qred_complete _ _ (Qpow2_neg (- e) ltac:(lia))).
      assert (K : 0 < 2 ^ (- e)) by (apply Z.pow_pos_nonneg; lia). destruct (2 ^ (- e)) as [|p|p]; try lia. unfold inject_Z, Qinv. cbn [Qnum Qden Z.to_pos].
      apply Qcanon.Qred_identity. reflexivity. }
  unfold log2_exact. rewrite R. destruct (Z.leb_spec 0 e) as [P|P]; cbn [Qnum Qden].
  - rewrite Z.log2_pow2 by easy. rewrite Z.eqb_refl. cbn. replace (0 <? 2 ^ e) with true by (symmetry; apply Z.ltb_lt; now apply pow2_pos). cbn. f_equal. lia.
  - rewrite Z2Pos.id by (apply Z.pow_pos_nonneg; lia). rewrite Z.log2_pow2 by lia. rewrite !Z.eqb_refl. cbn. f_equal. lia.
Qed.

(** ** Powers of beta *)
Section POWERS.
Context (w f : Z) (F : 0 <= f) (W : 2 * f < w).
Let c := MkC w f.
Let one := 2 ^ f.
(** A raw value at all three servers. *)
Definition copies (v : Z) : pub := (v, v, v).
Lemma one_pos : 0 < one. Proof. now apply pow2_pos. Qed.
Lemma fits v : 0 <= v < one * one -> swrap w v = v.
Proof.
  intros V. apply swrap_id; [lia|]. unfold in_s. assert (one * one <= 2 ^ (w - 1)).
  { unfold one. rewrite <- Z.pow_add_r by lia. apply Z.pow_le_mono_r; lia. } pose proof (pow2_pos (w - 1) ltac:(lia)). lia.
Qed.
Lemma encode_one : encode one 1 = one.
Proof. unfold encode. cbn [Qnum Qden]. rewrite Z.mul_1_l. apply Z.quot_1_r. Qed.
Lemma one_const : f < w - 1 -> constant c 1 = copies one.
Proof.
  intros L. unfold constant. cbn [bits frac c]. fold one. rewrite encode_one. unfold copies. rewrite swrap_id; [easy|lia|].
  unfold in_s. pose proof one_pos. pose proof (Z.pow_lt_mono_r 2 f (w - 1) ltac:(lia) ltac:(lia) L). unfold one in *. lia.
Qed.
Context (beta : Q) (B0 : (0 <= beta)%Q) (B1 : (beta < 1)%Q).
Let e := encode one beta.
Lemma e_bounds : 0 <= e < one /\ (inject_Z e <= beta * inject_Z one < inject_Z e + 1)%Q.
Proof.
  pose proof one_pos as O. unfold e, encode. destruct beta as [n d]. cbn [Qnum Qden] in *. unfold Qle, Qlt in *. cbn [Qnum Qden] in *.
  rewrite Z.quot_div_nonneg by nia. pose proof (Z.div_mod (n * one) (Zpos d) ltac:(lia)) as M. pose proof (Z.mod_pos_bound (n * one) (Zpos d) ltac:(lia)) as R.
  set (v := n * one / Zpos d) in *. split; [nia|]. unfold Qle, Qlt, inject_Z, Qmult, Qplus. cbn [Qnum Qden]. rewrite !Pos2Z.inj_mul. nia.
Qed.
(** Raw power after [t] steps. *)
Fixpoint pw (t : nat) : Z := match t with O => one | S t => pw t * e / one end.
Lemma pw_bounds t : 0 <= pw t <= one /\ (t <> O -> pw t < one).
Proof.
  pose proof one_pos as O. destruct e_bounds as [E _]. induction t as [|t [IH _]]; cbn [pw]; [split; [lia|easy]|].
  assert (0 <= pw t * e / one) by (apply Z.div_pos; nia). assert (pw t * e / one < one) by (apply Z.div_lt_upper_bound; nia). split; [lia|easy].
Qed.
Lemma pw_decreases t : 0 < pw t -> pw (S t) < pw t.
Proof. intros P. pose proof one_pos as O. destruct e_bounds as [E _]. cbn [pw]. apply Z.div_lt_upper_bound; nia. Qed.
Lemma pw_zero t : one <= Z.of_nat t -> pw t = 0.
Proof.
  assert (H : pw t <= Z.max 0 (one - Z.of_nat t)).
  { induction t as [|t IH]; [cbn; pose proof one_pos; lia|]. destruct (pw_bounds t) as [A _]. destruct (Z.eq_dec (pw t) 0) as [Z|Z].
    - cbn [pw]. rewrite Z. rewrite Z.mul_0_l, Z.div_0_l by (pose proof one_pos; lia). lia.
    - pose proof (pw_decreases t). lia. }
  pose proof (pw_bounds t). lia.
Qed.
Lemma divisor_raw t : f < w - 1 -> one_minus c (copies (pw t)) = copies (one - pw t).
Proof.
  intros L. unfold one_minus. rewrite one_const by easy. unfold sub_public_public, each, copies. cbn [bits c]. destruct (pw_bounds t) as [P _].
  rewrite swrap_id; [easy|lia|]. unfold in_s. pose proof (Z.pow_lt_mono_r 2 f (w - 1) ltac:(lia) ltac:(lia) L). unfold one in *. lia.
Qed.
(** Distance from the real power, in Q. *)
Lemma pw_accuracy t : (beta ^ Z.of_nat t - inject_Z (2 * Z.of_nat t) / inject_Z one <= inject_Z (pw t) / inject_Z one <= beta ^ Z.of_nat t)%Q.
Proof.
  pose proof one_pos as O. assert (OQ : (0 < inject_Z one)%Q) by (unfold Qlt, inject_Z; cbn; lia).
  destruct e_bounds as [E [E1 E2]]. induction t as [|t [IH1 IH2]].
  - cbn [pw Z.of_nat]. rewrite Z.mul_0_r. assert (X : (inject_Z one / inject_Z one == 1)%Q) by (field; lra). rewrite X. unfold Qdiv. rewrite Qmult_0_l. cbn. lra.
  - assert (PW : (beta ^ Z.of_nat (S t) == beta ^ Z.of_nat t * beta)%Q).
    { rewrite Nat2Z.inj_succ, <- Z.add_1_r. destruct (Qeq_dec beta 0) as [Z|Z].
      - rewrite Z. rewrite (Qpower_0 (Z.of_nat t + 1)) by lia. lra.
      - rewrite Qpower_plus by easy. now rewrite Qpower_1_r. }
    rewrite PW. clear PW. set (x := (beta ^ Z.of_nat t)%Q) in *. cbn [pw].
    destruct (pw_bounds t) as [P _]. set (v := pw t) in *.
    assert (D : (inject_Z v * inject_Z e / inject_Z one - 1 <= inject_Z (v * e / one) <= inject_Z v * inject_Z e / inject_Z one)%Q).
    { pose proof (Z.div_mod (v * e) one ltac:(lia)) as M. pose proof (Z.mod_pos_bound (v * e) one O) as R. set (d := v * e / one) in *.
      rewrite <- inject_Z_mult, M, inject_Z_plus, inject_Z_mult.
      assert (X : ((inject_Z one * inject_Z d + inject_Z ((v * e) mod one)) / inject_Z one == inject_Z d + inject_Z ((v * e) mod one) / inject_Z one)%Q) by (field; lra).
      rewrite X. set (r := (v * e) mod one) in *. assert (0 <= inject_Z r / inject_Z one)%Q.
      { apply Qle_shift_div_l; [easy|]. rewrite Qmult_0_l. unfold Qle, inject_Z; cbn; lia. }
      assert (inject_Z r / inject_Z one <= 1)%Q by (apply Qle_shift_div_r; [easy|]; rewrite Qmult_1_l; unfold Qle, inject_Z; cbn; lia). lra. }
    assert (V : (0 <= inject_Z v <= inject_Z one)%Q) by (unfold Qle, inject_Z; cbn; lia).
    set (m := (inject_Z one)) in *. set (z := inject_Z (v * e / one)) in *. set (vq := inject_Z v) in *. set (eq := inject_Z e) in *.
    replace (2 * Z.of_nat (S t)) with (2 * Z.of_nat t + 2) by lia. rewrite inject_Z_plus. set (k := inject_Z (2 * Z.of_nat t)) in *. change (inject_Z 2) with 2%Q.
    assert (K : (0 <= k)%Q) by (unfold k; change 0%Q with (inject_Z 0); rewrite <- Zle_Qle; lia).
    clearbody m z vq eq k x. clear - B0 B1 OQ E1 E2 IH1 IH2 D V K.
    set (a := (vq / m)%Q) in *. assert (VA : (vq == a * m)%Q) by (unfold a; field; lra). rewrite VA in *.
    assert (A : (0 <= a <= 1)%Q). { split; [apply Qle_shift_div_l; [easy|lra]|apply Qle_shift_div_r; [easy|lra]]. }
    assert (Y : (a * m * eq / m == a * eq)%Q) by (field; lra). rewrite Y in D. clear Y VA.
    assert (KM : (k / m * m == k)%Q) by (field; lra). set (h := (k / m)%Q) in *.
    assert (ZM : (z / m * m == z)%Q) by (field; lra). set (zm := (z / m)%Q) in *.
    assert (SM : ((k + 2) / m * m == k + 2)%Q) by (field; lra). set (s := ((k + 2) / m)%Q) in *.
    assert (EB : (a * eq <= a * (beta * m))%Q) by nra. assert (EC : (a * (beta * m) - a <= a * eq)%Q) by nra.
    assert (XH : (0 <= h)%Q) by (unfold h; apply Qle_shift_div_l; [easy|lra]).
    split.
    + assert (G : ((x * beta - s) * m <= zm * m)%Q).
      { rewrite ZM. assert (((x * beta - s) * m == x * beta * m - (k + 2))%Q) by (rewrite <- SM; ring).
        assert (L : ((x - h) * (beta * m) <= a * (beta * m))%Q) by (apply Qmult_le_compat_r; [easy|nra]).
        assert (L2 : (h * (beta * m) <= k)%Q) by nra. lra. }
      now apply Qmult_le_r in G.
    + assert (G : (zm * m <= x * beta * m)%Q). { rewrite ZM. assert (L : (a * (beta * m) <= x * (beta * m))%Q) by (apply Qmult_le_compat_r; [easy|nra]). lra. } now apply Qmult_le_r in G.
Qed.
Context (NP : forall k, ~ (beta == 2 ^ k)%Q).
Lemma mul_pw t : mul c (copies (pw t)) beta = Ok (copies (pw (S t))).
Proof.
  unfold mul. destruct (log2_exact beta) as [k|] eqn:L; [apply log2_exact_some in L; now destruct (NP k)|]. f_equal.
  unfold mul_public_public, constant, each, copies. cbn [bits frac c]. fold one. fold e. destruct e_bounds as [E _]. destruct (pw_bounds t) as [P _]. pose proof one_pos as O.
  rewrite (fits e) by nia. rewrite fits by nia. rewrite Z.shiftr_div_pow2 by easy. reflexivity.
Qed.
End POWERS.
