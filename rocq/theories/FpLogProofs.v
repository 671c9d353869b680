(** Proofs about ABY3's logarithms. *)
From Coq Require Import Reals Lra Psatz.
From Verif Require Import Base TensorModel TensorProofs Aby3Model Aby3Spec Aby3Proofs Aby3Bits Aby3Circ Aby3Cmp Aby3Trunc Aby3Net KernSpec KernBits FpModel FpSpec FpProofs FpRecip FpLogModel FpLogReal FpLogSpec.
Open Scope Z_scope.

Lemma xor_bits_eq n v : xor_bits n v = xor_all (set_positions (Z.to_nat n) v).
Proof. reflexivity. Qed.
Lemma positions_pow2 j : 0 <= j -> forall c a, filter (Z.testbit (2 ^ j)) (map Z.of_nat (seq a c)) = if (Z.of_nat a <=? j) && (j <? Z.of_nat (a + c)) then [j] else [].
Proof.
  intros Hj. induction c as [|c IH]; intros a; cbn [seq map filter].
  - destruct (Z.leb_spec (Z.of_nat a) j), (Z.ltb_spec j (Z.of_nat (a + 0))); cbn [andb]; try reflexivity; lia.
  - rewrite IH, Z.pow2_bits_eqb by exact Hj. destruct (Z.eqb_spec j (Z.of_nat a)) as [E|E].
    + destruct (Z.leb_spec (Z.of_nat (S a)) j); [lia|]. cbn [andb]. destruct (Z.leb_spec (Z.of_nat a) j), (Z.ltb_spec j (Z.of_nat (a + S c))); cbn [andb]; try lia. congruence.
    + destruct (Z.leb_spec (Z.of_nat (S a)) j), (Z.ltb_spec j (Z.of_nat (S a + c))), (Z.leb_spec (Z.of_nat a) j), (Z.ltb_spec j (Z.of_nat (a + S c))); cbn [andb]; try reflexivity; lia.
Qed.
Lemma xor_bits_top n w : 0 < n -> w < 2 ^ n -> xor_bits n (top w) = if 0 <? w then Z.log2 w else 0.
Proof.
  intros Hn Hw. unfold top. destruct (Z.ltb_spec 0 w) as [Hp|Hp].
  - assert (Z.log2 w < n) by (apply Z.log2_lt_pow2; assumption). pose proof (Z.log2_nonneg w).
    unfold xor_bits. rewrite positions_pow2 by assumption. cbn [Nat.add]. rewrite Z2Nat.id by lia. destruct (Z.leb_spec (Z.of_nat 0) (Z.log2 w)); [|lia].
    destruct (Z.ltb_spec (Z.log2 w) n); [|lia]. cbn [andb fold_right]. apply Z.lxor_0_r.
  - unfold xor_bits. induction (map Z.of_nat (seq 0 (Z.to_nat n))) as [|a l IH]; [reflexivity|]. cbn [filter]. rewrite Z.testbit_0_l. exact IH.
Qed.
Lemma xor_bits_range n v : 4 <= n -> 0 <= xor_bits n v < 2 ^ (n - 1).
Proof.
  intros Hn. rewrite xor_bits_eq. apply xor_all_range; [lia|]. rewrite Z2Nat.id by lia.
  assert (H : forall c : nat, Z.of_nat c + 4 <= 2 ^ (Z.of_nat c + 3)).
  { induction c as [|c IH]; [discriminate|]. rewrite Nat2Z.inj_succ. replace (Z.succ (Z.of_nat c) + 3) with (Z.succ (Z.of_nat c + 3)) by lia. rewrite Z.pow_succ_r by lia. lia. }
  specialize (H (Z.to_nat (n - 4))). rewrite Z2Nat.id in H by lia. replace (n - 4 + 3) with (n - 1) in H by lia. lia.
Qed.

(** The exponent; one bit is lost for the smallest value. *)
Definition lexpo (k w : Z) : Z := if 1 <? w then 2 ^ (2 * k - Z.log2 w) else 0.
Lemma lexpo_ok n k w : 0 < k -> 2 * k < n -> w < 2 ^ (2 * k) -> Z.shiftr (rev_bits n (top w)) (n - 2 * k - 1) mod 2 ^ (2 * k) = lexpo k w.
Proof.
  intros Hk Hn Hw. apply Z.bits_inj'. intros i Hi. rewrite mod_pow2_bits by lia. rewrite Z.shiftr_spec by exact Hi. rewrite rev_bits_spec by lia.
  unfold top, lexpo. destruct (Z.ltb_spec 0 w) as [Hp|Hp], (Z.ltb_spec 1 w) as [Hp1|Hp1]; try lia.
  - assert (Hl : Z.log2 w < 2 * k) by (apply Z.log2_lt_pow2; assumption). assert (0 < Z.log2 w) by (apply Z.log2_pos; assumption).
    rewrite Z.pow2_bits_eqb by lia. destruct (Z.ltb_spec i (2 * k)).
    + rewrite Z.pow2_bits_eqb by lia. cbn [andb]. lia.
    + rewrite Z.pow2_bits_eqb by lia. cbn [andb]. symmetry. apply Z.eqb_neq. lia.
  - replace w with 1 by lia. change (2 ^ Z.log2 1) with (2 ^ 0). rewrite Z.pow2_bits_eqb by lia. rewrite Z.testbit_0_l.
    destruct (Z.ltb_spec i (2 * k)); [|reflexivity]. cbn [andb]. apply Z.eqb_neq. lia.
  - rewrite !Z.testbit_0_l. apply Bool.andb_false_r.
Qed.

(** The truncation of a scaled value; see [mul_round]. *)
Section Ops.
Context (prf : fac -> key -> Z -> nat -> Z) (colo : bool) (Hprf : prf_words prf).

Lemma trunc_round n sc k z X : 1 < n -> 0 <= sc -> 0 <= k -> sc + k <= n - 2 -> arith n z X -> psc z = true -> fits n X ->
  yields (truncate_heuristic prf colo sc k z) (fun t => psc t = true /\ exists r, rounded k X r /\ arith n t r).
Proof.
  intros Hn Hsc Hk Hb Hz Sz HX. unfold fits in HX.
  assert (E1 : 2 ^ (n - 1) = 2 * 2 ^ (n - 2)) by (rewrite (pow2_half (n - 1)) by lia; do 2 f_equal; lia). intros s.
  destruct (heuristic_at prf colo Hprf n sc k z X s Hn Hsc Hk ltac:(rewrite Sz; exact Hb) Hz) as (t & Et & St & Ht). cbv zeta in Ht.
  exists t. split; [exact Et|]. split; [congruence|].
  assert (EY : swrap n (X + 2 ^ (n - 2)) = X + 2 ^ (n - 2)) by (apply swrap_id; [lia|]; unfold in_s; lia).
  rewrite EY in Ht. set (r := sq8_mask prf n s) in *.
  replace (sq8_g n (X + 2 ^ (n - 2)) r) with 0 in Ht by (unfold sq8_g; destruct (Z.ltb_spec (X + 2 ^ (n - 2)) 0); [lia|reflexivity]).
  assert (E2 : 2 ^ (n - 2) = 2 ^ (n - 2 - k) * 2 ^ k) by (rewrite <- pow2_split by lia; f_equal; lia).
  pose proof (pow2_pos k ltac:(lia)) as Hp.
  assert (ED : (X + 2 ^ (n - 2)) / 2 ^ k = X / 2 ^ k + 2 ^ (n - 2 - k)) by (rewrite E2, Z.div_add by lia; reflexivity).
  rewrite ED in Ht. set (e := sq8_e k (X + 2 ^ (n - 2)) r) in *.
  replace (X / 2 ^ k + 2 ^ (n - 2 - k) + e + 0 * 2 ^ (n - k) - 2 ^ (n - 2 - k)) with (X / 2 ^ k + e) in Ht by ring.
  assert (He : e = 0 \/ e = 1) by (unfold e, sq8_e; destruct (_ <=? _); auto).
  assert (He0 : X mod 2 ^ k = 0 -> e = 0).
  { intros H0. unfold e, sq8_e. rewrite E2, Z.mod_add, H0 by lia. pose proof (Z.mod_pos_bound r (2 ^ k) Hp). destruct (Z.leb_spec (2 ^ k) (0 + r mod 2 ^ k)); [lia|reflexivity]. }
  assert (X / 2 ^ k < 2 ^ (n - 2)). { apply Z.div_lt_upper_bound; nia. }
  assert (- 2 ^ (n - 2) <= X / 2 ^ k). { apply Z.div_le_lower_bound; nia. }
  rewrite swrap_id in Ht; [|lia|unfold in_s; lia].
  exists (X / 2 ^ k + e). split; [|exact Ht]. split; [lia|]. intros Hm. specialize (He0 Hm). lia.
Qed.
Lemma mul_pq_round n k x y u v : 1 < n -> 0 <= k -> k + k <= n - 2 ->
  arith n x u -> public (FI n) y v -> psc x = true -> qsc y = true -> fits n (u * v) ->
  yields (mul_pq prf colo k x y) (fun z => psc z = true /\ exists r, rounded k (u * v) r /\ arith n z r).
Proof.
  intros Hn Hk Hb Hx Hy Sx Sy HX. unfold mul_pq. rewrite Sx, Sy. cbn [andb orb].
  assert (Fx : pfc x = FI n) by apply Hx. rewrite Fx.
  eapply yb; [exact (mul_pq_raw_ok colo n x y u v _ ltac:(lia) Hx Hy)|]. intros z (Hz & Sz).
  rewrite swrap_id in Hz; [|lia|apply (fits_in n _ Hn HX)]. apply (trunc_round n k k z _ Hn Hk Hk Hb Hz Sz HX).
Qed.

Lemma xor_indices_ok n x u : 4 <= n -> boolean (FI n) x u ->
  yields (xor_indices colo x) (fun z => boolean (FI n) z (xor_bits n u) /\ psc z = psc x).
Proof.
  intros Hn Hx. unfold xor_indices. assert (Fx : pfc x = FI n) by apply Hx. rewrite Fx. cbn [fbits].
  apply (sharewise_bool_ok colo (xor_bits n) (FI n) (FI n) x u Hx).
  - intros a _. pose proof (xor_bits_range n a Hn). cbn [word]. unfold in_s. lia.
  - intros a b _ _. rewrite !xor_bits_eq. apply xor_all_linear.
  - cbn [fok]. lia.
Qed.
End Ops.
