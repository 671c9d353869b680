(** Proofs about ABY3's logarithm. *)
From Coq Require Import Reals Lra Psatz QArith Qreals.
From Verif Require Import Base TensorModel TensorProofs Aby3Model Aby3Spec Aby3Proofs Aby3Bits Aby3Circ Aby3Cmp Aby3Trunc Aby3NetModel Aby3NetSpec Aby3Net FpModel FpSpec FpProofs FpLogSpec FpLogProofs SigModel SigProofs PolyModel PolySpec PolyReal PolyProofs LnModel LnSpec.
Local Open Scope Z_scope.
Notation "'do' x <- m ; k" := (bind m (fun x => k)) (at level 200, x name, m at level 100, k at level 200).

Section LN.
Context (prf : fac -> key -> Z -> nat -> Z) (colo : bool) (Hprf : prf_words prf) (encode : Q -> Z).
Context (n k u : Z) (B d : R) (Hn : 1 < n) (Hk : 0 <= k) (Hb : k + k <= n - 2) (HB : (1 <= B)%R) (Hd : (0 <= d)%R).
Context (Hu : (Rabs (real_of k u) <= B)%R).
Notation X := (real_of k u).
Notation C := (B + ulp k)%R.

Definition about (z : priv) (p e m : R) : Prop := psc z = true /\ exists v, arith n z v /\ (Rabs (real_of k v - p) <= e)%R /\ (Rabs (real_of k v) <= m)%R.

Lemma near_up E E' m z : (E <= E')%nat -> near n k u B E m z -> near n k u B E' m z.
Proof.
  intros H (Sz & v & Az & N). split; [exact Sz|]. exists v. split; [exact Az|]. intro R. apply N. eapply roomy_le; [|exact R].
  apply Rle_pow; [|exact H]. pose proof (ulp_pos k Hk). lra.
Qed.
Lemma product a b x y : (1 <= a)%nat -> (1 <= b)%nat -> near n k u B a a x -> near n k u B b b y -> yields (mul_pp prf colo k x y) (near n k u B (a + b) (a + b)).
Proof.
  intros Ha Hb' Nx Ny. apply (mul_near prf colo Hprf n k u B Hn Hk Hb HB Hu (a + b)); try assumption; try lia; eapply near_up; try eassumption; lia.
Qed.
Lemma times_about i z c : (1 <= i)%nat -> near n k u B i i z -> Qeq_bool c 0 = false -> (Rabs (real_of k (encode c) - Q2R c) <= d)%R -> roomy n k ((Rabs (Q2R c) + d + 1) * C ^ i) ->
  yields (times prf colo encode k z c) (fun t => about t (Q2R c * X ^ i) (term_err (fun _ => false) d k B i c) ((Rabs (Q2R c) + d + 1) * C ^ i)).
Proof.
  intros Hi Nz Hc He R. unfold times, lifted. assert (Sz : psc z = true) by apply Nz. rewrite Sz.
  eapply y_weaken; [exact (coeff_near prf colo Hprf encode n k u B d Hn Hk Hb HB Hd Hu i z c Hi Nz He)|].
  intros t (St & v & At & G & _). specialize (G R). assert (G' : (Rabs (real_of k v - Q2R c * X ^ i) <= term_err (fun _ => false) d k B i c)%R).
  { unfold term_err. rewrite Hc. rewrite <- Rplus_assoc. exact G. }
  split; [exact St|]. exists v. split; [exact At|]. split; [exact G'|]. exact (term_bound k u B d Hk HB Hd Hu v i c _ Hi Hc G').
Qed.
Lemma add_about x y p e m q f l : about x p e m -> about y q f l -> roomy n k (m + l) -> yields (add_pp colo x y) (fun z => about z (p + q) (e + f) (m + l)).
Proof.
  intros (Sx & v & Ax & Ex & Mx) (Sy & w & Ay & Ey & My) R. pose proof (add_room n k Hn Hk v w m l Mx My R) as E.
  eapply y_weaken; [exact (add_pp_ok colo n x y v w ltac:(lia) Ax Ay)|]. intros z (Az & Sz). rewrite E in Az. split; [congruence|]. exists (v + w). split; [exact Az|].
  split; [apply gap_add; assumption|]. rewrite real_add. eapply Rle_trans; [apply Rabs_triang|]. lra.
Qed.
Lemma plus_about x p e m c : about x p e m -> (Rabs (real_of k (encode c) - Q2R c) <= d)%R -> roomy n k (m + (Rabs (Q2R c) + d)) ->
  yields (plus colo encode x c) (fun z => about z (p + Q2R c) (e + d) (m + (Rabs (Q2R c) + d))).
Proof.
  intros (Sx & v & Ax & Ex & Mx) He R. unfold plus, lifted. rewrite Sx. assert (Fx : pfc x = FI n) by apply Ax. rewrite Fx.
  apply (yb _ _ _ _ (const_ok colo (FI n) (encode c) true ltac:(cbn; lia))). intros q (Hq & Sq). cbn [fcast] in Hq.
  assert (Bc : (Rabs (real_of k (encode c)) <= Rabs (Q2R c) + d)%R).
  { replace (real_of k (encode c)) with (Q2R c + (real_of k (encode c) - Q2R c))%R by ring. eapply Rle_trans; [apply Rabs_triang|]. lra. }
  assert (Ic : in_s n (encode c)) by (apply (small_of n k Hn Hk _ _ Bc); eapply roomy_le; [|exact R]; pose proof (Rabs_pos (real_of k v)); lra).
  rewrite (swrap_id n (encode c) ltac:(lia) Ic) in Hq. pose proof (add_room n k Hn Hk v (encode c) m _ Mx Bc R) as E.
  eapply y_weaken; [exact (add_pq_ok colo n x q v (encode c) ltac:(lia) Ax Hq ltac:(congruence))|]. intros z (Az & Sz). rewrite E in Az. split; [congruence|]. exists (v + encode c). split; [exact Az|].
  split; [apply gap_add; assumption|]. rewrite real_add. eapply Rle_trans; [apply Rabs_triang|]. lra.
Qed.

Lemma log_near x : arith n x u -> psc x = true -> encodes d k encode weights -> roomy n k (whole_mass d k B weights) ->
  yields (log prf colo encode k x) (fun z => psc z = true /\ exists v, arith n z v /\ (Rabs (real_of k v - value_at weights X) <= whole_err (fun _ => false) d k B weights)%R).
Proof.
  intros Hx Sx [_ HE] R. unfold log. apply y_assert; [exact (is_arith_of n x u Hx)|].
  assert (N1 : near n k u B 1 1 x).
  { split; [exact Sx|]. exists u. split; [exact Hx|]. intros _. unfold power_err. rewrite !pow_1, Rminus_diag_eq, Rabs_R0 by reflexivity. lra. }
  apply (yb _ _ _ _ (product 1 1 x x ltac:(lia) ltac:(lia) N1 N1)). intros x2 N2.
  apply (yb _ _ _ _ (product 2 1 x2 x ltac:(lia) ltac:(lia) N2 N1)). intros x3 N3.
  apply (yb _ _ _ _ (product 3 1 x3 x ltac:(lia) ltac:(lia) N3 N1)). intros x4 N4.
  apply (yb _ _ _ _ (product 2 3 x2 x3 ltac:(lia) ltac:(lia) N2 N3)). intros x5 N5. cbn [Nat.add] in *.
  unfold weights in *. cbn [whole_mass mass] in R.
  change (Qeq_bool (1279333646 # 100000000) 0) with false in R. change (Qeq_bool (-2618955259 # 100000000) 0) with false in R. change (Qeq_bool (3024596692 # 100000000) 0) with false in R.
  change (Qeq_bool (-1730367641 # 100000000) 0) with false in R. change (Qeq_bool (382474222 # 100000000) 0) with false in R. cbv iota in R. rewrite Rplus_0_r in R.
  pose proof (ulp_pos k Hk) as [U _].
  assert (HP : forall i, (0 <= C ^ i)%R) by (intro i; apply pow_le; lra).
  assert (HM : forall c i, (0 <= (Rabs (Q2R c) + d + 1) * C ^ i)%R) by (intros c i; apply Rmult_le_pos; [pose proof (Rabs_pos (Q2R c)); lra|apply HP]).
  pose proof (HM (1279333646 # 100000000) 1%nat) as M1. pose proof (HM (-2618955259 # 100000000) 2%nat) as M2. pose proof (HM (3024596692 # 100000000) 3%nat) as M3.
  pose proof (HM (-1730367641 # 100000000) 4%nat) as M4. pose proof (HM (382474222 # 100000000) 5%nat) as M5. pose proof (Rabs_pos (Q2R (-335674972 # 100000000))) as M0.
  assert (RR : forall m, (m <= Rabs (Q2R (-335674972 # 100000000)) + d + ((Rabs (Q2R (1279333646 # 100000000)) + d + 1) * C ^ 1 + ((Rabs (Q2R (-2618955259 # 100000000)) + d + 1) * C ^ 2 + ((Rabs (Q2R (3024596692 # 100000000)) + d + 1) * C ^ 3 + ((Rabs (Q2R (-1730367641 # 100000000)) + d + 1) * C ^ 4 + (Rabs (Q2R (382474222 # 100000000)) + d + 1) * C ^ 5)))))%R -> roomy n k m) by (intros m Hm; eapply roomy_le; [exact Hm|exact R]).
  clear HM HP.
  eapply yb; [apply (times_about 1 x (1279333646 # 100000000)); [lia|exact N1|reflexivity|apply HE; cbn; tauto|apply RR; lra]|]. intros y1 A1.
  eapply yb; [apply (times_about 2 x2 (-2618955259 # 100000000)); [lia|exact N2|reflexivity|apply HE; cbn; tauto|apply RR; lra]|]. intros y2 A2.
  eapply yb; [apply (times_about 3 x3 (3024596692 # 100000000)); [lia|exact N3|reflexivity|apply HE; cbn; tauto|apply RR; lra]|]. intros y3 A3.
  eapply yb; [apply (times_about 4 x4 (-1730367641 # 100000000)); [lia|exact N4|reflexivity|apply HE; cbn; tauto|apply RR; lra]|]. intros y4 A4.
  eapply yb; [apply (times_about 5 x5 (382474222 # 100000000)); [lia|exact N5|reflexivity|apply HE; cbn; tauto|apply RR; lra]|]. intros y5 A5.
  eapply yb; [apply (add_about _ _ _ _ _ _ _ _ A5 A4); apply RR; lra|]. intros z1 Z1.
  eapply yb; [apply (add_about _ _ _ _ _ _ _ _ Z1 A3); apply RR; lra|]. intros z2 Z2.
  eapply yb; [apply (add_about _ _ _ _ _ _ _ _ Z2 A2); apply RR; lra|]. intros z3 Z3.
  eapply yb; [apply (add_about _ _ _ _ _ _ _ _ Z3 A1); apply RR; lra|]. intros z4 Z4.
  eapply y_weaken; [apply (plus_about _ _ _ _ (-335674972 # 100000000) Z4); [apply HE; cbn; tauto|apply RR; lra]|].
  intros z (Sz & v & Az & G & _). split; [exact Sz|]. exists v. split; [exact Az|]. cbn [whole_err terms_err value_at fold_right].
  eapply Rle_trans; [|eapply Rle_trans; [exact G|]]; [apply Req_le; f_equal; ring|]. rewrite Rplus_0_r. apply Req_le. ring.
Qed.
End LN.
