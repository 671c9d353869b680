(** The polynomials that Pond evaluates after cutting the coefficients, against the functions they stand for. *)
From Coq Require Import Reals Lra Lia ZArith List Bool Psatz.
From Verif Require Import SigReal ChebReal.
Import ListNotations.
Local Open Scope Z_scope.

Definition hundredths (x : Z) : Z := T * x / 10000.
Lemma hund x b : (0 <= b)%R -> IZR x = (b * 10000)%R -> (IZR (hundredths x) / IZR T <= b)%R.
Proof.
  intros Hb E. pose proof TR as HT. apply (Rmult_le_reg_r (IZR T)); [lra|]. replace (IZR (hundredths x) / IZR T * IZR T)%R with (IZR (hundredths x)) by (field; lra).
  apply (Rmult_le_reg_r 10000); [lra|]. replace (b * IZR T * 10000)%R with (IZR T * IZR x)%R by (rewrite E; ring). rewrite <- !mult_IZR. apply IZR_le. unfold hundredths.
  rewrite Z.mul_comm. apply Z.mul_div_le. reflexivity.
Qed.
Definition sig64 : list Z := [3280; 1416; 0; -53; 0; 1].
Definition sig64n : list Z := [3281; 1416; 0; -53; 0; 1].
Definition sig100 : list Z := [32768; 14150; 0; -538; 0; 11].
Definition tanh64 : list Z := [0; 5594; 0; -819; 0; 69; 0; -2].
Definition tanh100 : list Z := [0; 55883; 0; -8188; 0; 698; 0; -27].
Definition log64 : list Z := [-22023; 83937; -171829; 198443; -113529; 25094].
Definition log100 : list Z := [-219987; 838424; -1716358; 1982199; -1134013; 250658].
Definition relu64 : list Z := [2887; 3280; 735; 0; -8].
Definition relu100 : list Z := [28845; 32768; 7351; 0; -89].

Lemma run_sig64 : run 128 E32 6561 sig64 32 (hundredths 300) glo ghi 0 T T = true. Proof. vm_compute. reflexivity. Qed.
Lemma run_sig64n : run 128 E32 6561 sig64n 32 (hundredths 300) glo ghi 0 T T = true. Proof. vm_compute. reflexivity. Qed.
Lemma run_sig100 : run 128 E32 65536 sig100 32 (hundredths 300) glo ghi 0 T T = true. Proof. vm_compute. reflexivity. Qed.
Definition tlo (L : Z) : Z := 2 * glo L - T.
Definition thi (U : Z) : Z := 2 * ghi U - T.
Lemma run_tanh64 : run 160 E32 6561 tanh64 64 (hundredths 640) tlo thi 0 T T = true. Proof. vm_compute. reflexivity. Qed.
Lemma run_tanh100 : run 160 E32 65536 tanh100 64 (hundredths 640) tlo thi 0 T T = true. Proof. vm_compute. reflexivity. Qed.
Lemma run_log64 : runlog 148 6561 log64 (hundredths 550) 0 T T = true. Proof. vm_compute. reflexivity. Qed.
Lemma run_log100 : runlog 148 65536 log100 (hundredths 550) 0 T T = true. Proof. vm_compute. reflexivity. Qed.
Lemma run_relu64 : run0 12 6561 [2887; -3281; 735; 0; -8] (hundredths 4402) 0 && run0 12 6561 [2887; -3280; 735; 0; -8] (hundredths 4402) 0 = true.
Proof. vm_compute. reflexivity. Qed.
Lemma run_relu100 : run0 12 65536 [28845; -32768; 7351; 0; -89] (hundredths 4402) 0 = true. Proof. vm_compute. reflexivity. Qed.

Lemma sig_run s ws x : run 128 E32 s ws 32 (hundredths 300) glo ghi 0 T T = true -> 0 < s -> (0 <= x <= 4)%R -> (Rabs (ev ws x / IZR s - logistic x) <= 0.03)%R.
Proof.
  intros R Hs Hx. eapply Rle_trans; [|apply (hund 300 0.03); lra].
  apply (run_all logistic 1 E32 s ws 32 (hundredths 300) glo ghi Hs eq_refl) with (n := 128%nat); try assumption.
  - rewrite Rmult_1_l. exact eb32.
  - apply logistic_le.
  - intros y L U H. rewrite Rmult_1_l in H. apply eb_logistic. exact H.
  - rewrite INR_IZR_INZ. cbn [Z.of_nat Pos.of_succ_nat Pos.succ]. lra.
  - apply lt_0_INR. lia.
Qed.
Lemma sig64_fit x : (-4 <= x <= 4)%R -> (Rabs (ev sig64 x / 6561 - logistic x) <= 0.03)%R.
Proof.
  intros H. destruct (Rle_dec 0 x) as [C|C]; [apply (sig_run 6561); [apply run_sig64|reflexivity|lra]|].
  apply mirror. replace (1 - ev sig64 x / 6561)%R with (ev sig64n (- x) / 6561)%R by (cbn [ev sig64 sig64n]; field). apply (sig_run 6561); [apply run_sig64n|reflexivity|lra].
Qed.
Lemma sig100_fit x : (-4 <= x <= 4)%R -> (Rabs (ev sig100 x / 65536 - logistic x) <= 0.03)%R.
Proof.
  intros H. destruct (Rle_dec 0 x) as [C|C]; [apply (sig_run 65536); [apply run_sig100|reflexivity|lra]|].
  apply mirror. replace (1 - ev sig100 x / 65536)%R with (ev sig100 (- x) / 65536)%R by (cbn [ev sig100]; field). apply (sig_run 65536); [apply run_sig100|reflexivity|lra].
Qed.

Definition th (x : R) : R := (2 * logistic (2 * x) - 1)%R.
Lemma th_opp x : th (- x) = (- th x)%R.
Proof. unfold th. replace (2 * - x)%R with (- (2 * x))%R by ring. rewrite logistic_opp. ring. Qed.
Lemma tanh_run s ws x : run 160 E32 s ws 64 (hundredths 640) tlo thi 0 T T = true -> 0 < s -> (0 <= x <= 2.5)%R -> (Rabs (ev ws x / IZR s - th x) <= 0.064)%R.
Proof.
  intros R Hs Hx. eapply Rle_trans; [|apply (hund 640 0.064); lra].
  apply (run_all th 2 E32 s ws 64 (hundredths 640) tlo thi Hs eq_refl) with (n := 160%nat); try assumption.
  - replace (2 * / 64)%R with (/ 32)%R by lra. exact eb32.
  - intros y z H. unfold th. pose proof (logistic_le (2 * y) (2 * z) ltac:(lra)). lra.
  - intros y L U H. destruct (eb_logistic _ _ _ H) as [A B]. unfold tlo, thi, th. rewrite !minus_IZR, !mult_IZR. lra.
  - rewrite INR_IZR_INZ. cbn [Z.of_nat Pos.of_succ_nat Pos.succ]. lra.
  - apply lt_0_INR. lia.
Qed.
Lemma tanh64_fit x : (-2.5 <= x <= 2.5)%R -> (Rabs (ev tanh64 x / 6561 - th x) <= 0.064)%R.
Proof.
  intros H. destruct (Rle_dec 0 x) as [C|C]; [apply (tanh_run 6561); [apply run_tanh64|reflexivity|lra]|].
  rewrite <- Rabs_Ropp. replace (- (ev tanh64 x / 6561 - th x))%R with (ev tanh64 (- x) / 6561 - th (- x))%R by (rewrite th_opp; cbn [ev tanh64]; field).
  apply (tanh_run 6561); [apply run_tanh64|reflexivity|lra].
Qed.
Lemma tanh100_fit x : (-2.5 <= x <= 2.5)%R -> (Rabs (ev tanh100 x / 65536 - th x) <= 0.064)%R.
Proof.
  intros H. destruct (Rle_dec 0 x) as [C|C]; [apply (tanh_run 65536); [apply run_tanh100|reflexivity|lra]|].
  rewrite <- Rabs_Ropp. replace (- (ev tanh100 x / 65536 - th x))%R with (ev tanh100 (- x) / 65536 - th (- x))%R by (rewrite th_opp; cbn [ev tanh100]; field).
  apply (tanh_run 65536); [apply run_tanh100|reflexivity|lra].
Qed.

(** A tenth is above exp (- 148 / 64). *)
Lemma ln_tenth x : (0.1 <= x <= 1)%R -> (- (148 / 64) <= ln x <= 0)%R.
Proof.
  intros H. split; [|rewrite <- ln_1; destruct (Rle_lt_or_eq_dec x 1 (proj2 H)) as [C| ->]; [left; apply ln_increasing; lra|lra]].
  rewrite <- (ln_exp (- (148 / 64))). assert (G : (exp (- (148 / 64)) <= 0.1)%R).
  { rewrite exp_Ropp. replace 0.1%R with (/ 10)%R by lra. apply Rinv_le_contravar; [lra|].
    replace (148 / 64)%R with (2 * (2 * (2 * (2 * (2 * (2 * (2 * (2 * (2 * (37 / 8192))))))))))%R by lra. pose proof (exp_ineq1_le (37 / 8192)) as A0.
    apply (down_step _ 3.1696699); [lra| |lra].     apply (down_step _ 1.7803567); [lra| |lra].     apply (down_step _ 1.3343001); [lra| |lra].
    apply (down_step _ 1.1551191); [lra| |lra].     apply (down_step _ 1.0747647); [lra| |lra].     apply (down_step _ 1.0367086); [lra| |lra].
    apply (down_step _ 1.0181889); [lra| |lra].     apply (down_step _ 1.0090535); [lra| |lra].     apply (down_step _ 1.0045166); [lra| |lra].
    lra. }
  destruct (Rle_lt_or_eq_dec (exp (- (148 / 64))) x ltac:(lra)) as [C| <-]; [left; apply ln_increasing; [apply exp_pos|exact C]|lra].
Qed.
Lemma log_run s ws x : runlog 148 s ws (hundredths 550) 0 T T = true -> 0 < s -> (0.1 <= x <= 1)%R -> (Rabs (ev ws x / IZR s - ln x) <= 0.055)%R.
Proof.
  intros R Hs Hx. eapply Rle_trans; [|apply (hund 550 0.055); lra]. pose proof (ln_tenth x Hx) as G.
  apply (runlog_ok 148 s ws _ Hs 0 T T x R).
  - split; [reflexivity|]. unfold Rdiv. rewrite Rmult_0_l, exp_0. lra.
  - lra.
  - rewrite INR_IZR_INZ. cbn [Z.of_nat Pos.of_succ_nat Pos.succ]. lra.
  - apply lt_0_INR. lia.
Qed.
Lemma log64_fit x : (0.1 <= x <= 1)%R -> (Rabs (ev log64 x / 6561 - ln x) <= 0.055)%R.
Proof. apply (log_run 6561); [apply run_log64|reflexivity]. Qed.
Lemma log100_fit x : (0.1 <= x <= 1)%R -> (Rabs (ev log100 x / 65536 - ln x) <= 0.055)%R.
Proof. apply (log_run 65536); [apply run_log100|reflexivity]. Qed.

Lemma relu_run s ws x : run0 12 s ws (hundredths 4402) 0 = true -> 0 < s -> (0 <= x <= 6)%R -> (Rabs (ev ws x / IZR s) <= 0.4402)%R.
Proof.
  intros R Hs Hx. eapply Rle_trans; [|apply (hund 4402 0.4402); lra]. apply (run0_ok 12 s ws _ Hs 0 x R); [|apply lt_0_INR; lia].
  rewrite INR_IZR_INZ. cbn [Z.of_nat Pos.of_succ_nat Pos.succ]. lra.
Qed.
Lemma relu64_fit x : (-6 <= x <= 6)%R -> (Rabs (ev relu64 x / 6561 - Rmax 0 x) <= 0.4402)%R.
Proof.
  intros H. pose proof run_relu64 as R. apply andb_prop in R. destruct R as [R1 R2]. destruct (Rle_dec 0 x) as [C|C].
  - rewrite Rmax_right by exact C. replace (ev relu64 x / 6561 - x)%R with (ev ([2887; -3281; 735; 0; -8]%Z) x / 6561)%R by (cbn [ev relu64]; field). apply (relu_run 6561); [exact R1|reflexivity|lra].
  - rewrite Rmax_left by lra. replace (ev relu64 x / 6561 - 0)%R with (ev ([2887; -3280; 735; 0; -8]%Z) (- x) / 6561)%R by (cbn [ev relu64]; field). apply (relu_run 6561); [exact R2|reflexivity|lra].
Qed.
Lemma relu100_fit x : (-6 <= x <= 6)%R -> (Rabs (ev relu100 x / 65536 - Rmax 0 x) <= 0.4402)%R.
Proof.
  intros H. destruct (Rle_dec 0 x) as [C|C].
  - rewrite Rmax_right by exact C. replace (ev relu100 x / 65536 - x)%R with (ev ([28845; -32768; 7351; 0; -89]%Z) x / 65536)%R by (cbn [ev relu100]; field). apply (relu_run 65536); [exact run_relu100|reflexivity|lra].
  - rewrite Rmax_left by lra. replace (ev relu100 x / 65536 - 0)%R with (ev ([28845; -32768; 7351; 0; -89]%Z) (- x) / 65536)%R by (cbn [ev relu100]; field). apply (relu_run 65536); [exact run_relu100|reflexivity|lra].
Qed.
