(** The logistic function on the real numbers, and how far it is from the straight lines that approximate it. *)
From Coq Require Import Reals Lra Psatz.
From Coquelicot Require Import Coquelicot.
Local Open Scope R_scope.

Definition logistic (x : R) : R := / (1 + exp (- x)).

Lemma logistic_range x : 0 < logistic x < 1.
Proof.
  unfold logistic. pose proof (exp_pos (- x)). split; [apply Rinv_0_lt_compat; lra|]. rewrite <- Rinv_1 at 2. apply Rinv_lt_contravar; lra.
Qed.
Lemma logistic_opp x : logistic (- x) = 1 - logistic x.
Proof.
  unfold logistic. rewrite Ropp_involutive, exp_Ropp. pose proof (exp_pos x). field. split; lra.
Qed.
Lemma logistic_deriv x : derivable_pt_lim logistic x (logistic x * (1 - logistic x)).
Proof.
  apply is_derive_Reals. unfold logistic. pose proof (exp_pos (- x)). auto_derive; [lra|]. field. lra.
Qed.
Lemma logistic_le x y : x <= y -> logistic x <= logistic y.
Proof.
  intros [H|<-]; [|lra]. unfold logistic. pose proof (exp_pos (- x)). pose proof (exp_pos (- y)).
  assert (exp (- y) < exp (- x)) by (apply exp_increasing; lra). apply Rlt_le, Rinv_lt_contravar; [apply Rmult_lt_0_compat; lra|lra].
Qed.
Lemma logistic_half x : 0 <= x -> / 2 <= logistic x.
Proof. intros H. pose proof (logistic_le 0 x H) as L. assert (E : logistic 0 = / 2) by (unfold logistic; rewrite Ropp_0, exp_0; field). lra. Qed.
Lemma slopes x y : 0 <= x <= y -> logistic y * (1 - logistic y) * (y - x) <= logistic y - logistic x <= logistic x * (1 - logistic x) * (y - x).
Proof.
  intros [H [L|<-]]; [|nra].
  destruct (MVT_cor2 logistic (fun c => logistic c * (1 - logistic c)) x y L) as [c [E [A B]]]; [intros; apply logistic_deriv|]. rewrite E.
  pose proof (logistic_half x H). pose proof (logistic_le x c ltac:(lra)). pose proof (logistic_le c y ltac:(lra)).
  pose proof (logistic_range y). split; apply Rmult_le_compat_r; nra.
Qed.
(** A tangent lies above, a chord below. *)
Lemma tangent x a lo hi : 0 <= x -> 0 <= a -> / 2 <= lo -> lo <= logistic a <= hi -> hi <= 1 ->
  logistic x <= hi + (if Rle_dec x a then hi * (1 - hi) else lo * (1 - lo)) * (x - a).
Proof.
  intros Hx Ha Hl [L H] H1. destruct (Rle_dec x a) as [C|C].
  - destruct (slopes x a ltac:(lra)) as [S _]. assert (hi * (1 - hi) <= logistic a * (1 - logistic a)) by nra. nra.
  - destruct (slopes a x ltac:(lra)) as [_ S]. assert (logistic a * (1 - logistic a) <= lo * (1 - lo)) by nra. nra.
Qed.
Lemma chord x p q : 0 <= p -> p <= x <= q -> logistic p * (q - x) + logistic q * (x - p) <= logistic x * (q - p).
Proof.
  intros Hp [A B]. destruct (slopes p x ltac:(lra)) as [S _]. destruct (slopes x q ltac:(lra)) as [_ T]. nra.
Qed.

(** Bounds of the exponential by repeated squaring. *)
Lemma up_start h : 0 <= h < 1 -> exp h <= / (1 - h).
Proof.
  intros [H0 H1]. rewrite <- (Rinv_inv (exp h)), <- exp_Ropp. apply Rinv_le_contravar; [lra|].
  pose proof (exp_ineq1_le (- h)). lra.
Qed.
Lemma up_step x a b : exp x <= a -> a * a <= b -> exp (2 * x) <= b.
Proof. intros H I. replace (2 * x) with (x + x) by ring. rewrite exp_plus. pose proof (exp_pos x). nra. Qed.
Lemma down_step x a b : 0 <= a -> a <= exp x -> b <= a * a -> b <= exp (2 * x).
Proof. intros P H I. replace (2 * x) with (x + x) by ring. rewrite exp_plus. nra. Qed.
Lemma to_logistic x l h : 0 < l -> l <= exp x <= h -> l / (1 + l) <= logistic x <= h / (1 + h).
Proof.
  intros P [A B]. unfold logistic. rewrite exp_Ropp. pose proof (exp_pos x).
  replace (/ (1 + / exp x)) with (1 - / (1 + exp x)) by (field; split; lra).
  replace (l / (1 + l)) with (1 - / (1 + l)) by (field; lra). replace (h / (1 + h)) with (1 - / (1 + h)) by (field; lra).
  split; apply Rplus_le_compat_l, Ropp_le_contravar, Rinv_le_contravar; lra.
Qed.
(** Numbers. *)
Lemma exp_082 : (22471 / 10000) <= exp ((41 / 50)) <= (22949 / 10000).
Proof.
  split.
  - assert (H0 : (1641 / 1600) <= exp ((41 / 1600))) by (pose proof (exp_ineq1_le ((41 / 1600))); lra).
    assert (H1 : (2692881 / 2560000) <= exp ((41 / 800))) by (replace ((41 / 800)) with (2 * ((41 / 1600))) by lra; apply (down_step _ ((1641 / 1600))); [lra|exact H0|lra]).
    assert (H2 : (110650758059 / 100000000000) <= exp ((41 / 400))) by (replace ((41 / 400)) with (2 * ((41 / 800))) by lra; apply (down_step _ ((2692881 / 2560000))); [lra|exact H1|lra]).
    assert (H3 : (12243590259 / 10000000000) <= exp ((41 / 200))) by (replace ((41 / 200)) with (2 * ((41 / 400))) by lra; apply (down_step _ ((110650758059 / 100000000000))); [lra|exact H2|lra]).
    assert (H4 : (93690939 / 62500000) <= exp ((41 / 100))) by (replace ((41 / 100)) with (2 * ((41 / 200))) by lra; apply (down_step _ ((12243590259 / 10000000000))); [lra|exact H3|lra]).
    assert (H5 : (22471 / 10000) <= exp ((41 / 50))) by (replace ((41 / 50)) with (2 * ((41 / 100))) by lra; apply (down_step _ ((93690939 / 62500000))); [lra|exact H4|lra]).
    exact H5.
  - assert (H0 : exp ((41 / 1600)) <= (513149454779 / 500000000000)) by (eapply Rle_trans; [apply up_start; lra|]; lra).
    assert (H1 : exp ((41 / 800)) <= (13166118147 / 12500000000)) by (replace ((41 / 800)) with (2 * ((41 / 1600))) by lra; apply (up_step _ ((513149454779 / 500000000000))); [exact H0|lra]).
    assert (H2 : exp ((41 / 400)) <= (110941866919 / 100000000000)) by (replace ((41 / 400)) with (2 * ((41 / 800))) by lra; apply (up_step _ ((13166118147 / 12500000000))); [exact H1|lra]).
    assert (H3 : exp ((41 / 200)) <= (3077024459 / 2500000000)) by (replace ((41 / 200)) with (2 * ((41 / 400))) by lra; apply (up_step _ ((110941866919 / 100000000000))); [exact H2|lra]).
    assert (H4 : exp ((41 / 100)) <= (378723181 / 250000000)) by (replace ((41 / 100)) with (2 * ((41 / 200))) by lra; apply (up_step _ ((3077024459 / 2500000000))); [exact H3|lra]).
    assert (H5 : exp ((41 / 50)) <= (22949 / 10000)) by (replace ((41 / 50)) with (2 * ((41 / 100))) by lra; apply (up_step _ ((378723181 / 250000000))); [exact H4|lra]).
    exact H5.
Qed.
Lemma exp_13 : (18109 / 5000) <= exp ((13 / 10)) <= (9297 / 2500).
Proof.
  split.
  - assert (H0 : (653 / 640) <= exp ((13 / 640))) by (pose proof (exp_ineq1_le ((13 / 640))); lra).
    assert (H1 : (130129699707 / 125000000000) <= exp ((13 / 320))) by (replace ((13 / 320)) with (2 * ((13 / 640))) by lra; apply (down_step _ ((653 / 640))); [lra|exact H0|lra]).
    assert (H2 : (1083759279733 / 1000000000000) <= exp ((13 / 160))) by (replace ((13 / 160)) with (2 * ((13 / 320))) by lra; apply (down_step _ ((130129699707 / 125000000000))); [lra|exact H1|lra]).
    assert (H3 : (2936335441 / 2500000000) <= exp ((13 / 80))) by (replace ((13 / 80)) with (2 * ((13 / 160))) by lra; apply (down_step _ ((1083759279733 / 1000000000000))); [lra|exact H2|lra]).
    assert (H4 : (2759061063 / 2000000000) <= exp ((13 / 40))) by (replace ((13 / 40)) with (2 * ((13 / 80))) by lra; apply (down_step _ ((2936335441 / 2500000000))); [lra|exact H3|lra]).
    assert (H5 : (1903104487 / 1000000000) <= exp ((13 / 20))) by (replace ((13 / 20)) with (2 * ((13 / 40))) by lra; apply (down_step _ ((2759061063 / 2000000000))); [lra|exact H4|lra]).
    assert (H6 : (18109 / 5000) <= exp ((13 / 10))) by (replace ((13 / 10)) with (2 * ((13 / 20))) by lra; apply (down_step _ ((1903104487 / 1000000000))); [lra|exact H5|lra]).
    exact H6.
  - assert (H0 : exp ((13 / 640)) <= (1020733652313 / 1000000000000)) by (eapply Rle_trans; [apply up_start; lra|]; lra).
    assert (H1 : exp ((13 / 320)) <= (208379437793 / 200000000000)) by (replace ((13 / 320)) with (2 * ((13 / 640))) by lra; apply (up_step _ ((1020733652313 / 1000000000000))); [exact H0|lra]).
    assert (H2 : exp ((13 / 160)) <= (542774876187 / 500000000000)) by (replace ((13 / 160)) with (2 * ((13 / 320))) by lra; apply (up_step _ ((208379437793 / 200000000000))); [exact H1|lra]).
    assert (H3 : exp ((13 / 80)) <= (14730228311 / 12500000000)) by (replace ((13 / 80)) with (2 * ((13 / 160))) by lra; apply (up_step _ ((542774876187 / 500000000000))); [exact H2|lra]).
    assert (H4 : exp ((13 / 40)) <= (13886696071 / 10000000000)) by (replace ((13 / 40)) with (2 * ((13 / 80))) by lra; apply (up_step _ ((14730228311 / 12500000000))); [exact H3|lra]).
    assert (H5 : exp ((13 / 20)) <= (964201639 / 500000000)) by (replace ((13 / 20)) with (2 * ((13 / 40))) by lra; apply (up_step _ ((13886696071 / 10000000000))); [exact H4|lra]).
    assert (H6 : exp ((13 / 10)) <= (9297 / 2500)) by (replace ((13 / 10)) with (2 * ((13 / 20))) by lra; apply (up_step _ ((964201639 / 500000000))); [exact H5|lra]).
    exact H6.
Qed.
Lemma exp_15 : (8389 / 2000) <= exp ((3 / 2)) <= (4831 / 1000).
Proof.
  split.
  - assert (H0 : (35 / 32) <= exp ((3 / 32))) by (pose proof (exp_ineq1_le ((3 / 32))); lra).
    assert (H1 : (1225 / 1024) <= exp ((3 / 16))) by (replace ((3 / 16)) with (2 * ((3 / 32))) by lra; apply (down_step _ ((35 / 32))); [lra|exact H0|lra]).
    assert (H2 : (28622150421 / 20000000000) <= exp ((3 / 8))) by (replace ((3 / 8)) with (2 * ((3 / 16))) by lra; apply (down_step _ ((1225 / 1024))); [lra|exact H1|lra]).
    assert (H3 : (2560085921 / 1250000000) <= exp ((3 / 4))) by (replace ((3 / 4)) with (2 * ((3 / 8))) by lra; apply (down_step _ ((28622150421 / 20000000000))); [lra|exact H2|lra]).
    assert (H4 : (8389 / 2000) <= exp ((3 / 2))) by (replace ((3 / 2)) with (2 * ((3 / 4))) by lra; apply (down_step _ ((2560085921 / 1250000000))); [lra|exact H3|lra]).
    exact H4.
  - assert (H0 : exp ((3 / 32)) <= (1103448275863 / 1000000000000)) by (eapply Rle_trans; [apply up_start; lra|]; lra).
    assert (H1 : exp ((3 / 16)) <= (608799048753 / 500000000000)) by (replace ((3 / 16)) with (2 * ((3 / 32))) by lra; apply (up_step _ ((1103448275863 / 1000000000000))); [exact H0|lra]).
    assert (H2 : exp ((3 / 8)) <= (74127256353 / 50000000000)) by (replace ((3 / 8)) with (2 * ((3 / 16))) by lra; apply (up_step _ ((608799048753 / 500000000000))); [exact H1|lra]).
    assert (H3 : exp ((3 / 4)) <= (10989700269 / 5000000000)) by (replace ((3 / 4)) with (2 * ((3 / 8))) by lra; apply (up_step _ ((74127256353 / 50000000000))); [exact H2|lra]).
    assert (H4 : exp ((3 / 2)) <= (4831 / 1000)) by (replace ((3 / 2)) with (2 * ((3 / 4))) by lra; apply (up_step _ ((10989700269 / 5000000000))); [exact H3|lra]).
    exact H4.
Qed.
Lemma exp_25 : (60543 / 5000) <= exp ((5 / 2)) <= (61287 / 5000).
Proof.
  split.
  - assert (H0 : (1029 / 1024) <= exp ((5 / 1024))) by (pose proof (exp_ineq1_le ((5 / 1024))); lra).
    assert (H1 : (1009789466857 / 1000000000000) <= exp ((5 / 512))) by (replace ((5 / 512)) with (2 * ((5 / 1024))) by lra; apply (down_step _ ((1029 / 1024))); [lra|exact H0|lra]).
    assert (H2 : (8157398139 / 8000000000) <= exp ((5 / 256))) by (replace ((5 / 256)) with (2 * ((5 / 512))) by lra; apply (down_step _ ((1009789466857 / 1000000000000))); [lra|exact H1|lra]).
    assert (H3 : (51986831561 / 50000000000) <= exp ((5 / 128))) by (replace ((5 / 128)) with (2 * ((5 / 256))) by lra; apply (down_step _ ((8157398139 / 8000000000))); [lra|exact H2|lra]).
    assert (H4 : (10810522623 / 10000000000) <= exp ((5 / 64))) by (replace ((5 / 64)) with (2 * ((5 / 128))) by lra; apply (down_step _ ((51986831561 / 50000000000))); [lra|exact H3|lra]).
    assert (H5 : (5843369969 / 5000000000) <= exp ((5 / 32))) by (replace ((5 / 32)) with (2 * ((5 / 64))) by lra; apply (down_step _ ((10810522623 / 10000000000))); [lra|exact H4|lra]).
    assert (H6 : (13657989037 / 10000000000) <= exp ((5 / 16))) by (replace ((5 / 16)) with (2 * ((5 / 32))) by lra; apply (down_step _ ((5843369969 / 5000000000))); [lra|exact H5|lra]).
    assert (H7 : (373081329 / 200000000) <= exp ((5 / 8))) by (replace ((5 / 8)) with (2 * ((5 / 16))) by lra; apply (down_step _ ((13657989037 / 10000000000))); [lra|exact H6|lra]).
    assert (H8 : (3479741951 / 1000000000) <= exp ((5 / 4))) by (replace ((5 / 4)) with (2 * ((5 / 8))) by lra; apply (down_step _ ((373081329 / 200000000))); [lra|exact H7|lra]).
    assert (H9 : (60543 / 5000) <= exp ((5 / 2))) by (replace ((5 / 2)) with (2 * ((5 / 4))) by lra; apply (down_step _ ((3479741951 / 1000000000))); [lra|exact H8|lra]).
    exact H9.
  - assert (H0 : exp ((5 / 1024)) <= (200981354269 / 200000000000)) by (eapply Rle_trans; [apply up_start; lra|]; lra).
    assert (H1 : exp ((5 / 512)) <= (126229702387 / 125000000000)) by (replace ((5 / 512)) with (2 * ((5 / 1024))) by lra; apply (up_step _ ((200981354269 / 200000000000))); [exact H0|lra]).
    assert (H2 : exp ((5 / 256)) <= (509886008471 / 500000000000)) by (replace ((5 / 256)) with (2 * ((5 / 512))) by lra; apply (up_step _ ((126229702387 / 125000000000))); [exact H1|lra]).
    assert (H3 : exp ((5 / 128)) <= (51996748327 / 50000000000)) by (replace ((5 / 128)) with (2 * ((5 / 256))) by lra; apply (up_step _ ((509886008471 / 500000000000))); [exact H2|lra]).
    assert (H4 : exp ((5 / 64)) <= (13518309183 / 12500000000)) by (replace ((5 / 64)) with (2 * ((5 / 128))) by lra; apply (up_step _ ((51996748327 / 50000000000))); [exact H3|lra]).
    assert (H5 : exp ((5 / 32)) <= (11695659723 / 10000000000)) by (replace ((5 / 32)) with (2 * ((5 / 64))) by lra; apply (up_step _ ((13518309183 / 12500000000))); [exact H4|lra]).
    assert (H6 : exp ((5 / 16)) <= (3419711409 / 2500000000)) by (replace ((5 / 16)) with (2 * ((5 / 32))) by lra; apply (up_step _ ((11695659723 / 10000000000))); [exact H5|lra]).
    assert (H7 : exp ((5 / 8)) <= (93555409 / 50000000)) by (replace ((5 / 8)) with (2 * ((5 / 16))) by lra; apply (up_step _ ((3419711409 / 2500000000))); [exact H6|lra]).
    assert (H8 : exp ((5 / 4)) <= (1750522911 / 500000000)) by (replace ((5 / 4)) with (2 * ((5 / 8))) by lra; apply (up_step _ ((93555409 / 50000000))); [exact H7|lra]).
    assert (H9 : exp ((5 / 2)) <= (61287 / 5000)) by (replace ((5 / 2)) with (2 * ((5 / 4))) by lra; apply (up_step _ ((1750522911 / 500000000))); [exact H8|lra]).
    exact H9.
Qed.
Lemma exp_257 : (16319 / 1250) <= exp ((257 / 100)) <= (32691 / 2500).
Proof.
  split.
  - assert (H0 : (500313720703 / 500000000000) <= exp ((257 / 409600))) by (pose proof (exp_ineq1_le ((257 / 409600))); lra).
    assert (H1 : (500627638247 / 500000000000) <= exp ((257 / 204800))) by (replace ((257 / 204800)) with (2 * ((257 / 409600))) by lra; apply (down_step _ ((500313720703 / 500000000000))); [lra|exact H0|lra]).
    assert (H2 : (1002512128707 / 1000000000000) <= exp ((257 / 102400))) by (replace ((257 / 102400)) with (2 * ((257 / 204800))) by lra; apply (down_step _ ((500627638247 / 500000000000))); [lra|exact H1|lra]).
    assert (H3 : (251257642051 / 250000000000) <= exp ((257 / 51200))) by (replace ((257 / 51200)) with (2 * ((257 / 102400))) by lra; apply (down_step _ ((1002512128707 / 1000000000000))); [lra|exact H2|lra]).
    assert (H4 : (50504322151 / 50000000000) <= exp ((257 / 25600))) by (replace ((257 / 25600)) with (2 * ((257 / 51200))) by lra; apply (down_step _ ((251257642051 / 250000000000))); [lra|exact H3|lra]).
    assert (H5 : (102027462237 / 100000000000) <= exp ((257 / 12800))) by (replace ((257 / 12800)) with (2 * ((257 / 25600))) by lra; apply (down_step _ ((50504322151 / 50000000000))); [lra|exact H4|lra]).
    assert (H6 : (208192061 / 200000000) <= exp ((257 / 6400))) by (replace ((257 / 6400)) with (2 * ((257 / 12800))) by lra; apply (down_step _ ((102027462237 / 100000000000))); [lra|exact H5|lra]).
    assert (H7 : (2167196713 / 2000000000) <= exp ((257 / 3200))) by (replace ((257 / 3200)) with (2 * ((257 / 6400))) by lra; apply (down_step _ ((208192061 / 200000000))); [lra|exact H6|lra]).
    assert (H8 : (5870926991 / 5000000000) <= exp ((257 / 1600))) by (replace ((257 / 1600)) with (2 * ((257 / 3200))) by lra; apply (down_step _ ((2167196713 / 2000000000))); [lra|exact H7|lra]).
    assert (H9 : (1378711349 / 1000000000) <= exp ((257 / 800))) by (replace ((257 / 800)) with (2 * ((257 / 1600))) by lra; apply (down_step _ ((5870926991 / 5000000000))); [lra|exact H8|lra]).
    assert (H10 : (1900844983 / 1000000000) <= exp ((257 / 400))) by (replace ((257 / 400)) with (2 * ((257 / 800))) by lra; apply (down_step _ ((1378711349 / 1000000000))); [lra|exact H9|lra]).
    assert (H11 : (90330291 / 25000000) <= exp ((257 / 200))) by (replace ((257 / 200)) with (2 * ((257 / 400))) by lra; apply (down_step _ ((1900844983 / 1000000000))); [lra|exact H10|lra]).
    assert (H12 : (16319 / 1250) <= exp ((257 / 100))) by (replace ((257 / 100)) with (2 * ((257 / 200))) by lra; apply (down_step _ ((90330291 / 25000000))); [lra|exact H11|lra]).
    exact H12.
  - assert (H0 : exp ((257 / 409600)) <= (1000627835337 / 1000000000000)) by (eapply Rle_trans; [apply up_start; lra|]; lra).
    assert (H1 : exp ((257 / 204800)) <= (250314016213 / 250000000000)) by (replace ((257 / 204800)) with (2 * ((257 / 409600))) by lra; apply (up_step _ ((1000627835337 / 1000000000000))); [exact H0|lra]).
    assert (H2 : exp ((257 / 102400)) <= (1002513707403 / 1000000000000)) by (replace ((257 / 102400)) with (2 * ((257 / 204800))) by lra; apply (up_step _ ((250314016213 / 250000000000))); [exact H1|lra]).
    assert (H3 : exp ((257 / 51200)) <= (1005033733531 / 1000000000000)) by (replace ((257 / 51200)) with (2 * ((257 / 102400))) by lra; apply (up_step _ ((1002513707403 / 1000000000000))); [exact H2|lra]).
    assert (H4 : exp ((257 / 25600)) <= (50504640277 / 50000000000)) by (replace ((257 / 25600)) with (2 * ((257 / 51200))) by lra; apply (up_step _ ((1005033733531 / 1000000000000))); [exact H3|lra]).
    assert (H5 : exp ((257 / 12800)) <= (102028747581 / 100000000000)) by (replace ((257 / 12800)) with (2 * ((257 / 25600))) by lra; apply (up_step _ ((50504640277 / 50000000000))); [exact H4|lra]).
    assert (H6 : exp ((257 / 6400)) <= (10409865333 / 10000000000)) by (replace ((257 / 6400)) with (2 * ((257 / 12800))) by lra; apply (up_step _ ((102028747581 / 100000000000))); [exact H5|lra]).
    assert (H7 : exp ((257 / 3200)) <= (5418264813 / 5000000000)) by (replace ((257 / 3200)) with (2 * ((257 / 6400))) by lra; apply (up_step _ ((10409865333 / 10000000000))); [exact H6|lra]).
    assert (H8 : exp ((257 / 1600)) <= (5871518717 / 5000000000)) by (replace ((257 / 1600)) with (2 * ((257 / 3200))) by lra; apply (up_step _ ((5418264813 / 5000000000))); [exact H7|lra]).
    assert (H9 : exp ((257 / 800)) <= (689494641 / 500000000)) by (replace ((257 / 800)) with (2 * ((257 / 1600))) by lra; apply (up_step _ ((5871518717 / 5000000000))); [exact H8|lra]).
    assert (H10 : exp ((257 / 400)) <= (23770143 / 12500000)) by (replace ((257 / 400)) with (2 * ((257 / 800))) by lra; apply (up_step _ ((689494641 / 500000000))); [exact H9|lra]).
    assert (H11 : exp ((257 / 200)) <= (361612607 / 100000000)) by (replace ((257 / 200)) with (2 * ((257 / 400))) by lra; apply (up_step _ ((23770143 / 12500000))); [exact H10|lra]).
    assert (H12 : exp ((257 / 100)) <= (32691 / 2500)) by (replace ((257 / 100)) with (2 * ((257 / 200))) by lra; apply (up_step _ ((361612607 / 100000000))); [exact H11|lra]).
    exact H12.
Qed.
Lemma exp_4 : (355271 / 10000) <= exp (4) <= (498873 / 5000).
Proof.
  split.
  - assert (H0 : (5 / 4) <= exp ((1 / 4))) by (pose proof (exp_ineq1_le ((1 / 4))); lra).
    assert (H1 : (25 / 16) <= exp ((1 / 2))) by (replace ((1 / 2)) with (2 * ((1 / 4))) by lra; apply (down_step _ ((5 / 4))); [lra|exact H0|lra]).
    assert (H2 : (625 / 256) <= exp (1)) by (replace (1) with (2 * ((1 / 2))) by lra; apply (down_step _ ((25 / 16))); [lra|exact H1|lra]).
    assert (H3 : (2384185791 / 400000000) <= exp (2)) by (replace (2) with (2 * (1)) by lra; apply (down_step _ ((625 / 256))); [lra|exact H2|lra]).
    assert (H4 : (355271 / 10000) <= exp (4)) by (replace (4) with (2 * (2)) by lra; apply (down_step _ ((2384185791 / 400000000))); [lra|exact H3|lra]).
    exact H4.
  - assert (H0 : exp ((1 / 4)) <= (666666666667 / 500000000000)) by (eapply Rle_trans; [apply up_start; lra|]; lra).
    assert (H1 : exp ((1 / 2)) <= (88888888889 / 50000000000)) by (replace ((1 / 2)) with (2 * ((1 / 4))) by lra; apply (up_step _ ((666666666667 / 500000000000))); [exact H0|lra]).
    assert (H2 : exp (1) <= (316049382717 / 100000000000)) by (replace (1) with (2 * ((1 / 2))) by lra; apply (up_step _ ((88888888889 / 50000000000))); [exact H1|lra]).
    assert (H3 : exp (2) <= (24971803079 / 2500000000)) by (replace (2) with (2 * (1)) by lra; apply (up_step _ ((316049382717 / 100000000000))); [exact H2|lra]).
    assert (H4 : exp (4) <= (498873 / 5000)) by (replace (4) with (2 * (2)) by lra; apply (up_step _ ((24971803079 / 2500000000))); [exact H3|lra]).
    exact H4.
Qed.
Lemma at_zero : logistic 0 = 1 / 2. Proof. unfold logistic. rewrite Ropp_0, exp_0. field. Qed.
Lemma at_15 : 0.807 <= logistic 1.5.
Proof. pose proof exp_15 as E. apply to_logistic in E; [|lra]. replace (3 / 2) with 1.5 in E by lra. lra. Qed.
Lemma at_25 : 0.9237 <= logistic 2.5.
Proof. pose proof exp_25 as E. apply to_logistic in E; [|lra]. replace (5 / 2) with 2.5 in E by lra. lra. Qed.
Lemma at_4 : 0.97 <= logistic 4.
Proof. pose proof exp_4 as E. apply to_logistic in E; [|lra]. lra. Qed.
Lemma at_082 : 0.69 <= logistic (41 / 50) <= 0.7.
Proof. pose proof exp_082 as E. apply to_logistic in E; [|lra]. lra. Qed.
Lemma at_13 : 0.782 <= logistic (13 / 10) <= 0.789.
Proof. pose proof exp_13 as E. apply to_logistic in E; [|lra]. lra. Qed.
Lemma at_257 : 0.9288 <= logistic (257 / 100) <= 0.9291.
Proof. pose proof exp_257 as E. apply to_logistic in E; [|lra]. lra. Qed.

(** Each straight line on its piece. *)
Lemma five_mid x : 0 <= x <= 1.5 -> Rabs (0.5 + 0.212 * x - logistic x) <= 0.0419.
Proof.
  intros H. pose proof (chord x 0 1.5 ltac:(lra) H) as C. rewrite at_zero in C. pose proof at_15. pose proof at_082 as A.
  pose proof (tangent x (41 / 50) 0.69 0.7 ltac:(lra) ltac:(lra) ltac:(lra) A ltac:(lra)) as T. apply Rabs_le.
  destruct (Rle_dec x (41 / 50)); nra.
Qed.
Lemma five_side x : 1.5 <= x <= 4 -> Rabs (0.719 + 0.066 * x - logistic x) <= 0.0419.
Proof.
  intros H. pose proof (chord x 1.5 4 ltac:(lra) H) as C. pose proof at_15. pose proof at_4. pose proof at_257 as A.
  pose proof (tangent x (257 / 100) 0.9288 0.9291 ltac:(lra) ltac:(lra) ltac:(lra) A ltac:(lra)) as T. apply Rabs_le.
  destruct (Rle_dec x (257 / 100)); nra.
Qed.
Lemma five_end x : 4 <= x -> Rabs (1 - 0.0001 - logistic x) <= 0.0419.
Proof. intros H. pose proof (logistic_le 4 x H). pose proof at_4. pose proof (logistic_range x). apply Rabs_le. lra. Qed.
Lemma three_mid x : 0 <= x <= 2.5 -> Rabs (0.5 + 0.17 * x - logistic x) <= 0.0769.
Proof.
  intros H. pose proof (chord x 0 2.5 ltac:(lra) H) as C. rewrite at_zero in C. pose proof at_25. pose proof at_13 as A.
  pose proof (tangent x (13 / 10) 0.782 0.789 ltac:(lra) ltac:(lra) ltac:(lra) A ltac:(lra)) as T. apply Rabs_le.
  destruct (Rle_dec x (13 / 10)); nra.
Qed.
Lemma three_end x : 2.5 <= x -> Rabs (1 - 0.0001 - logistic x) <= 0.0769.
Proof. intros H. pose proof (logistic_le 2.5 x H). pose proof at_25. pose proof (logistic_range x). apply Rabs_le. lra. Qed.
(** The pieces for negative arguments mirror those for positive ones. *)
Lemma mirror x l w : Rabs (1 - l - logistic (- x)) <= w -> Rabs (l - logistic x) <= w.
Proof. rewrite logistic_opp. intros H. rewrite <- Rabs_Ropp. replace (- (l - logistic x)) with (1 - l - (1 - logistic x)) by ring. exact H. Qed.
Lemma five_line x : -1.5 <= x <= 1.5 -> Rabs (0.5 + 0.212 * x - logistic x) <= 0.0419.
Proof.
  intros H. destruct (Rle_dec 0 x); [apply five_mid; lra|]. apply mirror.
  replace (1 - (0.5 + 0.212 * x)) with (0.5 + 0.212 * (- x)) by lra. apply five_mid. lra.
Qed.
Lemma five_left x : -4 <= x <= -1.5 -> Rabs (0.281 + 0.066 * x - logistic x) <= 0.0419.
Proof.
  intros H. apply mirror. replace (1 - (0.281 + 0.066 * x)) with (0.719 + 0.066 * (- x)) by lra. apply five_side. lra.
Qed.
Lemma five_first x : x <= -4 -> Rabs (0.0001 - logistic x) <= 0.0419.
Proof. intros H. apply mirror. apply five_end. lra. Qed.
Lemma three_line x : -2.5 <= x <= 2.5 -> Rabs (0.5 + 0.17 * x - logistic x) <= 0.0769.
Proof.
  intros H. destruct (Rle_dec 0 x); [apply three_mid; lra|]. apply mirror.
  replace (1 - (0.5 + 0.17 * x)) with (0.5 + 0.17 * (- x)) by lra. apply three_mid. lra.
Qed.
Lemma three_first x : x <= -2.5 -> Rabs (0.0001 - logistic x) <= 0.0769.
Proof. intros H. apply mirror. apply three_end. lra. Qed.
