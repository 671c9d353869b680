(** How far polynomials with integer coefficients are from the logistic function, the hyperbolic tangent, the logarithm and the
    rectifier, by a certified computation over small cells. *)
From Coq Require Import Reals Lra Lia ZArith List Psatz.
From Verif Require Import SigReal.
Import ListNotations.
Local Open Scope Z_scope.

Fixpoint ev (p : list Z) (x : R) : R := match p with [] => 0%R | c :: p => (IZR c + x * ev p x)%R end.
Fixpoint padd (p q : list Z) : list Z :=
  match p, q with [], _ => q | _, [] => p | a :: p, b :: q => a + b :: padd p q end.
Lemma ev_padd p q x : ev (padd p q) x = (ev p x + ev q x)%R.
Proof. revert q. induction p as [|a p IH]; intros [|b q]; cbn [padd ev]; try lra. rewrite plus_IZR, IH. ring. Qed.
Lemma ev_scal a p x : ev (map (Z.mul a) p) x = (IZR a * ev p x)%R.
Proof. induction p as [|c p IH]; cbn [map ev]; [ring|]. rewrite mult_IZR, IH. ring. Qed.
(** The polynomial around [a]. *)
Fixpoint shift (p : list Z) (a : Z) : list Z :=
  match p with [] => [] | c :: p => let q := shift p a in padd (c :: q) (map (Z.mul a) q) end.
Lemma ev_shift p a t : ev (shift p a) t = ev p (IZR a + t).
Proof. induction p as [|c p IH]; cbn [shift]; [reflexivity|]. rewrite ev_padd, ev_scal. cbn [ev]. rewrite IH. ring. Qed.
(** The polynomial of the argument multiplied by [d]. *)
Fixpoint hom (p : list Z) (d : Z) : list Z :=
  match p with [] => [] | c :: q => c * d ^ Z.of_nat (length p) :: hom q d end.
Lemma ev_hom p d x : ev (hom p d) (IZR d * x) = (IZR (d ^ Z.of_nat (length p)) * ev p x)%R.
Proof.
  induction p as [|c p IH]; [cbn; ring|]. cbn [hom ev]. rewrite IH, mult_IZR. cbn [length]. rewrite Nat2Z.inj_succ, Z.pow_succ_r, mult_IZR by lia. ring.
Qed.
Fixpoint up (p : list Z) (h : Z) : Z := match p with [] => 0 | c :: p => c + h * Z.max 0 (up p h) end.
Fixpoint low (p : list Z) (h : Z) : Z := match p with [] => 0 | c :: p => c + h * Z.min 0 (low p h) end.
Lemma bounds p h t : (0 <= t <= IZR h)%R -> (IZR (low p h) <= ev p t <= IZR (up p h))%R.
Proof.
  intros H. induction p as [|c p [IL IU]]; cbn [low up ev]; [lra|]. rewrite !plus_IZR, !mult_IZR. split.
  - assert (IZR (Z.min 0 (low p h)) <= 0)%R by (apply IZR_le; lia). assert (IZR (Z.min 0 (low p h)) <= ev p t)%R by (eapply Rle_trans; [apply IZR_le, Z.le_min_r|exact IL]). nra.
  - assert (0 <= IZR (Z.max 0 (up p h)))%R by (apply IZR_le; lia). assert (ev p t <= IZR (Z.max 0 (up p h)))%R by (eapply Rle_trans; [exact IU|apply IZR_le, Z.le_max_r]). nra.
Qed.

(** One cell: the argument, multiplied by [d], is between [a] and [b]; the value of the function, multiplied by [T], is between
    [fl] and [fh]; the tolerance is [tol / T]. *)
Definition T : Z := 2 ^ 40.
Definition cell (s : Z) (ws : list Z) (d tol a b fl fh : Z) : bool :=
  let q := shift (hom ws d) a in let m := s * d ^ Z.of_nat (length ws) in
  (up q (b - a) * T <=? (fl + tol) * m) && ((fh - tol) * m <=? low q (b - a) * T).
Lemma TR : (0 < IZR T)%R. Proof. apply IZR_lt. reflexivity. Qed.
Lemma cell_ok s ws d tol a b fl fh x f : cell s ws d tol a b fl fh = true -> 0 < s -> 0 < d ->
  (IZR a <= IZR d * x <= IZR b)%R -> (IZR fl <= IZR T * f <= IZR fh)%R -> (Rabs (ev ws x / IZR s - f) <= IZR tol / IZR T)%R.
Proof.
  unfold cell. intros E Hs Hd HX HF. apply andb_prop in E. destruct E as [E1 E2]. apply Z.leb_le, IZR_le in E1. apply Z.leb_le, IZR_le in E2.
  pose proof (bounds (shift (hom ws d) a) (b - a) (IZR d * x - IZR a)) as Bd. rewrite minus_IZR in Bd. specialize (Bd ltac:(lra)).
  rewrite ev_shift in Bd. replace (IZR a + (IZR d * x - IZR a))%R with (IZR d * x)%R in Bd by ring. rewrite ev_hom in Bd.
  rewrite !mult_IZR in E1, E2. rewrite plus_IZR in E1. rewrite minus_IZR in E2. pose proof TR as HT.
  assert (Ps : (0 < IZR s)%R) by (apply IZR_lt; exact Hs).
  assert (Pm : (0 < IZR (d ^ Z.of_nat (length ws)))%R) by (apply IZR_lt, Z.pow_pos_nonneg; lia).
  set (m := IZR (d ^ Z.of_nat (length ws))) in *. set (e := ev ws x) in *. set (t := IZR T) in *.
  assert (G1 : (e * t <= (IZR fl + IZR tol) * IZR s)%R) by (apply (Rmult_le_reg_r m); [exact Pm|]; nra).
  assert (G2 : ((IZR fh - IZR tol) * IZR s <= e * t)%R) by (apply (Rmult_le_reg_r m); [exact Pm|]; nra).
  assert (K : e = (e / IZR s * IZR s)%R) by (field; lra). set (y := (e / IZR s)%R) in *. rewrite K in G1, G2.
  assert (H1 : (y * t <= IZR fl + IZR tol)%R) by (apply (Rmult_le_reg_r (IZR s)); [exact Ps|]; nra).
  assert (H2 : (IZR fh - IZR tol <= y * t)%R) by (apply (Rmult_le_reg_r (IZR s)); [exact Ps|]; nra).
  apply Rabs_le. assert (W : (IZR tol / t * t = IZR tol)%R) by (field; lra). set (w := (IZR tol / t)%R) in *. split; apply (Rmult_le_reg_r t); try exact HT; nra.
Qed.

(** Bounds of the exponential, multiplied by [T]. *)
Definition eb (x : R) (L U : Z) : Prop := 0 < L /\ (IZR L <= IZR T * exp x <= IZR U)%R.
Definition dn (a b : Z) : Z := a * b / T.
Definition upp (a b : Z) : Z := a * b / T + 1.
Lemma dn_le a b : (IZR (dn a b) <= IZR a * IZR b / IZR T)%R.
Proof.
  pose proof TR. apply (Rmult_le_reg_r (IZR T)); [lra|]. replace (IZR a * IZR b / IZR T * IZR T)%R with (IZR (a * b)) by (rewrite mult_IZR; field; lra).
  rewrite <- mult_IZR. apply IZR_le. unfold dn. rewrite Z.mul_comm. apply Z.mul_div_le. reflexivity.
Qed.
Lemma upp_ge a b : (IZR a * IZR b / IZR T <= IZR (upp a b))%R.
Proof.
  pose proof TR. apply (Rmult_le_reg_r (IZR T)); [lra|]. replace (IZR a * IZR b / IZR T * IZR T)%R with (IZR (a * b)) by (rewrite mult_IZR; field; lra).
  rewrite <- mult_IZR. apply IZR_le. unfold upp. pose proof (Z.mod_pos_bound (a * b) T eq_refl). pose proof (Z.div_mod (a * b) T ltac:(discriminate)). lia.
Qed.
Lemma eb_plus x y L U L' U' : eb x L U -> eb y L' U' -> 0 <? dn L L' = true -> eb (x + y) (dn L L') (upp U U').
Proof.
  intros [P [A B]] [P' [A' B']] G. apply Z.ltb_lt in G. split; [exact G|]. rewrite exp_plus. pose proof TR. pose proof (dn_le L L') as D. pose proof (upp_ge U U') as V.
  apply IZR_lt in P. apply IZR_lt in P'. pose proof (exp_pos x). pose proof (exp_pos y).
  assert (K : (IZR T * (exp x * exp y) = (IZR T * exp x) * (IZR T * exp y) / IZR T)%R) by (field; lra). rewrite K.
  assert (Pa : (0 < IZR T * exp x)%R) by (apply Rmult_lt_0_compat; lra). assert (Pb : (0 < IZR T * exp y)%R) by (apply Rmult_lt_0_compat; lra).
  assert (0 < / IZR T)%R by (apply Rinv_0_lt_compat; lra). unfold Rdiv in *. split.
  - eapply Rle_trans; [exact D|]. apply Rmult_le_compat_r; [lra|]. apply Rmult_le_compat; lra.
  - eapply Rle_trans; [|exact V]. apply Rmult_le_compat_r; [lra|]. apply Rmult_le_compat; lra.
Qed.
Fixpoint sq (n : nat) (L U : Z) : Z * Z := match n with O => (L, U) | S n => sq n (dn L L) (upp U U) end.
Fixpoint sqok (n : nat) (L : Z) : bool := match n with O => true | S n => (0 <? dn L L) && sqok n (dn L L) end.
Lemma sq_ok n x L U : eb x L U -> sqok n L = true -> eb (2 ^ n * x) (fst (sq n L U)) (snd (sq n L U)).
Proof.
  revert x L U. induction n as [|n IH]; intros x L U H E; cbn [sq pow fst snd].
  - rewrite Rmult_1_l. exact H.
  - cbn [sqok] in E. apply andb_prop in E. destruct E as [E1 E2]. replace (2 * 2 ^ n * x)%R with (2 ^ n * (x + x))%R by ring. apply IH; [apply eb_plus; assumption|exact E2].
Qed.
Definition L0 : Z := T + 2 ^ 20.
Definition U0 : Z := T + 2 ^ 20 + 2.
Lemma eb0 : eb (/ 2 ^ 20) L0 U0.
Proof.
  split; [reflexivity|]. assert (E : (IZR T = 1048576 * 1048576)%R) by (rewrite <- mult_IZR; apply f_equal; reflexivity).
  assert (E2 : (2 ^ 20 = 1048576)%R) by lra. unfold L0, U0. rewrite !plus_IZR. replace (IZR (2 ^ 20)) with 1048576%R by (apply f_equal; reflexivity).
  rewrite E, E2. pose proof (exp_ineq1_le (/ 1048576)) as A. pose proof (up_start (/ 1048576) ltac:(lra)) as B. split; [lra|].
  eapply Rle_trans; [apply Rmult_le_compat_l; [lra|exact B]|]. lra.
Qed.
(** Around 1/64 and 1/32. *)
Definition E64 : Z * Z := Eval vm_compute in sq 14 L0 U0.
Definition E32 : Z * Z := Eval vm_compute in sq 15 L0 U0.
Lemma eb64 : eb (/ 64) (fst E64) (snd E64).
Proof.
  replace (/ 64)%R with (2 ^ 14 * / 2 ^ 20)%R by (replace (2 ^ 20)%R with 1048576%R by lra; replace (2 ^ 14)%R with 16384%R by lra; lra).
  change E64 with (sq 14 L0 U0). apply sq_ok; [apply eb0|vm_compute; reflexivity].
Qed.
Lemma eb32 : eb (/ 32) (fst E32) (snd E32).
Proof.
  replace (/ 32)%R with (2 ^ 15 * / 2 ^ 20)%R by (replace (2 ^ 20)%R with 1048576%R by lra; replace (2 ^ 15)%R with 32768%R by lra; lra).
  change E32 with (sq 15 L0 U0). apply sq_ok; [apply eb0|vm_compute; reflexivity].
Qed.

(** The logistic function at an argument whose exponential is bounded. *)
Definition glo (L : Z) : Z := T * L / (T + L).
Definition ghi (U : Z) : Z := T * U / (T + U) + 1.
Lemma eb_logistic x L U : eb x L U -> (IZR (glo L) <= IZR T * logistic x <= IZR (ghi U))%R.
Proof.
  intros [P [A B]]. pose proof TR as HT. pose proof (exp_pos x) as Pe. apply IZR_lt in P as P'.
  assert (PU : 0 < U) by (apply lt_IZR; nra). apply IZR_lt in PU as PU'.
  pose proof (to_logistic x (IZR L / IZR T) (IZR U / IZR T)) as G. specialize (G ltac:(apply Rdiv_lt_0_compat; lra)).
  assert (0 < T) by reflexivity.
  assert (K : (IZR L / IZR T <= exp x <= IZR U / IZR T)%R).
  { split; apply (Rmult_le_reg_r (IZR T)); try lra; unfold Rdiv; rewrite Rmult_assoc, Rinv_l; lra. }
  specialize (G K). destruct G as [G1 G2]. split.
  - eapply Rle_trans; [|apply Rmult_le_compat_l; [lra|exact G1]]. apply (Rmult_le_reg_r (IZR (T + L))); [apply IZR_lt; lia|].
    replace (IZR T * (IZR L / IZR T / (1 + IZR L / IZR T)) * IZR (T + L))%R with (IZR (T * L)) by (rewrite mult_IZR, plus_IZR; field; lra).
    rewrite <- mult_IZR. apply IZR_le. unfold glo. rewrite Z.mul_comm. apply Z.mul_div_le. lia.
  - eapply Rle_trans; [apply Rmult_le_compat_l; [lra|exact G2]|]. apply (Rmult_le_reg_r (IZR (T + U))); [apply IZR_lt; lia|].
    replace (IZR T * (IZR U / IZR T / (1 + IZR U / IZR T)) * IZR (T + U))%R with (IZR (T * U)) by (rewrite mult_IZR, plus_IZR; field; lra).
    rewrite <- mult_IZR. apply IZR_le. unfold ghi. pose proof (Z.mod_pos_bound (T * U) (T + U) ltac:(lia)). pose proof (Z.div_mod (T * U) (T + U) ltac:(lia)). lia.
Qed.

(** Steps of [1/d] from [k/d] upwards; [E] bounds the exponential of a step of the scaled argument, [L] and [U] bound it at the
    start; [fl] and [fh] turn these bounds into bounds of the function. *)
Fixpoint run (n : nat) (E : Z * Z) (s : Z) (ws : list Z) (d tol : Z) (fl fh : Z -> Z) (k L U : Z) : bool :=
  match n with
  | O => true
  | S n =>
    let L' := dn L (fst E) in let U' := upp U (snd E) in
    (0 <? L') && cell s ws d tol k (k + 1) (fl L) (fh U') && run n E s ws d tol fl fh (k + 1) L' U'
  end.
Section Run.
Context (f : R -> R) (a : R) (E : Z * Z) (s : Z) (ws : list Z) (d tol : Z) (fl fh : Z -> Z)
  (Hs : 0 < s) (Hd : 0 < d) (HE : eb (a * / IZR d) (fst E) (snd E)) (mono : forall x y, (x <= y -> f x <= f y)%R)
  (HF : forall x L U, eb (a * x) L U -> (IZR (fl L) <= IZR T * f x <= IZR (fh U))%R).
Lemma run_ok n : forall k L U x, run n E s ws d tol fl fh k L U = true -> eb (a * (IZR k / IZR d)) L U ->
  (IZR k / IZR d <= x <= (IZR k + INR n) / IZR d)%R -> (0 < INR n)%R -> (Rabs (ev ws x / IZR s - f x) <= IZR tol / IZR T)%R.
Proof.
  assert (Pd : (0 < IZR d)%R) by (apply IZR_lt; exact Hd). pose proof TR as HT.
  induction n as [|n IH]; intros k L U x R HL Hx Pn; [cbn in Pn; lra|].
  cbn [run] in R. apply andb_prop in R. destruct R as [R R3]. apply andb_prop in R. destruct R as [R1 R2].
  assert (H' : eb (a * (IZR (k + 1) / IZR d)) (dn L (fst E)) (upp U (snd E))).
  { replace (a * (IZR (k + 1) / IZR d))%R with (a * (IZR k / IZR d) + a * / IZR d)%R by (rewrite plus_IZR; field; lra). apply eb_plus; assumption. }
  destruct (Rle_dec x (IZR (k + 1) / IZR d)) as [C|C].
  - apply (cell_ok _ _ _ _ _ _ _ _ _ _ R2 Hs Hd).
    + split; [apply (Rmult_le_reg_r (/ IZR d))|apply (Rmult_le_reg_r (/ IZR d))]; try (apply Rinv_0_lt_compat; lra);
      replace (IZR d * x * / IZR d)%R with x by (field; lra); unfold Rdiv in *; lra.
    + destruct (HF _ _ _ HL) as [A1 A2]. destruct (HF _ _ _ H') as [B1 B2]. pose proof (mono _ _ (proj1 Hx)). pose proof (mono _ _ C). nra.
  - assert (n <> O) by (intros ->; apply C; replace (INR 1) with 1%R in Hx by reflexivity; rewrite plus_IZR; lra).
    apply (IH _ _ _ _ R3 H').
    + split; [lra|]. rewrite S_INR in Hx. rewrite plus_IZR. replace (IZR k + 1 + INR n)%R with (IZR k + (INR n + 1))%R by ring. lra.
    + apply lt_0_INR. lia.
Qed.
Lemma run_all n x : run n E s ws d tol fl fh 0 T T = true -> (0 <= x <= INR n / IZR d)%R -> (0 < INR n)%R ->
  (Rabs (ev ws x / IZR s - f x) <= IZR tol / IZR T)%R.
Proof.
  intros R Hx Hn. apply (run_ok n 0 T T x R); [|unfold Rdiv; rewrite Rmult_0_l, Rplus_0_l; exact Hx|exact Hn].
  split; [reflexivity|]. unfold Rdiv. rewrite Rmult_0_l, Rmult_0_r, exp_0. lra.
Qed.
End Run.

(** The logarithm: the argument is exp (- k / 64). *)
Definition DL : Z := 2 ^ 20.
Fixpoint runlog (n : nat) (s : Z) (ws : list Z) (tol k L U : Z) : bool :=
  match n with
  | O => true
  | S n =>
    let L' := dn L (fst E64) in let U' := upp U (snd E64) in
    (0 <? L') && cell s ws DL tol (DL * T / U') (DL * T / L + 1) (- (k + 1) * 2 ^ 34) (- k * 2 ^ 34) && runlog n s ws tol (k + 1) L' U'
  end.
Lemma eb_inv x L U : eb x L U -> (IZR (DL * T / U) <= IZR DL * exp (- x) <= IZR (DL * T / L + 1))%R.
Proof.
  intros [P [A B]]. pose proof TR as HT. pose proof (exp_pos x) as Pe. apply IZR_lt in P as P'. assert (PU : 0 < U) by (apply lt_IZR; nra). apply IZR_lt in PU as PU'.
  rewrite exp_Ropp. assert (HD : (0 < IZR DL)%R) by (apply IZR_lt; reflexivity). split.
  - apply (Rmult_le_reg_r (IZR U)); [lra|]. apply (Rle_trans _ (IZR (DL * T))).
    + rewrite <- mult_IZR. apply IZR_le. rewrite Z.mul_comm. apply Z.mul_div_le. lia.
    + rewrite mult_IZR. apply (Rmult_le_reg_r (exp x)); [lra|]. replace (IZR DL * / exp x * IZR U * exp x)%R with (IZR DL * IZR U)%R by (field; lra). nra.
  - apply (Rmult_le_reg_r (IZR L)); [lra|]. apply (Rle_trans _ (IZR (DL * T))).
    + rewrite mult_IZR. apply (Rmult_le_reg_r (exp x)); [lra|]. replace (IZR DL * / exp x * IZR L * exp x)%R with (IZR DL * IZR L)%R by (field; lra). nra.
    + rewrite <- mult_IZR. apply IZR_le. pose proof (Z.mod_pos_bound (DL * T) L P). pose proof (Z.div_mod (DL * T) L ltac:(lia)). lia.
Qed.
Lemma runlog_ok n s ws tol : 0 < s -> forall k L U x, runlog n s ws tol k L U = true -> eb (IZR k / 64) L U -> (0 < x)%R ->
  (- ((IZR k + INR n) / 64) <= ln x <= - (IZR k / 64))%R -> (0 < INR n)%R -> (Rabs (ev ws x / IZR s - ln x) <= IZR tol / IZR T)%R.
Proof.
  intros Hs. pose proof TR as HT. induction n as [|n IH]; intros k L U x R HL Px Hx Pn; [cbn in Pn; lra|].
  cbn [runlog] in R. apply andb_prop in R. destruct R as [R R3]. apply andb_prop in R. destruct R as [R1 R2].
  assert (H' : eb (IZR (k + 1) / 64) (dn L (fst E64)) (upp U (snd E64))).
  { replace (IZR (k + 1) / 64)%R with (IZR k / 64 + / 64)%R by (rewrite plus_IZR; field). apply eb_plus; [exact HL|exact eb64|exact R1]. }
  destruct (Rle_dec (- (IZR (k + 1) / 64)) (ln x)) as [C|C].
  - apply (cell_ok _ _ _ _ _ _ _ _ _ _ R2 Hs); [reflexivity| |].
    + destruct (eb_inv _ _ _ HL) as [_ A]. destruct (eb_inv _ _ _ H') as [B _]. assert (HD : (0 < IZR DL)%R) by (apply IZR_lt; reflexivity).
      assert (M1 : (exp (- (IZR (k + 1) / 64)) <= x)%R) by (rewrite <- (exp_ln x Px); destruct C as [C| ->]; [left; apply exp_increasing; exact C|lra]).
      assert (M2 : (x <= exp (- (IZR k / 64)))%R) by (rewrite <- (exp_ln x Px) at 1; destruct (proj2 Hx) as [C2| ->]; [left; apply exp_increasing; exact C2|lra]).
      split; [eapply Rle_trans; [exact B|]|eapply Rle_trans; [|exact A]]; apply Rmult_le_compat_l; lra.
    + assert (ET : (IZR T = 64 * IZR (2 ^ 34))%R) by (rewrite <- mult_IZR; reflexivity). rewrite !mult_IZR, ET, !opp_IZR.
      assert (0 < IZR (2 ^ 34))%R by (apply IZR_lt; reflexivity). rewrite !plus_IZR in *. split; nra.
  - assert (n <> O) by (intros ->; apply C; replace (INR 1) with 1%R in Hx by reflexivity; rewrite plus_IZR; lra).
    apply (IH _ _ _ _ R3 H' Px).
    + split; [|lra]. rewrite S_INR in Hx. rewrite plus_IZR. replace (IZR k + 1 + INR n)%R with (IZR k + (INR n + 1))%R by ring. lra.
    + apply lt_0_INR. lia.
Qed.

(** A bounded polynomial: steps of 1/2. *)
Fixpoint run0 (n : nat) (s : Z) (ws : list Z) (tol k : Z) : bool :=
  match n with O => true | S n => cell s ws 2 tol k (k + 1) 0 0 && run0 n s ws tol (k + 1) end.
Lemma run0_ok n s ws tol : 0 < s -> forall k x, run0 n s ws tol k = true -> (IZR k <= 2 * x <= IZR k + INR n)%R -> (0 < INR n)%R ->
  (Rabs (ev ws x / IZR s) <= IZR tol / IZR T)%R.
Proof.
  intros Hs. induction n as [|n IH]; intros k x R Hx Pn; [cbn in Pn; lra|]. cbn [run0] in R. apply andb_prop in R. destruct R as [R1 R2].
  destruct (Rle_dec (2 * x) (IZR (k + 1))) as [C|C].
  - replace (ev ws x / IZR s)%R with (ev ws x / IZR s - 0)%R by ring. apply (cell_ok _ _ _ _ _ _ _ _ _ _ R1 Hs); [reflexivity|lra|lra].
  - assert (n <> O) by (intros ->; apply C; replace (INR 1) with 1%R in Hx by reflexivity; rewrite plus_IZR; lra).
    apply (IH _ _ R2); [rewrite S_INR in Hx; rewrite plus_IZR in *; lra|apply lt_0_INR; lia].
Qed.
