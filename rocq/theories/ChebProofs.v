(** Pond's polynomial approximations: rounding errors of the programs. *)
From Coq Require Import Reals Lra Psatz QArith Qreals.
From Verif Require Import Base Factory TensorModel TensorProofs CrtModel CrtProofs CrtFloat CrtProps PondModel PondSpec PondProofs PondTrunc
  PondProps SigReal ChebReal ChebFit ChebModel ChebSpec.
Local Open Scope Z_scope.

Section Near.
Context (F : factory) (L : lawful F) (X : fixops F) (c : fpconfig) (n : nat) (B : Z).
Notation s := (scaling_factor c).
Context (Hs : 6561 <= s) (HB : 2 ^ 30 * (s * s) <= B)
  (Htr : forall r t u, denotes F n t true u -> okT F n r -> mask_draw F c n r -> (forall i, (i < n)%nat -> Z.abs (u i) <= B) ->
    yields F (truncate F X c r t) (fun z => exists q, denotes F n z true q /\ forall i, (i < n)%nat -> u i - s <= s * q i <= u i + s)).
Definition rok (r : mulrnd F) : Prop := rnd_ok F r n n n /\ mask_draw F c n (rtr F r).
Local Open Scope R_scope.
Notation S := (IZR s).
Definition u0 : R := / 6561.
Lemma S_big : 6561 <= S. Proof. apply IZR_le. exact Hs. Qed.
Lemma S_inv : 0 < / S <= u0.
Proof. pose proof S_big. split; [apply Rinv_0_lt_compat; lra|apply Rinv_le_contravar; lra]. Qed.
(** [t] stands for [x] up to [e]. *)
Definition near (t : ptensor F) (x : nat -> R) (e : R) : Prop :=
  exists u, denotes F n t true u /\ forall i, (i < n)%nat -> Rabs (IZR (u i) / S - x i) <= e.
Lemma near_le t x e e' : near t x e -> e <= e' -> near t x e'.
Proof. intros (u & D & H) G. exists u. split; [exact D|]. intros i Hi. eapply Rle_trans; [apply H; exact Hi|exact G]. Qed.
Lemma near_ext t x y e : near t x e -> (forall i, (i < n)%nat -> x i = y i) -> near t y e.
Proof. intros (u & D & H) G. exists u. split; [exact D|]. intros i Hi. rewrite <- G by exact Hi. apply H. exact Hi. Qed.
Lemma rounded (a b q : Z) x y e1 e2 A C : Rabs (IZR a / S - x) <= e1 -> Rabs (IZR b / S - y) <= e2 -> Rabs x <= A -> Rabs y <= C ->
  (a * b - s <= s * q <= a * b + s)%Z -> Rabs (IZR q / S - x * y) <= A * e2 + C * e1 + e1 * e2 + / S.
Proof.
  intros H1 H2 H3 H4 [G1 G2]. pose proof S_big. apply IZR_le in G1. apply IZR_le in G2. rewrite minus_IZR, !mult_IZR in G1. rewrite plus_IZR, !mult_IZR in G2.
  set (p := IZR a / S) in *. set (q' := IZR b / S) in *. assert (Ea : IZR a = p * S) by (unfold p; field; lra). assert (Eb : IZR b = q' * S) by (unfold q'; field; lra).
  rewrite Ea, Eb in *. set (z := IZR q / S). assert (Ez : IZR q = z * S) by (unfold z; field; lra). rewrite Ez in *.
  assert (R1 : Rabs (z - p * q') <= / S).
  { assert (K : / S * S = 1) by (field; lra). set (w := / S) in *. apply Rabs_le. split; apply (Rmult_le_reg_r (S * S)); nra. }
  replace (z - x * y) with ((z - p * q') + (x * (q' - y) + y * (p - x) + (p - x) * (q' - y))) by ring.
  eapply Rle_trans; [apply Rabs_triang|]. eapply Rle_trans; [apply Rplus_le_compat; [exact R1|]; eapply Rle_trans; [apply Rabs_triang|]; apply Rplus_le_compat; [eapply Rle_trans; [apply Rabs_triang|]; apply Rplus_le_compat|]|].
  1-3: rewrite Rabs_mult; apply Rmult_le_compat; try apply Rabs_pos; eassumption. lra.
Qed.
Lemma small (a b : Z) x y e1 e2 A C : Rabs (IZR a / S - x) <= e1 -> Rabs (IZR b / S - y) <= e2 -> Rabs x <= A -> Rabs y <= C ->
  (A + e1) * (C + e2) <= 2 ^ 30 -> (Z.abs (a * b) <= B)%Z.
Proof.
  intros H1 H2 H3 H4 G. pose proof S_big. apply le_IZR. eapply Rle_trans; [|apply IZR_le, HB]. rewrite abs_IZR, !mult_IZR.
  assert (P : forall (w : Z) v e E, Rabs (IZR w / S - v) <= e -> Rabs v <= E -> Rabs (IZR w) <= (E + e) * S).
  { intros w v e E K1 K2. replace (IZR w) with ((v + (IZR w / S - v)) * S) by (field; lra). rewrite Rabs_mult, (Rabs_right S) by lra.
    apply Rmult_le_compat_r; [lra|]. eapply Rle_trans; [apply Rabs_triang|]. lra. }
  pose proof (P _ _ _ _ H1 H3) as P1. pose proof (P _ _ _ _ H2 H4) as P2. rewrite Rabs_mult.
  eapply Rle_trans; [apply Rmult_le_compat; [apply Rabs_pos|apply Rabs_pos|exact P1|exact P2]|].
  replace (IZR (2 ^ 30)) with (2 ^ 30) by (rewrite (pow_IZR 2 30); reflexivity). nra.
Qed.

Lemma truncated r t u : denotes F n t true u -> rok r -> (forall i, (i < n)%nat -> (Z.abs (u i) <= B)%Z) ->
    yields F (truncate F X c (rtr F r) t) (fun z => exists q, denotes F n z true q /\ forall i, (i < n)%nat -> (u i - s <= s * q i <= u i + s)%Z).
Proof. intros D [(_ & _ & _ & _ & _ & R6) M] G. apply Htr; assumption. Qed.
Lemma mul_near r t1 t2 x y e1 e2 A C : rok r -> near t1 x e1 -> near t2 y e2 ->
  (forall i, (i < n)%nat -> Rabs (x i) <= A) -> (forall i, (i < n)%nat -> Rabs (y i) <= C) -> (A + e1) * (C + e2) <= 2 ^ 30 ->
  yields F (mul F BMul X c r t1 t2) (fun z => near z (fun i => x i * y i) (A * e2 + C * e1 + e1 * e2 + / S)).
Proof.
  intros Hr (u & Du & Hu) (v & Dv & Hv) HA HC G.
  destruct (product_ok F L BMul n n n r t1 t2 true true u v) as (z & E & D & _); [split; reflexivity|apply Hr|exact I|exact Du|exact Dv|].
  destruct (truncated r z _ D Hr) as (z' & E' & q & D' & Hq).
  { intros i Hi. cbn [bspec]. eapply small; [apply Hu|apply Hv|apply HA|apply HC|exact G]; exact Hi. }
  unfold mul, yields, bind. rewrite (denotes_scaled F n t1 true u Du), (denotes_scaled F n t2 true v Dv), E. cbn [andb snd].
  exists z'. split; [exact E'|]. exists q. split; [exact D'|]. intros i Hi. eapply rounded; [apply Hu|apply Hv|apply HA|apply HC|apply (Hq i)]; exact Hi.
Qed.
Lemma bind_near {A' : Type} (m : M F A') (P : A' -> Prop) {B' : Type} (k : A' -> M F B') (Q : B' -> Prop) :
  yields F m P -> (forall a, P a -> yields F (k a) Q) -> yields F (bind m k) Q.
Proof. intros (a & E & H) K. destruct (K a H) as (b & E' & H'). exists b. split; [|exact H']. unfold bind. rewrite E. exact E'. Qed.
Lemma square_near r t x e A : rok r -> near t x e -> (forall i, (i < n)%nat -> Rabs (x i) <= A) -> (A + e) * (A + e) <= 2 ^ 30 ->
  yields F (square F X c r t) (fun z => near z (fun i => x i * x i) (A * e + A * e + e * e + / S)).
Proof.
  intros Hr (u & Du & Hu) HA G.
  assert (K : exists y, snd (match t with
          | Pub x0 x1 sc => bind (op2 Srv0 (vmul F) x0 x0) (fun y0 => bind (op2 Srv1 (vmul F) x1 x1) (fun y1 => mk_pub y0 y1 sc))
          | _ => bind (ensure_masked F (rx0 F r) (rx1 F r) t) (fun mx => square_beaver F mx (rrho F r) (rswap F r))
          end) = Ok y /\ denotes F n y true (fun i => (u i * u i)%Z)).
  { destruct Hr as [(R1 & R2 & _ & _ & R5 & _) _].
    assert (P : (forall v0 v1 s, t <> Pub v0 v1 s) -> exists y, snd (bind (ensure_masked F (rx0 F r) (rx1 F r) t) (fun mx => square_beaver F mx (rrho F r) (rswap F r))) = Ok y /\ denotes F n y true (fun i => (u i * u i)%Z)).
    { intros Hp. destruct (ensure_masked_ok F L n (rx0 F r) (rx1 F r) t true u R1 R2 Du Hp) as (mx & E & D & Hm).
      destruct (square_ok F L n mx true u (rrho F r) (rswap F r) R5 D Hm) as (y & E' & D' & _). exists y. split; [|exact D']. unfold bind. rewrite E. exact E'. }
    destruct t as [v0 v1 s0| |]; [|apply P; discriminate|apply P; discriminate].
    destruct Du as (-> & D0 & D1 & W0 & W1 & Hv). cbn [bind op2 snd fst]. rewrite (mk_pub_ok F n) by (cbn [pdev pval]; auto using okT_vmul). cbn [snd].
    eexists. split; [reflexivity|]. cbn [denotes pdev pval]. repeat match goal with |- _ /\ _ => split end; auto using okT_vmul.
    intros i Hi. destruct (Hv i Hi) as [V0 V1]. split; rewrite (tval_vmul F L n) by assumption; rewrite ?V0, ?V1; reflexivity. }
  unfold square. eapply bind_near; [exact K|]. intros y D. destruct (truncated r y _ D Hr) as (z' & E' & q & D' & Hq).
  { intros i Hi. eapply small; [apply Hu|apply Hu|apply HA|apply HA|exact G]; exact Hi. }
  rewrite (denotes_scaled F n y true _ D). exists z'. split; [exact E'|]. exists q. split; [exact D'|]. intros i Hi. eapply rounded; [apply Hu|apply Hu|apply HA|apply HA|apply (Hq i)]; exact Hi.
Qed.
(** The constant [w] after encoding. *)
Definition cw (w : Q) : R := IZR (encode s w) / S.
Lemma entries_ok t u : denotes F n t true u -> entries F t = n.
Proof.
  destruct t; cbn [denotes entries].
  - intros (_ & _ & _ & W & _). apply (okT_len F _ _ W).
  - intros (_ & _ & _ & W & _). apply (okT_len F _ _ W).
  - intros (_ & _ & _ & _ & _ & _ & _ & _ & _ & _ & _ & W & _). apply (okT_len F _ _ W).
Qed.
Lemma lifted_near t x e w : near t x e -> yields F (lifted F c t w) (fun k => near k (fun _ => cw w) 0).
Proof.
  intros (u & D & _). unfold lifted, yields. rewrite (entries_ok _ _ D), (denotes_scaled F n t true u D). cbn [bind fresh snd fst].
  rewrite (mk_pub_ok F n) by (cbn [pdev pval]; auto using okT_vconst). cbn [snd]. eexists. split; [reflexivity|].
  exists (fun _ => encode s w). split.
  - cbn [denotes pdev pval]. repeat match goal with |- _ /\ _ => split end; auto using okT_vconst. intros i Hi. split; apply (tval_vconst F L n); assumption.
  - intros i Hi. unfold cw. rewrite Rminus_diag_eq, Rabs_R0 by reflexivity. lra.
Qed.
Lemma times_near r t x e w A C : rok r -> near t x e -> (forall i, (i < n)%nat -> Rabs (x i) <= A) -> Rabs (cw w) <= C -> (A + e) * C <= 2 ^ 30 ->
  yields F (times F X c r t w) (fun z => near z (fun i => cw w * x i) (C * e + / S)).
Proof.
  intros Hr Hx HA HC G. destruct (lifted_near t x e w Hx) as (k & E & Hk).
  destruct (mul_near r t k x (fun _ => cw w) e 0 A C Hr Hx Hk HA) as (z & E' & Hz); [intros; exact HC|rewrite Rplus_0_r; exact G|].
  unfold times, yields, bind. rewrite E. exists z. split; [exact E'|]. apply (near_le _ _ (A * 0 + C * e + e * 0 + / S)); [|lra].
  eapply near_ext; [exact Hz|]. intros i Hi. cbv beta. ring.
Qed.
Lemma add_near t1 t2 x y e1 e2 : near t1 x e1 -> near t2 y e2 -> yields F (add F t1 t2) (fun z => near z (fun i => x i + y i) (e1 + e2)).
Proof.
  intros (u & Du & Hu) (v & Dv & Hv). destruct (add_ok F L n t1 t2 true u v Du Dv) as (z & E & D). exists z. split; [exact E|].
  exists (fun i => (u i + v i)%Z). split; [exact D|]. intros i Hi. rewrite plus_IZR. pose proof S_big.
  replace ((IZR (u i) + IZR (v i)) / S - (x i + y i)) with ((IZR (u i) / S - x i) + (IZR (v i) / S - y i)) by (field; lra).
  eapply Rle_trans; [apply Rabs_triang|]. apply Rplus_le_compat; [apply Hu|apply Hv]; exact Hi.
Qed.
Lemma plus_near t x e w : near t x e -> yields F (plus F c t w) (fun z => near z (fun i => x i + cw w) e).
Proof.
  intros Hx. destruct (lifted_near t x e w Hx) as (k & E & Hk). destruct (add_near t k x (fun _ => cw w) e 0 Hx Hk) as (z & E' & Hz).
  unfold plus, yields, bind. rewrite E. exists z. split; [exact E'|]. eapply near_le; [exact Hz|lra].
Qed.
Lemma mul_to r t1 t2 x y e1 e2 A C e : near t1 x e1 -> near t2 y e2 -> rok r ->
  (forall i, (i < n)%nat -> Rabs (x i) <= A) -> (forall i, (i < n)%nat -> Rabs (y i) <= C) -> (A + e1) * (C + e2) <= 2 ^ 30 ->
  A * e2 + C * e1 + e1 * e2 + u0 <= e -> yields F (mul F BMul X c r t1 t2) (fun z => near z (fun i => x i * y i) e).
Proof.
  intros H1 H2 Hr HA HC G He. destruct (mul_near r t1 t2 x y e1 e2 A C Hr H1 H2 HA HC G) as (z & E & Hz). exists z. split; [exact E|].
  eapply near_le; [exact Hz|]. pose proof S_inv. lra.
Qed.
Lemma square_to r t x e1 A e : near t x e1 -> rok r -> (forall i, (i < n)%nat -> Rabs (x i) <= A) -> (A + e1) * (A + e1) <= 2 ^ 30 ->
  A * e1 + A * e1 + e1 * e1 + u0 <= e -> yields F (square F X c r t) (fun z => near z (fun i => x i * x i) e).
Proof.
  intros H1 Hr HA G He. destruct (square_near r t x e1 A Hr H1 HA G) as (z & E & Hz). exists z. split; [exact E|].
  eapply near_le; [exact Hz|]. pose proof S_inv. lra.
Qed.
Lemma cw_abs k d : Rabs (cw (k # d)) <= IZR (Z.abs k) / IZR (Zpos d).
Proof.
  unfold cw, encode. cbn [Qnum Qden]. pose proof S_big. assert (0 < IZR (Zpos d)) by (apply IZR_lt; reflexivity).
  assert (Hq : (Z.abs (Z.quot (k * s) (Zpos d)) * Zpos d <= Z.abs k * s)%Z).
  { rewrite <- Z.quot_abs by lia. rewrite Z.abs_mul, (Z.abs_eq s), (Z.abs_eq (Zpos d)) by lia.
    rewrite Z.mul_comm. apply Z.mul_quot_le; lia. }
  apply IZR_le in Hq. rewrite !mult_IZR in Hq. unfold Rdiv at 1. rewrite Rabs_mult, <- abs_IZR, (Rabs_right (/ S)) by (apply Rle_ge, Rlt_le, Rinv_0_lt_compat; lra).
  apply (Rmult_le_reg_r (IZR (Zpos d) * S)); [nra|]. field_simplify; [|lra|lra]. nra.
Qed.
Lemma times_to r t x e1 k d A e : near t x e1 -> rok r -> (forall i, (i < n)%nat -> Rabs (x i) <= A) -> (A + e1) * (IZR (Z.abs k) / IZR (Zpos d)) <= 2 ^ 30 ->
  IZR (Z.abs k) / IZR (Zpos d) * e1 + u0 <= e -> yields F (times F X c r t (k # d)) (fun z => near z (fun i => cw (k # d) * x i) e).
Proof.
  intros H1 Hr HA G He. destruct (times_near r t x e1 (k # d) A _ Hr H1 HA (cw_abs k d) G) as (z & E & Hz). exists z. split; [exact E|].
  eapply near_le; [exact Hz|]. pose proof S_inv. lra.
Qed.
Lemma absmul (f g : nat -> R) A C D : (forall i, (i < n)%nat -> Rabs (f i) <= A) -> (forall i, (i < n)%nat -> Rabs (g i) <= C) -> A * C <= D ->
  forall i, (i < n)%nat -> Rabs (f i * g i) <= D.
Proof.
  intros H1 H2 G i Hi. rewrite Rabs_mult. eapply Rle_trans; [|exact G]. apply Rmult_le_compat; auto using Rabs_pos.
Qed.
Ltac num := unfold u0; cbn [Z.abs]; lra.
Lemma sigmoid_near rs t x : (forall k, rok (rs k)) -> near t x 0 -> (forall i, (i < n)%nat -> Rabs (x i) <= 8) ->
  yields F (sigmoid F X c rs t) (fun z => near z (fun i =>
    cw (72 # 10000000000) * x i ^ 9 + cw (-18848 # 10000000000) * x i ^ 7 + cw (1825597 # 10000000000) * x i ^ 5 +
    cw (-82176259 # 10000000000) * x i ^ 3 + cw (2159198015 # 10000000000) * x i + cw (1 # 2)) 0.00086).
Proof.
  intros Hr Hx A1. unfold sigmoid.
  eapply bind_near; [apply (square_to _ _ _ _ 8 (1 / 6561) Hx (Hr _) A1); num|]. intros x2 H2.
  pose proof (absmul _ _ _ _ 64 A1 A1 ltac:(lra)) as A2.
  eapply bind_near; [apply (mul_to _ _ _ _ _ _ _ 64 8 (9 / 6561) H2 Hx (Hr _) A2 A1); num|]. intros x3 H3.
  pose proof (absmul _ _ _ _ 512 A2 A1 ltac:(lra)) as A3. cbv beta in A3.
  eapply bind_near; [apply (mul_to _ _ _ _ _ _ _ 64 512 (1090 / 6561) H2 H3 (Hr _) A2 A3); num|]. intros x5 H5.
  pose proof (absmul _ _ _ _ 32768 A2 A3 ltac:(lra)) as A5. cbv beta in A5.
  eapply bind_near; [apply (mul_to _ _ _ _ _ _ _ 64 32768 (102530 / 6561) H2 H5 (Hr _) A2 A5); num|]. intros x7 H7.
  pose proof (absmul _ _ _ _ 2097152 A2 A5 ltac:(lra)) as A7. cbv beta in A7.
  eapply bind_near; [apply (mul_to _ _ _ _ _ _ _ 64 2097152 (8659100 / 6561) H2 H7 (Hr _) A2 A7); num|]. intros x9 H9.
  pose proof (absmul _ _ _ _ 134217728 A2 A7 ltac:(lra)) as A9. cbv beta in A9.
  eapply bind_near; [apply (times_to _ _ _ _ _ _ _ (1 / 6561) Hx (Hr _) A1); num|]. intros y1 G1.
  eapply bind_near; [apply (times_to _ _ _ _ _ _ _ (1.08 / 6561) H3 (Hr _) A3); num|]. intros y3 G3.
  eapply bind_near; [apply (times_to _ _ _ _ _ _ _ (1.2 / 6561) H5 (Hr _) A5); num|]. intros y5 G5.
  eapply bind_near; [apply (times_to _ _ _ _ _ _ _ (1.2 / 6561) H7 (Hr _) A7); num|]. intros y7 G7.
  eapply bind_near; [apply (times_to _ _ _ _ _ _ _ (1.07 / 6561) H9 (Hr _) A9); num|]. intros y9 G9.
  eapply bind_near; [exact (add_near _ _ _ _ _ _ G9 G7)|]. intros z1 Z1.
  eapply bind_near; [exact (add_near _ _ _ _ _ _ Z1 G5)|]. intros z2 Z2.
  eapply bind_near; [exact (add_near _ _ _ _ _ _ Z2 G3)|]. intros z3 Z3.
  eapply bind_near; [exact (add_near _ _ _ _ _ _ Z3 G1)|]. intros z4 Z4.
  destruct (plus_near _ _ _ (1 # 2) Z4) as (z & E & Hz). exists z. split; [exact E|]. eapply near_ext; [eapply near_le; [exact Hz|lra]|].
  intros i Hi. cbv beta. ring.
Qed.
Lemma relu_near rs t x : (forall k, rok (rs k)) -> near t x 0 -> (forall i, (i < n)%nat -> Rabs (x i) <= 10) ->
  yields F (relu F X c rs t) (fun z => near z (fun i =>
    cw (-21097433984 # 1000000000000000000) * x i ^ 8 + cw (9009136367360004 # 1000000000000000000000) * x i ^ 6 +
    cw (-13660836712429923 # 10000000000000000000) * x i ^ 4 + cw (11217537671414643 # 100000000000000000) * x i ^ 2 +
    cw (1 # 2) * x i + cw (44015372000819103 # 100000000000000000)) 0.00089).
Proof.
  intros Hr Hx A1. unfold relu.
  eapply bind_near; [apply (square_to _ _ _ _ 10 (1 / 6561) Hx (Hr _) A1); num|]. intros x2 H2.
  pose proof (absmul _ _ _ _ 100 A1 A1 ltac:(lra)) as A2.
  eapply bind_near; [apply (mul_to _ _ _ _ _ _ _ 100 100 (201.1 / 6561) H2 H2 (Hr _) A2 A2); num|]. intros x4 H4.
  pose proof (absmul _ _ _ _ 10000 A2 A2 ltac:(lra)) as A4. cbv beta in A4.
  eapply bind_near; [apply (mul_to _ _ _ _ _ _ _ 100 10000 (30115 / 6561) H2 H4 (Hr _) A2 A4); num|]. intros x6 H6.
  pose proof (absmul _ _ _ _ 1000000 A2 A4 ltac:(lra)) as A6. cbv beta in A6.
  eapply bind_near; [apply (mul_to _ _ _ _ _ _ _ 100 1000000 (4030000 / 6561) H2 H6 (Hr _) A2 A6); num|]. intros x8 H8.
  pose proof (absmul _ _ _ _ 100000000 A2 A6 ltac:(lra)) as A8. cbv beta in A8.
  eapply bind_near; [apply (times_to _ _ _ _ _ _ _ (1 / 6561) Hx (Hr _) A1); num|]. intros y1 G1.
  eapply bind_near; [apply (times_to _ _ _ _ _ _ _ (1.113 / 6561) H2 (Hr _) A2); num|]. intros y2 G2.
  eapply bind_near; [apply (times_to _ _ _ _ _ _ _ (1.276 / 6561) H4 (Hr _) A4); num|]. intros y4 G4.
  eapply bind_near; [apply (times_to _ _ _ _ _ _ _ (1.272 / 6561) H6 (Hr _) A6); num|]. intros y6 G6.
  eapply bind_near; [apply (times_to _ _ _ _ _ _ _ (1.086 / 6561) H8 (Hr _) A8); num|]. intros y8 G8.
  eapply bind_near; [exact (add_near _ _ _ _ _ _ G8 G6)|]. intros z1 Z1.
  eapply bind_near; [exact (add_near _ _ _ _ _ _ Z1 G4)|]. intros z2 Z2.
  eapply bind_near; [exact (add_near _ _ _ _ _ _ Z2 G2)|]. intros z3 Z3.
  eapply bind_near; [exact (add_near _ _ _ _ _ _ Z3 G1)|]. intros z4 Z4.
  destruct (plus_near _ _ _ (44015372000819103 # 100000000000000000) Z4) as (z & E & Hz). exists z. split; [exact E|]. eapply near_ext; [eapply near_le; [exact Hz|lra]|].
  intros i Hi. cbv beta. ring.
Qed.
Lemma tanh_near rs t x : (forall k, rok (rs k)) -> near t x 0 -> (forall i, (i < n)%nat -> Rabs (x i) <= 5) ->
  yields F (tanh F X c rs t) (fun z => near z (fun i =>
    cw (-423424 # 1000000000) * x i ^ 7 + cw (10654528 # 1000000000) * x i ^ 5 + cw (-12494112 # 100000000) * x i ^ 3 +
    cw (852721056 # 1000000000) * x i + cw (0 # 1)) 0.00184).
Proof.
  intros Hr Hx A1. unfold tanh.
  eapply bind_near; [apply (square_to _ _ _ _ 5 (1 / 6561) Hx (Hr _) A1); num|]. intros x2 H2.
  pose proof (absmul _ _ _ _ 25 A1 A1 ltac:(lra)) as A2.
  eapply bind_near; [apply (mul_to _ _ _ _ _ _ _ 25 5 (6 / 6561) H2 Hx (Hr _) A2 A1); num|]. intros x3 H3.
  pose proof (absmul _ _ _ _ 125 A2 A1 ltac:(lra)) as A3. cbv beta in A3.
  eapply bind_near; [apply (mul_to _ _ _ _ _ _ _ 25 125 (276.1 / 6561) H2 H3 (Hr _) A2 A3); num|]. intros x5 H5.
  pose proof (absmul _ _ _ _ 3125 A2 A3 ltac:(lra)) as A5. cbv beta in A5.
  eapply bind_near; [apply (mul_to _ _ _ _ _ _ _ 25 3125 (10030 / 6561) H2 H5 (Hr _) A2 A5); num|]. intros x7 H7.
  pose proof (absmul _ _ _ _ 78125 A2 A5 ltac:(lra)) as A7. cbv beta in A7.
  eapply bind_near; [apply (times_to _ _ _ _ _ _ _ (1 / 6561) Hx (Hr _) A1); num|]. intros y1 G1.
  eapply bind_near; [apply (times_to _ _ _ _ _ _ _ (1.75 / 6561) H3 (Hr _) A3); num|]. intros y3 G3.
  eapply bind_near; [apply (times_to _ _ _ _ _ _ _ (3.945 / 6561) H5 (Hr _) A5); num|]. intros y5 G5.
  eapply bind_near; [apply (times_to _ _ _ _ _ _ _ (5.248 / 6561) H7 (Hr _) A7); num|]. intros y7 G7.
  eapply bind_near; [exact (add_near _ _ _ _ _ _ G7 G5)|]. intros z1 Z1.
  eapply bind_near; [exact (add_near _ _ _ _ _ _ Z1 G3)|]. intros z2 Z2.
  eapply bind_near; [exact (add_near _ _ _ _ _ _ Z2 G1)|]. intros z3 Z3.
  destruct (plus_near _ _ _ (0 # 1) Z3) as (z & E & Hz). exists z. split; [exact E|]. eapply near_ext; [eapply near_le; [exact Hz|lra]|].
  intros i Hi. cbv beta. ring.
Qed.
Lemma log_near rs t x : (forall k, rok (rs k)) -> near t x 0 -> (forall i, (i < n)%nat -> Rabs (x i) <= 1) ->
  yields F (log F X c rs t) (fun z => near z (fun i =>
    cw (382474222 # 100000000) * x i ^ 5 + cw (-1730367641 # 100000000) * x i ^ 4 + cw (3024596692 # 100000000) * x i ^ 3 +
    cw (-2618955259 # 100000000) * x i ^ 2 + cw (1279333646 # 100000000) * x i + cw (-335674972 # 100000000)) 0.02425).
Proof.
  intros Hr Hx A1. unfold log.
  eapply bind_near; [apply (square_to _ _ _ _ 1 (1 / 6561) Hx (Hr _) A1); num|]. intros x2 H2.
  pose proof (absmul _ _ _ _ 1 A1 A1 ltac:(lra)) as A2.
  eapply bind_near; [apply (mul_to _ _ _ _ _ _ _ 1 1 (2 / 6561) H2 Hx (Hr _) A2 A1); num|]. intros x3 H3.
  pose proof (absmul _ _ _ _ 1 A2 A1 ltac:(lra)) as A3. cbv beta in A3.
  eapply bind_near; [apply (mul_to _ _ _ _ _ _ _ 1 1 (3 / 6561) H3 Hx (Hr _) A3 A1); num|]. intros x4 H4.
  pose proof (absmul _ _ _ _ 1 A3 A1 ltac:(lra)) as A4. cbv beta in A4.
  eapply bind_near; [apply (mul_to _ _ _ _ _ _ _ 1 1 (4.01 / 6561) H2 H3 (Hr _) A2 A3); num|]. intros x5 H5.
  pose proof (absmul _ _ _ _ 1 A2 A3 ltac:(lra)) as A5. cbv beta in A5.
  eapply bind_near; [apply (times_to _ _ _ _ _ _ _ (1 / 6561) Hx (Hr _) A1); num|]. intros y1 G1.
  eapply bind_near; [apply (times_to _ _ _ _ _ _ _ (27.2 / 6561) H2 (Hr _) A2); num|]. intros y2 G2.
  eapply bind_near; [apply (times_to _ _ _ _ _ _ _ (61.5 / 6561) H3 (Hr _) A3); num|]. intros y3 G3.
  eapply bind_near; [apply (times_to _ _ _ _ _ _ _ (52.92 / 6561) H4 (Hr _) A4); num|]. intros y4 G4.
  eapply bind_near; [apply (times_to _ _ _ _ _ _ _ (16.35 / 6561) H5 (Hr _) A5); num|]. intros y5 G5.
  eapply bind_near; [exact (add_near _ _ _ _ _ _ G5 G4)|]. intros z1 Z1.
  eapply bind_near; [exact (add_near _ _ _ _ _ _ Z1 G3)|]. intros z2 Z2.
  eapply bind_near; [exact (add_near _ _ _ _ _ _ Z2 G2)|]. intros z3 Z3.
  eapply bind_near; [exact (add_near _ _ _ _ _ _ Z3 G1)|]. intros z4 Z4.
  destruct (plus_near _ _ _ (-335674972 # 100000000) Z4) as (z & E & Hz). exists z. split; [exact E|]. eapply near_ext; [eapply near_le; [exact Hz|lra]|].
  intros i Hi. cbv beta. ring.
Qed.
Lemma input_near t v : denotes F n t true v -> near t (fun i => IZR (v i) / S) 0.
Proof. intros D. exists v. split; [exact D|]. intros i Hi. rewrite Rminus_diag_eq, Rabs_R0 by reflexivity. lra. Qed.
End Near.

(** The truncations of the two precisions. *)
Lemma trunc_instance F (L : lawful F) X safe kok c n B r t u : fixlaw F X safe kok -> use_noninteractive c = false ->
  0 < scaling_base c -> 0 <= precision_fractional c -> 0 <= precision_integral c ->
  kok (scaling_base c) (precision_fractional c) -> Z.gcd (scaling_factor c) (fmod F) = 1 ->
  (forall v, - B <= v <= B + bound_double c + 2 ^ trunc_mask_bits c -> safe v) -> 0 <= B ->
  denotes F n t true u -> okT F n r -> mask_draw F c n r -> (forall i, (i < n)%nat -> Z.abs (u i) <= B) ->
  yields F (truncate F X c r t) (fun z => exists q, denotes F n z true q /\ forall i, (i < n)%nat ->
    u i - scaling_factor c <= scaling_factor c * q i <= u i + scaling_factor c).
Proof.
  intros HX Hni Hb Hf Hint Hk Hg Safe HB0 D W M HB. destruct (bound_double_div c Hb Hf Hint) as (Hs & Hd & Hm & Hmm).
  assert (M0 : forall i, (i < n)%nat -> 0 <= tval F r i < 2 ^ trunc_mask_bits c) by (intros i Hi; split; [apply (tval_range F L n); exact W|apply M; exact Hi]).
  assert (Q : forall (a b : nat -> Z), (forall i, (i < n)%nat -> b i = 0 \/ b i = 1) -> forall i, (i < n)%nat ->
    a i - scaling_factor c <= scaling_factor c * (a i / scaling_factor c + b i) <= a i + scaling_factor c).
  { intros a b Hab i Hi. pose proof (Z.mod_pos_bound (a i) (scaling_factor c) Hs). pose proof (Z.div_mod (a i) (scaling_factor c) ltac:(lia)).
    rewrite Z.mul_add_distr_l. destruct (Hab i Hi) as [-> | ->]; lia. }
  assert (BD : 0 < bound_double c) by (rewrite <- Hm; nia).
  apply denotes_unmasked in D. unfold truncate. destruct (unmasked t) as [v0 v1 sc|x0 x1 sc|] eqn:U.
  - assert (sc = true) as -> by apply D. destruct (public_ok F L X safe kok c n v0 v1 true u HX Hk D) as (z & E & Dz & _).
    { intros i Hi. apply Safe. pose proof (HB i Hi). pose proof (M0 i Hi). lia. }
    exists z. split; [exact E|]. eexists. split; [exact Dz|]. intros i Hi. pose proof (Q u (fun _ => 0) ltac:(intros; auto) i Hi) as K. rewrite Z.add_0_r in K. exact K.
  - assert (sc = true) as -> by apply D. rewrite Hni.
    destruct (interactive_ok F L X safe kok c n x0 x1 true u r (tval F r) HX Hs Hk Hg I D W) as (z & E & Dz & _).
    + intros; reflexivity.
    + intros i Hi. apply Safe. pose proof (M0 i Hi). lia.
    + intros i Hi. apply Safe. pose proof (HB i Hi). pose proof (M0 i Hi). rewrite Hm. lia.
    + exists z. split; [exact E|]. eexists. split; [exact Dz|].
      apply (Q u (fun i => if scaling_factor c <=? u i mod scaling_factor c + tval F r i mod scaling_factor c then 1 else 0)). intros i Hi. destruct (_ <=? _); auto.
  - destruct t; discriminate.
Qed.
Lemma ring_lawful p : lawful (ring p).
Proof. destruct p; [apply lawful_native; split; [cbn; lia|exact I]|apply lawful_crt, int100_ok]. Qed.
Definition limit (p : precision) : Z := match p with Low => 2 ^ 61 | High _ => 2 ^ 100 end.
Lemma limit_ok p : 2 ^ 30 * (scaling_factor (cfg p) * scaling_factor (cfg p)) <= limit p.
Proof. destruct p; vm_compute; congruence. Qed.
Lemma factor_ok p : 6561 <= scaling_factor (cfg p).
Proof. destruct p; vm_compute; congruence. Qed.
Lemma trunc_ok p n r t u : good p -> denotes (ring p) n t true u -> okT (ring p) n r -> mask_draw (ring p) (cfg p) n r ->
  (forall i, (i < n)%nat -> Z.abs (u i) <= limit p) ->
  yields (ring p) (truncate (ring p) (fops p) (cfg p) r t) (fun z => exists q, denotes (ring p) n z true q /\ forall i, (i < n)%nat ->
    u i - scaling_factor (cfg p) <= scaling_factor (cfg p) * q i <= u i + scaling_factor (cfg p)).
Proof.
  intros G D W M HB. destruct p as [|est]; cbn [ring fops cfg limit good] in *.
  - refine (trunc_instance _ (ring_lawful Low) _ _ _ _ _ (2 ^ 61) r t u (fixlaw_native 64 _) _ _ _ _ _ _ _ _ D W M HB).
    + lia.
    + reflexivity.
    + reflexivity.
    + vm_compute; congruence.
    + vm_compute; congruence.
    + split; [reflexivity|]. split; [vm_compute; congruence|]. split; [vm_compute; congruence|right; reflexivity].
    + vm_compute; reflexivity.
    + intros v Hv. assert (E : 2 ^ 61 + bound_double fixed64 + 2 ^ trunc_mask_bits fixed64 < 2 ^ 63) by (vm_compute; reflexivity).
      assert (E' : - 2 ^ 63 <= - 2 ^ 61) by (vm_compute; congruence). cbn [cfg] in Hv. unfold in_s. change (64 - 1) with 63. lia.
    + vm_compute; congruence.
  - refine (trunc_instance _ (ring_lawful (High est)) _ _ _ _ _ (2 ^ 100) r t u (fixlaw_crt est G) _ _ _ _ _ _ _ _ D W M HB).
    + reflexivity.
    + reflexivity.
    + vm_compute; congruence.
    + vm_compute; congruence.
    + split; [reflexivity|]. split; [vm_compute; congruence|]. split; [vm_compute; reflexivity|left; vm_compute; congruence].
    + vm_compute; reflexivity.
    + intros v Hv. assert (E : 2 * (2 ^ 100 + bound_double fixed100 + 2 ^ trunc_mask_bits fixed100) < prodZ int100_moduli - 2 * (prodZ int100_moduli / 2 ^ 17 + 1)) by (vm_compute; reflexivity).
      assert (E' : 0 <= bound_double fixed100 + 2 ^ trunc_mask_bits fixed100) by (vm_compute; congruence). cbn [cfg] in Hv. unfold int100_safe. lia.
    + vm_compute; congruence.
Qed.
(** From the rounding lemmas to outcomes. *)
Definition nearp (p : precision) (n : nat) := near (ring p) (cfg p) n.
Lemma worth_div p v : worth p v = (IZR v / IZR (scaling_factor (cfg p)))%R.
Proof. destruct p; reflexivity. Qed.
Lemma outcome_of p n m f e (P : nat -> R -> Prop) : yields (ring p) m (fun z => nearp p n z f e) ->
  (forall i y, (i < n)%nat -> (Rabs (y - f i) <= e)%R -> P i y) -> outcome p n m P.
Proof.
  intros (z & E & q & D & H) K. exists z. split; [exact E|]. exists q. split; [apply reveals_of; [apply ring_lawful|exact D]|].
  intros i Hi. apply K; [exact Hi|]. rewrite worth_div. apply H. exact Hi.
Qed.
Lemma drawn_rok p n rs : drawn p n rs -> forall k, rok (ring p) (cfg p) n (rs k).
Proof. intros H k. apply H. Qed.
Lemma sigmoid_outcome p n rs t v (P : nat -> R -> Prop) : good p -> drawn p n rs -> denotes (ring p) n t true v ->
  (forall i, (i < n)%nat -> (Rabs (worth p (v i)) <= 8)%R) ->
  (forall i y, (i < n)%nat -> (Rabs (y - match p with Low => ev sig64 (worth p (v i)) / 6561 | High _ => ev sig100 (worth p (v i)) / 65536 end) <= 0.00086)%R -> P i y) ->
  outcome p n (sigmoid (ring p) (fops p) (cfg p) rs t) P.
Proof.
  intros G Hd D HA HP. eapply outcome_of.
  - refine (sigmoid_near (ring p) (ring_lawful p) (fops p) (cfg p) n (limit p) (factor_ok p) (limit_ok p) _ rs t _ (drawn_rok p n rs Hd) (input_near _ _ _ _ _ D) _); [intros; apply trunc_ok; assumption|].
    intros i Hi. cbv beta. rewrite <- worth_div. apply HA. exact Hi.
  - intros i y Hi H. apply HP; [exact Hi|]. eapply Rle_trans; [apply Req_le|exact H]. f_equal. f_equal. cbv beta. rewrite <- !worth_div.
    unfold cw. destruct p; cbn [cfg]; repeat match goal with |- context [encode ?a ?b] => let v := eval vm_compute in (encode a b) in change (encode a b) with v end;
      [change (scaling_factor fixed64) with 6561|change (scaling_factor fixed100) with 65536]; cbn [ev sig64 sig100]; field.
Qed.
Lemma relu_outcome p n rs t v (P : nat -> R -> Prop) : good p -> drawn p n rs -> denotes (ring p) n t true v ->
  (forall i, (i < n)%nat -> (Rabs (worth p (v i)) <= 10)%R) ->
  (forall i y, (i < n)%nat -> (Rabs (y - match p with Low => ev relu64 (worth p (v i)) / 6561 | High _ => ev relu100 (worth p (v i)) / 65536 end) <= 0.00089)%R -> P i y) ->
  outcome p n (relu (ring p) (fops p) (cfg p) rs t) P.
Proof.
  intros G Hd D HA HP. eapply outcome_of.
  - refine (relu_near (ring p) (ring_lawful p) (fops p) (cfg p) n (limit p) (factor_ok p) (limit_ok p) _ rs t _ (drawn_rok p n rs Hd) (input_near _ _ _ _ _ D) _); [intros; apply trunc_ok; assumption|].
    intros i Hi. cbv beta. rewrite <- worth_div. apply HA. exact Hi.
  - intros i y Hi H. apply HP; [exact Hi|]. eapply Rle_trans; [apply Req_le|exact H]. f_equal. f_equal. cbv beta. rewrite <- !worth_div.
    unfold cw. destruct p; cbn [cfg]; repeat match goal with |- context [encode ?a ?b] => let v := eval vm_compute in (encode a b) in change (encode a b) with v end;
      [change (scaling_factor fixed64) with 6561|change (scaling_factor fixed100) with 65536]; cbn [ev relu64 relu100]; field.
Qed.
Lemma tanh_outcome p n rs t v (P : nat -> R -> Prop) : good p -> drawn p n rs -> denotes (ring p) n t true v ->
  (forall i, (i < n)%nat -> (Rabs (worth p (v i)) <= 5)%R) ->
  (forall i y, (i < n)%nat -> (Rabs (y - match p with Low => ev tanh64 (worth p (v i)) / 6561 | High _ => ev tanh100 (worth p (v i)) / 65536 end) <= 0.00184)%R -> P i y) ->
  outcome p n (tanh (ring p) (fops p) (cfg p) rs t) P.
Proof.
  intros G Hd D HA HP. eapply outcome_of.
  - refine (tanh_near (ring p) (ring_lawful p) (fops p) (cfg p) n (limit p) (factor_ok p) (limit_ok p) _ rs t _ (drawn_rok p n rs Hd) (input_near _ _ _ _ _ D) _); [intros; apply trunc_ok; assumption|].
    intros i Hi. cbv beta. rewrite <- worth_div. apply HA. exact Hi.
  - intros i y Hi H. apply HP; [exact Hi|]. eapply Rle_trans; [apply Req_le|exact H]. f_equal. f_equal. cbv beta. rewrite <- !worth_div.
    unfold cw. destruct p; cbn [cfg]; repeat match goal with |- context [encode ?a ?b] => let v := eval vm_compute in (encode a b) in change (encode a b) with v end;
      [change (scaling_factor fixed64) with 6561|change (scaling_factor fixed100) with 65536]; cbn [ev tanh64 tanh100]; field.
Qed.
Lemma log_outcome p n rs t v (P : nat -> R -> Prop) : good p -> drawn p n rs -> denotes (ring p) n t true v ->
  (forall i, (i < n)%nat -> (Rabs (worth p (v i)) <= 1)%R) ->
  (forall i y, (i < n)%nat -> (Rabs (y - match p with Low => ev log64 (worth p (v i)) / 6561 | High _ => ev log100 (worth p (v i)) / 65536 end) <= 0.02425)%R -> P i y) ->
  outcome p n (log (ring p) (fops p) (cfg p) rs t) P.
Proof.
  intros G Hd D HA HP. eapply outcome_of.
  - refine (log_near (ring p) (ring_lawful p) (fops p) (cfg p) n (limit p) (factor_ok p) (limit_ok p) _ rs t _ (drawn_rok p n rs Hd) (input_near _ _ _ _ _ D) _); [intros; apply trunc_ok; assumption|].
    intros i Hi. cbv beta. rewrite <- worth_div. apply HA. exact Hi.
  - intros i y Hi H. apply HP; [exact Hi|]. eapply Rle_trans; [apply Req_le|exact H]. f_equal. f_equal. cbv beta. rewrite <- !worth_div.
    unfold cw. destruct p; cbn [cfg]; repeat match goal with |- context [encode ?a ?b] => let v := eval vm_compute in (encode a b) in change (encode a b) with v end;
      [change (scaling_factor fixed64) with 6561|change (scaling_factor fixed100) with 65536]; cbn [ev log64 log100]; field.
Qed.
