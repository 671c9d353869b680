(** Proofs about convolutions. *)
From Coq Require Import List Arith Bool Lia Ring Ring_theory.
From Verif Require Import ConvModel ConvSpec.
Import ListNotations.

(** Row-major positions. *)
Definition within (idx d : list nat) : Prop := Forall2 lt idx d.
Lemma ravel_lt d idx : within idx d -> ravel d idx < psize d.
Proof.
  induction 1 as [|i e idx d Hi H IH]; [cbn; lia|]. cbn [ravel]. change (psize (e :: d)) with (e * psize d). set (p := psize d) in *.
  assert (S i * p <= e * p) by (apply Nat.mul_le_mono_r; lia). lia.
Qed.
Lemma unravel_ravel d idx : within idx d -> unravel d (ravel d idx) = idx.
Proof.
  induction 1 as [|i e idx d Hi H IH]; [reflexivity|]. cbn [ravel unravel]. pose proof (ravel_lt _ _ H) as L. set (p := psize d) in *. set (r := ravel d idx) in *.
  assert (E1 : (i * p + r) / p = i) by (symmetry; apply (Nat.div_unique _ p i r); lia).
  assert (E2 : (i * p + r) mod p = r) by (symmetry; apply (Nat.mod_unique _ p i r); lia). rewrite E1, E2, IH. reflexivity.
Qed.
Lemma ravel_unravel d p : p < psize d -> ravel d (unravel d p) = p.
Proof.
  revert p. induction d as [|e d IH]; intros p H; [cbn in *; lia|]. cbn [unravel ravel]. change (psize (e :: d)) with (e * psize d) in H.
  assert (Q : psize d <> 0) by (intros Q; rewrite Q in H; lia). rewrite IH by (apply Nat.mod_upper_bound, Q). rewrite Nat.mul_comm. symmetry. apply Nat.div_mod, Q.
Qed.
Lemma reshape_ok {A} d (t : ten A) : psize d = psize (dims t) -> exists z, reshape d t = Ok z /\ dims z = d /\
  (forall idx idx', within idx d -> within idx' (dims t) -> ravel d idx = ravel (dims t) idx' -> val z idx = val t idx').
Proof.
  intros H. unfold reshape. rewrite H, Nat.eqb_refl. eexists. split; [reflexivity|]. split; [reflexivity|]. intros idx idx' H1 H2 E. cbn [val]. rewrite E, unravel_ravel by exact H2. reflexivity.
Qed.
Lemma w2 a b i j : i < a -> j < b -> within [i; j] [a; b]. Proof. intros. repeat constructor; assumption. Qed.
Lemma w3 a b c i j k : i < a -> j < b -> k < c -> within [i; j; k] [a; b; c]. Proof. intros. repeat constructor; assumption. Qed.
Lemma w4 a b c d i j k l : i < a -> j < b -> k < c -> l < d -> within [i; j; k; l] [a; b; c; d]. Proof. intros. repeat constructor; assumption. Qed.

Section ConvP.
Context {A : Type} (zero one : A) (add mul sub : A -> A -> A) (opp : A -> A) (RT : ring_theory zero one add mul sub opp eq).
Add Ring Aring : RT.
Notation sum := (ConvModel.sum zero add).
Notation sigma := (ConvSpec.sigma zero add).

Lemma sum_ext n f g : (forall i, i < n -> f i = g i) -> sum n f = sum n g.
Proof. induction n as [|n IH]; intros H; [reflexivity|]. cbn. rewrite IH by (intros; apply H; lia). rewrite H by lia. reflexivity. Qed.
Lemma sum_zero n : sum n (fun _ => zero) = zero.
Proof. induction n as [|n IH]; [reflexivity|]. cbn. rewrite IH. ring. Qed.
Lemma sum_add n f g : sum n (fun i => add (f i) (g i)) = add (sum n f) (sum n g).
Proof. induction n as [|n IH]; cbn; [ring|]. rewrite IH. ring. Qed.
Lemma sum_mul n f c : sum n (fun i => mul c (f i)) = mul c (sum n f).
Proof. induction n as [|n IH]; cbn; [ring|]. rewrite IH. ring. Qed.
Lemma sum_mulr n f c : sum n (fun i => mul (f i) c) = mul (sum n f) c.
Proof. induction n as [|n IH]; cbn; [ring|]. rewrite IH. ring. Qed.
Lemma sum_swap n m f : sum n (fun i => sum m (fun j => f i j)) = sum m (fun j => sum n (fun i => f i j)).
Proof. induction n as [|n IH]; cbn; [symmetry; apply sum_zero|]. rewrite IH. symmetry. apply (sum_add m (fun j => sum n (fun i => f i j)) (f n)). Qed.
Lemma sum_app n m f : sum (n + m) f = add (sum n f) (sum m (fun j => f (n + j))).
Proof. induction m as [|m IH]; [rewrite Nat.add_0_r; cbn; ring|]. rewrite Nat.add_succ_r. cbn. rewrite IH. ring. Qed.
Lemma sum_prod n m f : sum (n * m) f = sum n (fun i => sum m (fun j => f (i * m + j))).
Proof. induction n as [|n IH]; [reflexivity|]. replace (S n * m) with (n * m + m) by lia. rewrite sum_app, IH. reflexivity. Qed.
Lemma sum_sigma n f : sum n f = sigma n f.
Proof.
  assert (G : forall l a, fold_right add zero (l ++ [a]) = add (fold_right add zero l) a). { induction l as [|b l IH]; intros a; cbn; [ring|]. rewrite IH. ring. }
  unfold ConvSpec.sigma. induction n as [|n IH]; [reflexivity|]. rewrite seq_S, map_app. cbn [map]. rewrite G. cbn. rewrite IH. reflexivity.
Qed.

(** What im2col puts at row [u], [v], [ch] and column [i], [j], [b]. *)
Definition pixel (x : nat -> nat -> nat -> nat -> A) p h w kh kw sh sw b ch y z : A := extended zero x h w (tf_before p h kh sh) (tf_before p w kw sw) b ch y z.

Lemma patches_at (x : ten A) n h w c kh kw sh sw p b i j u v ch : dims x = [n; h; w; c] -> u < kh -> v < kw -> ch < c ->
  val (patches zero x kh kw sh sw p) [b; i; j; (u * kw + v) * c + ch] = pixel (fun b ch y z => val x [b; y; z; ch]) p h w kh kw sh sw b ch (i * sh + u) (j * sw + v).
Proof.
  intros D Hu Hv Hc. unfold patches. rewrite D. cbn [val]. replace ((u * kw + v) * c + ch) with (ravel [kh; kw; c] [u; v; ch]) by (cbn; ring).
  rewrite unravel_ravel by (apply w3; assumption). reflexivity.
Qed.
Lemma div_exact a b : 0 < a -> a * b / a = b.
Proof. intros H. rewrite Nat.mul_comm. apply Nat.div_mul. lia. Qed.

Lemma im2col_nhwc (x : ten A) n h w c kh kw sh sw p : dims x = [n; h; w; c] -> 0 < kh -> 0 < kw -> 0 < c ->
  let ho := out_len p h kh sh in let wo := out_len p w kw sw in
  exists z, im2col zero false x kh kw sh sw p = Ok z /\ dims z = [c * kh * kw; ho * wo * n] /\
  forall u v ch i j b, u < kh -> v < kw -> ch < c -> i < ho -> j < wo -> b < n ->
    val z [(u * kw + v) * c + ch; (i * wo + j) * n + b] = pixel (fun b ch y z => val x [b; y; z; ch]) p h w kh kw sh sw b ch (i * sh + u) (j * sw + v).
Proof.
  intros D Hh Hw Hc ho wo. unfold im2col. rewrite D. cbn [nth].
  set (t := transpose [3; 1; 2; 0] (patches zero x kh kw sh sw p)).
  assert (Dt : dims t = [kh * kw * c; ho; wo; n]) by (unfold t, patches; rewrite D; reflexivity).
  assert (K0 : 0 < kh * kw * c) by (apply Nat.mul_pos_pos; [apply Nat.mul_pos_pos|]; assumption).
  assert (M : psize (dims t) / (kh * kw * c) = ho * wo * n). { rewrite Dt. cbn [psize fold_right]. replace (kh * kw * c * (ho * (wo * (n * 1)))) with (kh * kw * c * (ho * wo * n)) by ring. apply div_exact, K0. }
  rewrite M. destruct (reshape_ok [kh; kw; c; ho * wo * n] t) as (t1 & E1 & D1 & V1); [rewrite Dt; cbn; ring|]. rewrite E1.
  assert (M1 : psize (dims t1) / (c * kh * kw) = ho * wo * n). { rewrite D1. cbn [psize fold_right]. replace (kh * (kw * (c * (ho * wo * n * 1)))) with (c * kh * kw * (ho * wo * n)) by ring. apply div_exact. replace (c * kh * kw) with (kh * kw * c) by ring. exact K0. }
  rewrite M1. destruct (reshape_ok [c * kh * kw; ho * wo * n] t1) as (t2 & E2 & D2 & V2); [rewrite D1; cbn; ring|]. exists t2. split; [exact E2|]. split; [exact D2|].
  intros u v ch i j b Hu Hv Hch Hi Hj Hb.
  assert (Lm : (i * wo + j) * n + b < ho * wo * n). { pose proof (ravel_lt [ho; wo; n] [i; j; b] ltac:(apply w3; assumption)) as L. cbn in L. lia. }
  assert (Lq : (u * kw + v) * c + ch < kh * kw * c). { pose proof (ravel_lt [kh; kw; c] [u; v; ch] ltac:(apply w3; assumption)) as L. cbn in L. lia. }
  rewrite (V2 _ [u; v; ch; (i * wo + j) * n + b]); [|apply w2; [lia|exact Lm]|rewrite D1; apply w4; assumption|rewrite D1; cbn; ring].
  rewrite (V1 _ [(u * kw + v) * c + ch; i; j; b]); [|apply w4; assumption|rewrite Dt; apply w4; assumption|rewrite Dt; cbn; ring].
  unfold t, transpose. cbn [val map seq length pos Nat.eqb nth]. apply (patches_at x n h w c kh kw sh sw p b i j u v ch D Hu Hv Hch).
Qed.

Lemma im2col_nchw (x : ten A) n h w c kh kw sh sw p : dims x = [n; c; h; w] -> 0 < kh -> 0 < kw -> 0 < c ->
  let ho := out_len p h kh sh in let wo := out_len p w kw sw in
  exists z, im2col zero true x kh kw sh sw p = Ok z /\ dims z = [c * kh * kw; ho * wo * n] /\
  forall u v ch i j b, u < kh -> v < kw -> ch < c -> i < ho -> j < wo -> b < n ->
    val z [(ch * kh + u) * kw + v; (i * wo + j) * n + b] = pixel (at4 x) p h w kh kw sh sw b ch (i * sh + u) (j * sw + v).
Proof.
  intros D Hh Hw Hc ho wo. unfold im2col. set (y := transpose [0; 2; 3; 1] x). assert (Dy : dims y = [n; h; w; c]) by (unfold y, transpose; cbn [dims]; rewrite D; reflexivity). rewrite Dy. cbn [nth].
  set (t := transpose [3; 1; 2; 0] (patches zero y kh kw sh sw p)).
  assert (Dt : dims t = [kh * kw * c; ho; wo; n]) by (unfold t, patches; rewrite Dy; reflexivity).
  assert (K0 : 0 < kh * kw * c) by (apply Nat.mul_pos_pos; [apply Nat.mul_pos_pos|]; assumption).
  assert (M : psize (dims t) / (kh * kw * c) = ho * wo * n). { rewrite Dt. cbn [psize fold_right]. replace (kh * kw * c * (ho * (wo * (n * 1)))) with (kh * kw * c * (ho * wo * n)) by ring. apply div_exact, K0. }
  rewrite M. destruct (reshape_ok [kh; kw; c; ho * wo * n] t) as (t1 & E1 & D1 & V1); [rewrite Dt; cbn; ring|]. rewrite E1.
  set (s := transpose [2; 0; 1; 3] t1). assert (Ds : dims s = [c; kh; kw; ho * wo * n]) by (unfold s, transpose; cbn [dims]; rewrite D1; reflexivity).
  assert (M1 : psize (dims s) / (c * kh * kw) = ho * wo * n). { rewrite Ds. cbn [psize fold_right]. replace (c * (kh * (kw * (ho * wo * n * 1)))) with (c * kh * kw * (ho * wo * n)) by ring. apply div_exact. replace (c * kh * kw) with (kh * kw * c) by ring. exact K0. }
  rewrite M1. destruct (reshape_ok [c * kh * kw; ho * wo * n] s) as (t2 & E2 & D2 & V2); [rewrite Ds; cbn; ring|]. exists t2. split; [exact E2|]. split; [exact D2|].
  intros u v ch i j b Hu Hv Hch Hi Hj Hb.
  assert (Lm : (i * wo + j) * n + b < ho * wo * n). { pose proof (ravel_lt [ho; wo; n] [i; j; b] ltac:(apply w3; assumption)) as L. cbn in L. lia. }
  assert (Lq : (ch * kh + u) * kw + v < c * kh * kw). { pose proof (ravel_lt [c; kh; kw] [ch; u; v] ltac:(apply w3; assumption)) as L. cbn in L. lia. }
  assert (Lr : (u * kw + v) * c + ch < kh * kw * c). { pose proof (ravel_lt [kh; kw; c] [u; v; ch] ltac:(apply w3; assumption)) as L. cbn in L. lia. }
  rewrite (V2 _ [ch; u; v; (i * wo + j) * n + b]); [|apply w2; [exact Lq|exact Lm]|rewrite Ds; apply w4; assumption|rewrite Ds; cbn; ring].
  unfold s, transpose at 1. cbn [val map seq length pos Nat.eqb nth].
  rewrite (V1 _ [(u * kw + v) * c + ch; i; j; b]); [|apply w4; assumption|rewrite Dt; apply w4; assumption|rewrite Dt; cbn; ring].
  unfold t, transpose. cbn [val map seq length pos Nat.eqb nth]. rewrite (patches_at _ n h w c kh kw sh sw p b i j u v ch Dy Hu Hv Hch). reflexivity.
Qed.

(** Products of the two matrices. *)
Lemma product_at (wcol xcol : ten A) f K M : dims wcol = [f; K] -> dims xcol = [K; M] -> exists z, matmul zero add mul wcol xcol = Ok z /\ dims z = [f; M] /\
  forall g m, val z [g; m] = sum K (fun q => mul (val wcol [g; q]) (val xcol [q; m])).
Proof. intros D1 D2. unfold matmul. rewrite D1, D2, Nat.eqb_refl. eexists. split; [reflexivity|]. split; reflexivity. Qed.

Definition conv_at (x y : ten A) p h w c kh kw sh sw b g i j : A :=
  sum kh (fun u => sum kw (fun v => sum c (fun ch => mul (pixel (at4 x) p h w kh kw sh sw b ch (i * sh + u) (j * sw + v)) (at4 y u v ch g)))).

Lemma conv2d_ok (x y : ten A) n c h w kh kw f sh sw p : dims x = [n; c; h; w] -> dims y = [kh; kw; c; f] -> 0 < kh -> 0 < kw -> 0 < c -> 0 < f ->
  let ho := out_len p h kh sh in let wo := out_len p w kw sw in
  exists z, conv2d zero add mul x y sh sw p = Ok z /\ dims z = [n; f; ho; wo] /\
  forall b g i j, b < n -> g < f -> i < ho -> j < wo -> at4 z b g i j = conv_at x y p h w c kh kw sh sw b g i j.
Proof.
  intros D E Hh Hw Hc Hf ho wo. unfold conv2d. set (x1 := transpose [0; 2; 3; 1] x). assert (D1 : dims x1 = [n; h; w; c]) by (unfold x1, transpose; cbn [dims]; rewrite D; reflexivity).
  rewrite E, D1. destruct (im2col_nhwc x1 n h w c kh kw sh sw p D1 Hh Hw Hc) as (xc & Ex & Dx & Vx). fold ho wo in Dx, Vx. fold ho wo. rewrite Ex.
  set (y1 := transpose [3; 0; 1; 2] y). assert (D2 : dims y1 = [f; kh; kw; c]) by (unfold y1, transpose; cbn [dims]; rewrite E; reflexivity).
  assert (Q : psize [kh; kw; c; f] / f = c * kh * kw). { cbn [psize fold_right]. replace (kh * (kw * (c * (f * 1)))) with (f * (c * kh * kw)) by ring. apply div_exact, Hf. }
  rewrite Q. destruct (reshape_ok [f; c * kh * kw] y1) as (wc & Ew & Dw & Vw); [rewrite D2; cbn; ring|]. rewrite Ew.
  destruct (product_at wc xc f (c * kh * kw) (ho * wo * n) Dw Dx) as (o & Eo & Do & Vo). rewrite Eo.
  destruct (reshape_ok [f; ho; wo; n] o) as (o1 & Eo1 & Do1 & Vo1); [rewrite Do; cbn; ring|]. rewrite Eo1. eexists. split; [reflexivity|]. split; [unfold transpose; cbn [dims]; rewrite Do1; reflexivity|].
  intros b g i j Hb Hg Hi Hj. unfold at4, transpose. cbn [val map seq length pos Nat.eqb nth].
  assert (Lm : (i * wo + j) * n + b < ho * wo * n). { pose proof (ravel_lt [ho; wo; n] [i; j; b] ltac:(apply w3; assumption)) as L. cbn in L. lia. }
  rewrite (Vo1 _ [g; (i * wo + j) * n + b]); [|apply w4; assumption|rewrite Do; apply w2; assumption|rewrite Do; cbn; ring].
  rewrite Vo. replace (c * kh * kw) with (kh * (kw * c)) by ring. rewrite sum_prod. apply sum_ext. intros u Hu. rewrite sum_prod. apply sum_ext. intros v Hv. apply sum_ext. intros ch Hch.
  replace (u * (kw * c) + (v * c + ch)) with ((u * kw + v) * c + ch) by ring.
  assert (Lq : (u * kw + v) * c + ch < kh * kw * c). { pose proof (ravel_lt [kh; kw; c] [u; v; ch] ltac:(apply w3; assumption)) as L. cbn in L. lia. }
  rewrite (Vw _ [g; u; v; ch]); [|apply w2; [exact Hg|lia]|rewrite D2; apply w4; assumption|rewrite D2; cbn; ring].
  rewrite Vx by assumption. unfold y1, transpose. cbn [val map seq length pos Nat.eqb nth]. unfold at4. rewrite (Rmul_comm RT). reflexivity.
Qed.

Lemma crt_conv2d_ok (x y : ten A) n c h w kh kw f sh sw p : dims x = [n; c; h; w] -> dims y = [kh; kw; c; f] -> 0 < kh -> 0 < kw -> 0 < c -> 0 < f ->
  let ho := out_len p h kh sh in let wo := out_len p w kw sw in
  exists z, crt_conv2d zero add mul x y sh sw p = Ok z /\ dims z = [n; f; ho; wo] /\
  forall b g i j, b < n -> g < f -> i < ho -> j < wo -> at4 z b g i j = conv_at x y p h w c kh kw sh sw b g i j.
Proof.
  intros D E Hh Hw Hc Hf ho wo. unfold crt_conv2d.
  rewrite E, D. destruct (im2col_nchw x n h w c kh kw sh sw p D Hh Hw Hc) as (xc & Ex & Dx & Vx). fold ho wo in Dx, Vx. fold ho wo. rewrite Ex.
  set (y1 := transpose [3; 2; 0; 1] y). assert (D2 : dims y1 = [f; c; kh; kw]) by (unfold y1, transpose; cbn [dims]; rewrite E; reflexivity).
  assert (Q : psize [kh; kw; c; f] / f = c * kh * kw). { cbn [psize fold_right]. replace (kh * (kw * (c * (f * 1)))) with (f * (c * kh * kw)) by ring. apply div_exact, Hf. }
  rewrite Q. destruct (reshape_ok [f; c * kh * kw] y1) as (wc & Ew & Dw & Vw); [rewrite D2; cbn; ring|]. rewrite Ew.
  destruct (product_at wc xc f (c * kh * kw) (ho * wo * n) Dw Dx) as (o & Eo & Do & Vo). rewrite Eo.
  destruct (reshape_ok [f; ho; wo; n] o) as (o1 & Eo1 & Do1 & Vo1); [rewrite Do; cbn; ring|]. rewrite Eo1. eexists. split; [reflexivity|]. split; [unfold transpose; cbn [dims]; rewrite Do1; reflexivity|].
  intros b g i j Hb Hg Hi Hj. unfold at4, transpose. cbn [val map seq length pos Nat.eqb nth].
  assert (Lm : (i * wo + j) * n + b < ho * wo * n). { pose proof (ravel_lt [ho; wo; n] [i; j; b] ltac:(apply w3; assumption)) as L. cbn in L. lia. }
  rewrite (Vo1 _ [g; (i * wo + j) * n + b]); [|apply w4; assumption|rewrite Do; apply w2; assumption|rewrite Do; cbn; ring].
  rewrite Vo. unfold conv_at. rewrite (sum_ext kh _ (fun u => sum c (fun ch => sum kw (fun v => mul (pixel (at4 x) p h w kh kw sh sw b ch (i * sh + u) (j * sw + v)) (at4 y u v ch g))))) by (intros u _; apply sum_swap).
  rewrite sum_swap. replace (c * kh * kw) with (c * (kh * kw)) by ring. rewrite sum_prod. apply sum_ext. intros ch Hch. rewrite sum_prod. apply sum_ext. intros u Hu. apply sum_ext. intros v Hv.
  replace (ch * (kh * kw) + (u * kw + v)) with ((ch * kh + u) * kw + v) by ring.
  assert (Lq : (ch * kh + u) * kw + v < c * kh * kw). { pose proof (ravel_lt [c; kh; kw] [ch; u; v] ltac:(apply w3; assumption)) as L. cbn in L. lia. }
  rewrite (Vw _ [g; ch; u; v]); [|apply w2; [exact Hg|exact Lq]|rewrite D2; apply w4; assumption|rewrite D2; cbn; ring].
  rewrite Vx by assumption. unfold y1, transpose. cbn [val map seq length pos Nat.eqb nth]. unfold at4. rewrite (Rmul_comm RT). reflexivity.
Qed.
End ConvP.

(** Numbers of windows. *)
Lemma ceil_lt a s i : 0 < s -> i < ceil_div a s <-> i * s < a.
Proof.
  intros Hs. unfold ceil_div. split; intros H.
  - assert (H1 : S i * s <= a + s - 1) by (pose proof (Nat.mul_div_le (a + s - 1) s ltac:(lia)); nia). lia.
  - apply Nat.div_le_lower_bound; lia.
Qed.
Lemma out_len_windows p h k s : 0 < s -> windows p h k s (out_len p h k s).
Proof. intros Hs. destruct p; unfold windows, out_len; intros i; rewrite (ceil_lt _ s i Hs); lia. Qed.
Lemma windows_unique p h k s o o' : windows p h k s o -> windows p h k s o' -> o = o'.
Proof.
  intros H H'. destruct (Nat.lt_trichotomy o o') as [L|[E|L]]; [|exact E|]; exfalso.
  - assert (X : o < o) by (destruct p; apply H, H', L). lia.
  - assert (X : o' < o') by (destruct p; apply H', H, L). lia.
Qed.
