(** Properties of pooling: C96, C97. *)
From Coq Require Import List Arith Bool Lia Ring Ring_theory ZArith.
From Verif Require Import ConvModel ConvSpec ConvProofs ConvGrad ConvBack ConvProps PoolModel PoolSpec PoolProofs.
Import ListNotations.

Section Props.
Context {A : Type} (zero one : A) (add mul sub : A -> A -> A) (opp : A -> A) (RT : ring_theory zero one add mul sub opp eq).
Add Ring Aring5 : RT.
Notation sum := (ConvModel.sum zero add).
Notation sigma := (ConvSpec.sigma zero add).
Let sum_sigma := sum_sigma zero one add mul sub opp RT.
Lemma sums2_sigma a b F : sum a (fun u => sum b (fun v => F u v)) = sigma a (fun u => sigma b (fun v => F u v)).
Proof. rewrite <- sum_sigma. apply sum_ext. intros u _. apply sum_sigma. Qed.

(** The layers' view of the image. *)
Lemma view_ok (first : bool) (x : ten A) n c h w : dims x = shape first n c h w ->
  let xi := if first then x else transpose [0; 3; 1; 2] x in dims xi = [n; c; h; w] /\ forall b ch y z, at4 xi b ch y z = nchw first x b ch y z.
Proof. intros D xi. unfold xi, shape, nchw in *. destruct first; [split; [exact D|reflexivity]|]. split; [unfold transpose; cbn [dims]; rewrite D; reflexivity|reflexivity]. Qed.
Lemma avg_call_ok L sc x n c h w k0 k1 s0 s1 : size0 L = k0 -> size1 L = k1 -> step0 L = s0 -> step1 L = s1 -> dims x = shape (pfirst L) n c h w -> 0 < k0 -> 0 < k1 ->
  let ho := out_len (ppad L) h k0 s0 in let wo := out_len (ppad L) w k1 s1 in
  exists o, avg_call zero add mul L sc x = Ok o /\ dims o = shape (pfirst L) n c ho wo /\ forall b ch i j, b < n -> ch < c -> i < ho -> j < wo ->
    nchw (pfirst L) o b ch i j = mul (sum k0 (fun u => sum k1 (fun v => pixel zero (nchw (pfirst L) x) (ppad L) h w k0 k1 s0 s1 b ch (i * s0 + u) (j * s1 + v)))) sc.
Proof.
  intros L0 L1 L2 L3 D H0 H1 ho wo. unfold avg_call. rewrite L0, L1, L2, L3. destruct (view_ok (pfirst L) x n c h w D) as (Di & Vi). cbv zeta in Di, Vi. set (xi := if pfirst L then x else _) in *.
  destruct (avgpool_ok zero one add mul sub opp RT n c h w k0 k1 s0 s1 (ppad L) H0 H1 sc xi Di) as (o & E & Do & Vo). fold ho wo in Do, Vo. rewrite E. eexists. split; [reflexivity|].
  split; [unfold shape; destruct (pfirst L); [exact Do|unfold transpose; cbn [dims]; rewrite Do; reflexivity]|]. intros b ch i j Hb Hc Hi Hj. transitivity (at4 o b ch i j); [unfold nchw; destruct (pfirst L); reflexivity|].
  rewrite (Vo b ch i j Hb Hc Hi Hj). f_equal. apply sum_ext. intros u _. apply sum_ext. intros v _. apply pixel_eq. intros. apply Vi.
Qed.

(** C96: average pooling multiplies the sum of each window of the image, extended by zeros as TensorFlow does, by the scalar. *)
Theorem C96_average L sc x n c h w : dims x = shape (pfirst L) n c h w -> 0 < size0 L -> 0 < size1 L -> 0 < step0 L -> 0 < step1 L ->
  (ppad L = VALID -> size0 L <= h /\ size1 L <= w) ->
  exists o ho wo top left, avg_call zero add mul L sc x = Ok o /\ dims o = shape (pfirst L) n c ho wo /\
    windows (ppad L) h (size0 L) (step0 L) ho /\ windows (ppad L) w (size1 L) (step1 L) wo /\
    placed (ppad L) h (size0 L) (step0 L) ho top /\ placed (ppad L) w (size1 L) (step1 L) wo left /\
    forall b ch i j, b < n -> ch < c -> i < ho -> j < wo -> nchw (pfirst L) o b ch i j =
      mul (sigma (size0 L) (fun u => sigma (size1 L) (fun v => in_window zero (nchw (pfirst L) x) h w top left (step0 L) (step1 L) b ch i j u v))) sc.
Proof.
  intros D H0 H1 H2 H3 _. destruct (avg_call_ok L sc x n c h w _ _ _ _ eq_refl eq_refl eq_refl eq_refl D H0 H1) as (o & E & Do & Vo). cbv zeta in Do, Vo.
  exists o, (out_len (ppad L) h (size0 L) (step0 L)), (out_len (ppad L) w (size1 L) (step1 L)), (tf_before (ppad L) h (size0 L) (step0 L)), (tf_before (ppad L) w (size1 L) (step1 L)).
  split; [exact E|]. split; [exact Do|]. split; [apply out_len_windows, H2|]. split; [apply out_len_windows, H3|]. split; [destruct (ppad L); reflexivity|]. split; [destruct (ppad L); reflexivity|].
  intros b ch i j Hb Hc Hi Hj. rewrite (Vo b ch i j Hb Hc Hi Hj), sums2_sigma. reflexivity.
Qed.
(** Max pooling returns the greatest entry of each window of the image extended by zeros. *)
Theorem C96_max (le : A -> A -> Prop) arg L x n c h w : finds_greatest le arg -> dims x = shape (pfirst L) n c h w -> 0 < size0 L -> 0 < size1 L -> 0 < step0 L -> 0 < step1 L ->
  (ppad L = VALID -> size0 L <= h /\ size1 L <= w) ->
  exists o hot ho wo top left, max_call zero one L arg x = Ok (o, hot) /\ dims o = shape (pfirst L) n c ho wo /\
    windows (ppad L) h (size0 L) (step0 L) ho /\ windows (ppad L) w (size1 L) (step1 L) wo /\
    placed (ppad L) h (size0 L) (step0 L) ho top /\ placed (ppad L) w (size1 L) (step1 L) wo left /\
    forall b ch i j, b < n -> ch < c -> i < ho -> j < wo ->
      let win := in_window zero (nchw (pfirst L) x) h w top left (step0 L) (step1 L) b ch i j in
      (exists u v, u < size0 L /\ v < size1 L /\ nchw (pfirst L) o b ch i j = win u v) /\
      forall u v, u < size0 L -> v < size1 L -> le (win u v) (nchw (pfirst L) o b ch i j).
Proof.
  intros G D H0 H1 H2 H3 _. unfold max_call. destruct (view_ok (pfirst L) x n c h w D) as (Di & Vi). cbv zeta in Di, Vi. set (xi := if pfirst L then x else _) in *.
  destruct (maxpool_ok zero one n c h w _ _ (step0 L) (step1 L) (ppad L) H0 H1 arg xi Di (fun m f Hm => proj1 (G m f Hm))) as (o & hot & pl & E & Do & Dh & V). rewrite E.
  exists (if pfirst L then o else transpose [0; 2; 3; 1] o), (if pfirst L then hot else transpose [0; 2; 3; 1; 4] hot), (out_len (ppad L) h (size0 L) (step0 L)), (out_len (ppad L) w (size1 L) (step1 L)), (tf_before (ppad L) h (size0 L) (step0 L)), (tf_before (ppad L) w (size1 L) (step1 L)).
  split; [destruct (pfirst L); reflexivity|]. split; [unfold shape; destruct (pfirst L); [exact Do|unfold transpose; cbn [dims]; rewrite Do; reflexivity]|]. split; [apply out_len_windows, H2|]. split; [apply out_len_windows, H3|]. split; [destruct (ppad L); reflexivity|]. split; [destruct (ppad L); reflexivity|].
  intros b ch i j Hb Hc Hi Hj. set (win := in_window zero (nchw (pfirst L) x) h w _ _ (step0 L) (step1 L) b ch i j). destruct (V b ch i j Hb Hc Hi Hj) as ((f & Ff & Pf) & Vo & _). pose proof (Nat.mul_pos_pos _ _ H0 H1) as HK. destruct (G (size0 L * size1 L) f HK) as (G1 & G2). rewrite <- Pf in G1, G2.
  set (q := pl b ch i j) in *. assert (W : forall q, q < size0 L * size1 L -> f q = win (q / size1 L) (q mod size1 L)). { intros q' Hq. rewrite (Ff q' Hq). apply pixel_eq. intros. apply Vi. }
  assert (EO : nchw (pfirst L) (if pfirst L then o else transpose [0; 2; 3; 1] o) b ch i j = f q). { rewrite (Ff q G1). rewrite <- Vo. unfold nchw. destruct (pfirst L); reflexivity. }
  rewrite EO. split.
  - exists (q / size1 L), (q mod size1 L). split; [apply Nat.div_lt_upper_bound; lia|]. split; [apply Nat.mod_upper_bound; lia|]. apply W, G1.
  - intros u v Hu Hv. pose proof (G2 (u * size1 L + v) (two_lt _ _ _ _ Hu Hv)) as Q. rewrite (W (u * size1 L + v) (two_lt _ _ _ _ Hu Hv)), two_div, two_mod in Q by exact Hv. exact Q.
Qed.

(** C97: what [backward] of AveragePooling2D returns is the gradient of the output. *)
Theorem C97_average L sc x dy n c h w s ho wo : step0 L = s -> step1 L = s -> 0 < s -> 0 < n -> 0 < c -> 0 < size0 L -> 0 < size1 L -> 0 < ho -> 0 < wo ->
  windows (ppad L) h (size0 L) s ho -> windows (ppad L) w (size1 L) s wo -> covered (ppad L) h (size0 L) s ho -> covered (ppad L) w (size1 L) s wo ->
  dims x = shape (pfirst L) n c h w -> dims dy = shape (pfirst L) n c ho wo ->
  exists o dx, avg_call zero add mul L sc x = Ok o /\ dims o = dims dy /\ avg_backward zero add mul L sc x dy = Ok dx /\ dims dx = dims x /\
  forall x', dims x' = dims x -> exists o', avg_call zero add mul L sc (plus add x x') = Ok o' /\ inner zero add mul dy o' = add (inner zero add mul dy o) (inner zero add mul dx x').
Proof.
  intros S0 S1 Hs Hn Hc H0 H1 Ho Wo W0 W1 C0 C1 Dx Dy. set (k0 := size0 L) in *. set (k1 := size1 L) in *.
  assert (Eo : ho = out_len (ppad L) h k0 s) by (apply (windows_unique (ppad L) h k0 s); [exact W0|apply out_len_windows, Hs]).
  assert (Ew : wo = out_len (ppad L) w k1 s) by (apply (windows_unique (ppad L) w k1 s); [exact W1|apply out_len_windows, Hs]). clear W0 W1. subst ho wo.
  set (ho := out_len (ppad L) h k0 s) in *. set (wo := out_len (ppad L) w k1 s) in *.
  destruct (avg_call_ok L sc x n c h w k0 k1 s s eq_refl eq_refl S0 S1 Dx H0 H1) as (o & E & Do & Vo). cbv zeta in Do, Vo. fold ho wo in Do, Vo.
  destruct (view_ok (pfirst L) dy n c ho wo Dy) as (Di & Vi). cbv zeta in Di, Vi.
  destruct (pool_grad_ok zero one add mul sub opp RT (pfirst L) n c h w k0 k1 s (ppad L) Hn Hc H0 H1 Hs Ho Wo C0 C1 L (fun t => Ten (dims t) (fun idx => mul (val t idx) sc)) x dy
    (fun a ch i j _ => mul (nchw (pfirst L) dy a ch i j) sc) eq_refl eq_refl S0 S1 eq_refl Dx Dy) as (dx & Eb & Dd & Vd).
  { cbv zeta. unfold tile_last. cbn [dims val]. rewrite Di. split; [reflexivity|]. intros a ch i j q _ _ _ _ _. cbn [removelast]. f_equal. apply Vi. }
  exists o, dx. split; [exact E|]. split; [rewrite Do, Dy; reflexivity|]. split; [exact Eb|]. split; [exact Dd|]. intros x' Dx'.
  destruct (avg_call_ok L sc (plus add x x') n c h w k0 k1 s s eq_refl eq_refl S0 S1 Dx H0 H1) as (o' & E' & Do' & Vo'). cbv zeta in Do', Vo'. fold ho wo in Do', Vo'. exists o'. split; [exact E'|].
  rewrite !(inner_image zero one add mul sub opp RT (pfirst L) n c ho wo dy _ Dy). rewrite (inner_image zero one add mul sub opp RT (pfirst L) n c h w dx x' (eq_trans Dd Dx)). rewrite Vd. fold ho wo.
  rewrite (dot_ext zero add mul n c ho wo (nchw (pfirst L) dy) (nchw (pfirst L) o') _ Vo'), (dot_ext zero add mul n c ho wo (nchw (pfirst L) dy) (nchw (pfirst L) o) _ Vo). unfold dot.
  rewrite <- (sum_add zero one add mul sub opp RT). apply sum_ext. intros a _. rewrite <- (sum_add zero one add mul sub opp RT). apply sum_ext. intros ch _. rewrite <- (sum_add zero one add mul sub opp RT). apply sum_ext. intros i _. rewrite <- (sum_add zero one add mul sub opp RT). apply sum_ext. intros j _.
  rewrite (sum_ext zero add k0 (fun u => sum k1 (fun v => pixel zero (nchw (pfirst L) (plus add x x')) (ppad L) h w k0 k1 s s a ch (i * s + u) (j * s + v)))
    (fun u => add (sum k1 (fun v => pixel zero (nchw (pfirst L) x) (ppad L) h w k0 k1 s s a ch (i * s + u) (j * s + v))) (sum k1 (fun v => pixel zero (nchw (pfirst L) x') (ppad L) h w k0 k1 s s a ch (i * s + u) (j * s + v))))).
  2:{ intros u _. rewrite <- (sum_add zero one add mul sub opp RT). apply sum_ext. intros v _. rewrite <- (pixel_add zero one add mul sub opp RT). apply pixel_eq. intros. unfold nchw, plus, at4. cbn [val]. destruct (pfirst L); reflexivity. }
  rewrite (sum_add zero one add mul sub opp RT).
  rewrite (sum_ext zero add k0 (fun u => sum k1 (fun v => mul (mul (nchw (pfirst L) dy a ch i j) sc) (pixel zero (nchw (pfirst L) x') (ppad L) h w k0 k1 s s a ch (i * s + u) (j * s + v))))
    (fun u => mul (mul (nchw (pfirst L) dy a ch i j) sc) (sum k1 (fun v => pixel zero (nchw (pfirst L) x') (ppad L) h w k0 k1 s s a ch (i * s + u) (j * s + v))))) by (intros u _; apply (sum_mul zero one add mul sub opp RT)).
  rewrite (sum_mul zero one add mul sub opp RT). ring.
Qed.
(** What [backward] of MaxPooling2D returns passes each entry of [dy] to the place of the maximum of its window. *)
Theorem C97_max (le : A -> A -> Prop) arg L x dy n c h w s ho wo : finds_greatest le arg -> step0 L = s -> step1 L = s -> 0 < s -> 0 < n -> 0 < c -> 0 < size0 L -> 0 < size1 L -> 0 < ho -> 0 < wo ->
  windows (ppad L) h (size0 L) s ho -> windows (ppad L) w (size1 L) s wo -> covered (ppad L) h (size0 L) s ho -> covered (ppad L) w (size1 L) s wo ->
  dims x = shape (pfirst L) n c h w -> dims dy = shape (pfirst L) n c ho wo ->
  exists o hot dx top left (row col : nat -> nat -> nat -> nat -> nat), placed (ppad L) h (size0 L) s ho top /\ placed (ppad L) w (size1 L) s wo left /\
    max_call zero one L arg x = Ok (o, hot) /\ dims o = dims dy /\ max_backward zero add mul L hot x dy = Ok dx /\ dims dx = dims x /\
    (forall b ch i j, b < n -> ch < c -> i < ho -> j < wo -> row b ch i j < size0 L /\ col b ch i j < size1 L /\
      nchw (pfirst L) o b ch i j = in_window zero (nchw (pfirst L) x) h w top left s s b ch i j (row b ch i j) (col b ch i j)) /\
    forall x', inner zero add mul dx x' = sigma n (fun b => sigma c (fun ch => sigma ho (fun i => sigma wo (fun j =>
      mul (nchw (pfirst L) dy b ch i j) (in_window zero (nchw (pfirst L) x') h w top left s s b ch i j (row b ch i j) (col b ch i j)))))).
Proof.
  intros G S0 S1 Hs Hn Hc H0 H1 Ho Wo W0 W1 C0 C1 Dx Dy. set (k0 := size0 L) in *. set (k1 := size1 L) in *.
  assert (Eo : ho = out_len (ppad L) h k0 s) by (apply (windows_unique (ppad L) h k0 s); [exact W0|apply out_len_windows, Hs]).
  assert (Ew : wo = out_len (ppad L) w k1 s) by (apply (windows_unique (ppad L) w k1 s); [exact W1|apply out_len_windows, Hs]). clear W0 W1. subst ho wo.
  set (ho := out_len (ppad L) h k0 s) in *. set (wo := out_len (ppad L) w k1 s) in *.
  destruct (view_ok (pfirst L) x n c h w Dx) as (Di & Vi). cbv zeta in Di, Vi. destruct (view_ok (pfirst L) dy n c ho wo Dy) as (Dyi & Vyi). cbv zeta in Dyi, Vyi.
  unfold max_call. fold k0 k1. rewrite S0, S1. set (xi := if pfirst L then x else _) in *.
  destruct (maxpool_ok zero one n c h w k0 k1 s s (ppad L) H0 H1 arg xi Di (fun m f Hm => proj1 (G m f Hm))) as (o & hot & pl & E & Do & Dh & V). rewrite E. fold ho wo in Do, Dh, V.
  set (hotl := if pfirst L then hot else transpose [0; 2; 3; 1; 4] hot).
  assert (Vh : forall a ch i j q, a < n -> ch < c -> i < ho -> j < wo -> q < k0 * k1 -> val (if pfirst L then hotl else transpose [0; 3; 1; 2; 4] hotl) [a; ch; i; j; q] = if Nat.eqb q (pl a ch i j) then one else zero).
  { intros a ch i j q Ha Hch Hi Hj Hq. destruct (V a ch i j Ha Hch Hi Hj) as (_ & _ & Vq). rewrite <- (Vq q Hq). unfold hotl. destruct (pfirst L); reflexivity. }
  destruct (pool_grad_ok zero one add mul sub opp RT (pfirst L) n c h w k0 k1 s (ppad L) Hn Hc H0 H1 Hs Ho Wo C0 C1 L
    (fun t => Ten (dims t) (fun idx => mul (val t idx) (val (if pfirst L then hotl else transpose [0; 3; 1; 2; 4] hotl) idx))) x dy
    (fun a ch i j q => mul (nchw (pfirst L) dy a ch i j) (if Nat.eqb q (pl a ch i j) then one else zero)) eq_refl eq_refl S0 S1 eq_refl Dx Dy) as (dx & Eb & Dd & Vd).
  { cbv zeta. unfold tile_last. cbn [dims val]. rewrite Dyi. split; [reflexivity|]. intros a ch i j q Ha Hch Hi Hj Hq. cbn [removelast]. rewrite (Vh a ch i j q Ha Hch Hi Hj Hq). f_equal. apply Vyi. }
  assert (P : forall a ch i j, a < n -> ch < c -> i < ho -> j < wo -> pl a ch i j < k0 * k1). { intros a ch i j Ha Hch Hi Hj. destruct (V a ch i j Ha Hch Hi Hj) as ((f & _ & Pf) & _). rewrite Pf. apply G, Nat.mul_pos_pos; assumption. }
  exists (if pfirst L then o else transpose [0; 2; 3; 1] o), hotl, dx, (tf_before (ppad L) h k0 s), (tf_before (ppad L) w k1 s), (fun a ch i j => pl a ch i j / k1), (fun a ch i j => pl a ch i j mod k1).
  split; [destruct (ppad L); reflexivity|]. split; [destruct (ppad L); reflexivity|]. split; [unfold hotl; destruct (pfirst L); reflexivity|].
  split; [rewrite Dy; unfold shape; destruct (pfirst L); [exact Do|unfold transpose; cbn [dims]; rewrite Do; reflexivity]|]. split; [exact Eb|]. split; [exact Dd|]. split.
  - intros b ch i j Hb Hch Hi Hj. pose proof (P b ch i j Hb Hch Hi Hj) as Q. split; [apply Nat.div_lt_upper_bound; lia|]. split; [apply Nat.mod_upper_bound; lia|].
    destruct (V b ch i j Hb Hch Hi Hj) as (_ & Vo & _). transitivity (at4 o b ch i j); [unfold nchw; destruct (pfirst L); reflexivity|]. rewrite Vo. apply pixel_eq. intros. apply Vi.
  - intros x'. rewrite (inner_image zero one add mul sub opp RT (pfirst L) n c h w dx x' (eq_trans Dd Dx)), Vd. fold ho wo. rewrite <- sum_sigma. apply sum_ext. intros a Ha. rewrite <- sum_sigma. apply sum_ext. intros ch Hch. rewrite <- sums2_sigma. apply sum_ext. intros i Hi. apply sum_ext. intros j Hj.
    pose proof (P a ch i j Ha Hch Hi Hj) as Q. set (q := pl a ch i j) in *.
    transitivity (sum (k0 * k1) (fun r => if Nat.eqb r q then mul (nchw (pfirst L) dy a ch i j) (pixel zero (nchw (pfirst L) x') (ppad L) h w k0 k1 s s a ch (i * s + r / k1) (j * s + r mod k1)) else zero)).
    + rewrite (sum_prod zero one add mul sub opp RT). apply sum_ext. intros u _. apply sum_ext. intros v Hv. rewrite two_div, two_mod by exact Hv. destruct (Nat.eqb (u * k1 + v) q); ring.
    + rewrite (sum_pick zero one add mul sub opp RT). destruct (Nat.ltb_spec q (k0 * k1)); [reflexivity|lia].
Qed.

(** Where the windows leave rows or columns of the image uncovered, backward raises. *)
Theorem C97_uncovered_refuted L sc x dy n c h w s ho wo : step0 L = s -> step1 L = s -> 0 < s -> 0 < n -> 0 < c -> 0 < size0 L -> 0 < size1 L -> 0 < ho -> 0 < wo ->
  windows (ppad L) h (size0 L) s ho -> windows (ppad L) w (size1 L) s wo ->
  (ho - 1) * s + size0 L < h \/ (wo - 1) * s + size1 L < w ->
  dims x = shape (pfirst L) n c h w -> dims dy = shape (pfirst L) n c ho wo ->
  (exists o, avg_call zero add mul L sc x = Ok o /\ dims o = dims dy) /\ avg_backward zero add mul L sc x dy = Err TypeError.
Proof.
  intros S0 S1 Hs Hn Hc H0 H1 Ho Wo W0 W1 U Dx Dy. set (k0 := size0 L) in *. set (k1 := size1 L) in *. split.
  - assert (Eo : ho = out_len (ppad L) h k0 s) by (apply (windows_unique (ppad L) h k0 s); [exact W0|apply out_len_windows, Hs]).
    assert (Ew : wo = out_len (ppad L) w k1 s) by (apply (windows_unique (ppad L) w k1 s); [exact W1|apply out_len_windows, Hs]).
    destruct (avg_call_ok L sc x n c h w k0 k1 s s eq_refl eq_refl S0 S1 Dx H0 H1) as (o & E & Do & _). exists o. split; [exact E|]. rewrite Do, Dy, Eo, Ew. reflexivity.
  - unfold avg_backward, pool_grad. fold k0 k1. rewrite S0, S1. destruct (view_ok (pfirst L) dy n c ho wo Dy) as (Dyi & _). cbv zeta in Dyi. rewrite Dyi.
    assert (EX : nth (if pfirst L then 2 else 1) (dims x) 0 = h) by (rewrite Dx; unfold shape; destruct (pfirst L); reflexivity). assert (EW : nth (if pfirst L then 3 else 2) (dims x) 0 = w) by (rewrite Dx; unfold shape; destruct (pfirst L); reflexivity). rewrite EX, EW.
    set (t := Ten _ _). destruct (reshape_ok [n * c; ho; wo; k0 * k1] t) as (t4 & E4 & D4 & _); [unfold t, tile_last; cbn [dims]; rewrite Dyi; cbn; ring|]. rewrite E4.
    assert (HK : 0 < k0 * k1) by (apply Nat.mul_pos_pos; assumption). assert (HN : 0 < n * c) by (apply Nat.mul_pos_pos; assumption). unfold patches2im. rewrite D4, Nat.div_same, Nat.mod_same by lia. cbn [Nat.eqb].
    assert (Q : psize [n * c; ho; wo; k0 * k1] / (n * c * k0 * k1 * 1) = ho * wo).
    { cbn [psize fold_right]. replace (n * c * (ho * (wo * (k0 * k1 * 1)))) with (ho * wo * (n * c * k0 * k1 * 1)) by ring. apply Nat.div_mul. intros Z. apply Nat.eq_mul_0 in Z. destruct Z as [Z|Z]; [|discriminate]. rewrite <- Nat.mul_assoc in Z. apply Nat.eq_mul_0 in Z. lia. }
    rewrite Q. destruct (reshape_ok [n * c; ho * wo; k0; k1; 1] t4) as (t5 & E5 & _ & _); [rewrite D4; cbn; ring|]. rewrite E5.
    destruct (Nat.ltb_spec ((ho - 1) * s + k0) h); [reflexivity|]. destruct (Nat.ltb_spec ((wo - 1) * s + k1) w); [reflexivity|]. lia.
Qed.

(** GlobalAveragePooling2D: the average of each channel, and its gradient. *)
Theorem C97_global_average first keep sc x dy n c h w : 0 < n -> 0 < c -> 0 < h -> 0 < w -> first = true \/ keep = false ->
  dims x = shape first n c h w -> dims dy = flat_shape keep n c ->
  exists o, gap_call zero add mul first keep sc x = Ok o /\ dims o = flat_shape keep n c /\
    (forall b ch, b < n -> ch < c -> flat keep o b ch = mul (sigma h (fun i => sigma w (fun j => nchw first x b ch i j))) sc) /\
    let dx := gap_backward mul first keep sc x dy in dims dx = dims x /\
    forall x', dims x' = dims x -> exists o', gap_call zero add mul first keep sc (plus add x x') = Ok o' /\
      flat_inner zero add mul keep n c dy o' = add (flat_inner zero add mul keep n c dy o) (inner zero add mul dx x').
Proof.
  intros Hn Hc Hh Hw HF Dx Dy.
  assert (Call : forall x1, dims x1 = dims x -> exists o, gap_call zero add mul first keep sc x1 = Ok o /\ dims o = flat_shape keep n c /\
    (forall b ch, b < n -> ch < c -> flat keep o b ch = mul (sum h (fun i => sum w (fun j => nchw first x1 b ch i j))) sc)).
  { intros x1 D1. rewrite Dx in D1. unfold gap_call, shape in *. set (red := if first then Ten [n; c] (fun idx => match idx with [b; ch] => sum h (fun i => sum w (fun j => val x1 [b; ch; i; j])) | _ => zero end)
      else Ten [n; c] (fun idx => match idx with [b; ch] => sum h (fun i => sum w (fun j => val x1 [b; i; j; ch])) | _ => zero end)).
    assert (R : gap_call zero add mul first keep sc x1 = reshape (flat_shape keep n c) (Ten (dims red) (fun idx => mul (val red idx) sc))).
    { unfold gap_call, red, flat_shape. destruct HF as [->| ->]; [|destruct first]; rewrite D1; reflexivity. }
    unfold gap_call in R. rewrite R. assert (Dr : dims red = [n; c]) by (unfold red; destruct first; reflexivity). rewrite Dr.
    destruct (reshape_ok (flat_shape keep n c) (Ten [n; c] (fun idx => mul (val red idx) sc))) as (o & E & Do & V); [unfold flat_shape; destruct keep; cbn; ring|]. exists o. split; [exact E|]. split; [exact Do|].
    intros b ch Hb Hch. transitivity (mul (val red [b; ch]) sc); [|unfold red, nchw, at4; destruct first; reflexivity]. unfold flat, flat_shape in *. destruct keep; apply (V _ [b; ch]); try (apply w2; assumption); try (apply w4; lia); cbn; ring. }
  destruct (Call x eq_refl) as (o & E & Do & Vo). exists o. split; [exact E|]. split; [exact Do|]. split; [intros b ch Hb Hch; rewrite (Vo b ch Hb Hch), sums2_sigma; reflexivity|]. cbv zeta.
  set (dx := gap_backward mul first keep sc x dy).
  assert (EX : nth (if first then 2 else 1) (dims x) 0 = h) by (rewrite Dx; unfold shape; destruct first; reflexivity). assert (EW : nth (if first then 3 else 2) (dims x) 0 = w) by (rewrite Dx; unfold shape; destruct first; reflexivity).
  assert (Dd : dims dx = shape first n c h w).
  { unfold dx, gap_backward. rewrite EX, EW. unfold tile4, transpose, shape, flat_shape in *. destruct HF as [->| ->]; [destruct keep|destruct first]; cbn [dims]; rewrite Dy; cbn; rewrite ?Nat.mul_1_r, ?Nat.add_0_r; reflexivity. }
  assert (Vd : forall b ch i j, b < n -> ch < c -> i < h -> j < w -> nchw first dx b ch i j = mul (flat keep dy b ch) sc).
  { intros b ch i j Hb Hch Hi Hj. unfold dx, gap_backward. rewrite EX, EW. unfold nchw, at4, tile4, transpose, flat, flat_shape in *.
    destruct HF as [->| ->]; [destruct keep|destruct first]; cbn [dims val]; rewrite Dy; cbn [app combine map seq length pos Nat.eqb nth firstn val]; rewrite (Nat.mod_small b n Hb), (Nat.mod_small ch c Hch), ?Nat.mod_1_r; reflexivity. }
  split; [rewrite Dx; exact Dd|]. intros x' Dx'. destruct (Call (plus add x x') eq_refl) as (o' & E' & Do' & Vo'). exists o'. split; [exact E'|].
  rewrite (inner_image zero one add mul sub opp RT first n c h w dx x' Dd), (dot_extl zero add mul n c h w (nchw first dx) _ (nchw first x') Vd). unfold flat_inner, dot. rewrite <- !sums2_sigma, <- (sum_add zero one add mul sub opp RT). apply sum_ext. intros b Hb. rewrite <- (sum_add zero one add mul sub opp RT). apply sum_ext. intros ch Hch.
  rewrite (Vo b ch Hb Hch), (Vo' b ch Hb Hch).
  rewrite (sum_ext zero add h (fun i => sum w (fun j => nchw first (plus add x x') b ch i j)) (fun i => add (sum w (fun j => nchw first x b ch i j)) (sum w (fun j => nchw first x' b ch i j)))) by (intros i _; rewrite <- (sum_add zero one add mul sub opp RT); apply sum_ext; intros j _; unfold nchw, plus, at4; cbn [val]; destruct first; reflexivity).
  rewrite (sum_add zero one add mul sub opp RT). rewrite (sum_ext zero add h (fun i => sum w (fun j => mul (mul (flat keep dy b ch) sc) (nchw first x' b ch i j))) (fun i => mul (mul (flat keep dy b ch) sc) (sum w (fun j => nchw first x' b ch i j)))) by (intros i _; apply (sum_mul zero one add mul sub opp RT)).
  rewrite (sum_mul zero one add mul sub opp RT). ring.
Qed.

(** GlobalMaxPooling2D: the greatest entry of each channel, and its gradient. *)
Theorem C97_global_max (le : A -> A -> Prop) arg first x dy n c h w : finds_greatest le arg -> 0 < h -> 0 < w -> dims x = shape first n c h w -> dims dy = [n; c] ->
  exists o hot dx (row col : nat -> nat -> nat), gmp_call zero one first arg x = Ok (o, hot) /\ dims o = [n; c] /\ gmp_backward mul first hot x dy = Ok dx /\ dims dx = dims x /\
    (forall b ch, b < n -> ch < c -> row b ch < h /\ col b ch < w /\ val o [b; ch] = nchw first x b ch (row b ch) (col b ch) /\
      forall i j, i < h -> j < w -> le (nchw first x b ch i j) (val o [b; ch])) /\
    forall x', inner zero add mul dx x' = sigma n (fun b => sigma c (fun ch => mul (val dy [b; ch]) (nchw first x' b ch (row b ch) (col b ch)))).
Proof.
  intros G Hh Hw Dx Dy. unfold gmp_call. destruct (view_ok first x n c h w Dx) as (Di & Vi). cbv zeta in Di, Vi. set (xi := if first then x else _) in *. rewrite Di.
  destruct (reshape_ok [n; c; h * w] xi) as (t & Et & Dt & Vt); [rewrite Di; cbn; ring|]. rewrite Et. set (best := fun a ch => arg (h * w) (fun q => val t [a; ch; q])).
  assert (HP : 0 < h * w) by (apply Nat.mul_pos_pos; assumption).
  assert (VT : forall b ch q, b < n -> ch < c -> q < h * w -> val t [b; ch; q] = nchw first x b ch (q / w) (q mod w)).
  { intros b ch q Hb Hch Hq. rewrite <- Vi. apply Vt; [apply w3; assumption|rewrite Di; apply w4; [assumption|assumption|apply Nat.div_lt_upper_bound; lia|apply Nat.mod_upper_bound; lia]|rewrite Di; cbn].
    pose proof (Nat.div_mod q w ltac:(lia)) as E. rewrite !Nat.mul_1_r, !Nat.add_0_r. rewrite (Nat.mul_comm (q / w) w). lia. }
  unfold gmp_backward. set (hot := Ten [n; c; h * w] _).
  assert (B : exists dx, gmp_backward mul first hot x dy = Ok dx /\ dims dx = shape first n c h w /\ forall b ch i j, b < n -> ch < c -> i < h -> j < w -> nchw first dx b ch i j = mul (val dy [b; ch]) (if Nat.eqb (i * w + j) (best b ch) then one else zero)).
  { assert (R : exists e, reshape [n; c; h; w] (Ten (dims dy ++ [h * w]) (fun idx => mul (val dy (removelast idx)) (val hot idx))) = Ok e /\ dims e = [n; c; h; w] /\ forall b ch i j, b < n -> ch < c -> i < h -> j < w -> at4 e b ch i j = mul (val dy [b; ch]) (if Nat.eqb (i * w + j) (best b ch) then one else zero)).
    { destruct (reshape_ok [n; c; h; w] (Ten (dims dy ++ [h * w]) (fun idx => mul (val dy (removelast idx)) (val hot idx)))) as (e & Ee & De & Ve); [rewrite Dy; cbn; ring|]. exists e. split; [exact Ee|]. split; [exact De|].
      intros b ch i j Hb Hch Hi Hj. unfold at4. rewrite (Ve [b; ch; i; j] [b; ch; i * w + j]); [reflexivity|apply w4; assumption|rewrite Dy; apply w3; [assumption|assumption|apply two_lt; assumption]|rewrite Dy; cbn; ring]. }
    destruct R as (e & Ee & De & Ve). unfold gmp_backward, shape in *. destruct first; rewrite Dx, Ee; eexists; (split; [reflexivity|]); (split; [|intros; apply Ve; assumption]); [exact De|unfold transpose; cbn [dims]; rewrite De; reflexivity]. }
  destruct B as (dx & Eb & Dd & Vd). unfold gmp_backward in Eb.
  exists (Ten [n; c] (fun idx => match idx with [a; ch] => val t [a; ch; best a ch] | _ => zero end)), hot, dx, (fun b ch => best b ch / w), (fun b ch => best b ch mod w).
  split; [reflexivity|]. split; [reflexivity|]. split; [exact Eb|]. split; [rewrite Dx; exact Dd|]. split.
  - intros b ch Hb Hch. destruct (G (h * w) (fun q => val t [b; ch; q]) HP) as (G1 & G2). fold (best b ch) in G1, G2. split; [apply Nat.div_lt_upper_bound; lia|]. split; [apply Nat.mod_upper_bound; lia|]. cbn [val]. split; [apply VT; assumption|].
    intros i j Hi Hj. pose proof (G2 (i * w + j) (two_lt _ _ _ _ Hi Hj)) as Q. cbv beta in Q. rewrite (VT b ch (i * w + j) Hb Hch (two_lt _ _ _ _ Hi Hj)), two_div, two_mod in Q by exact Hj. exact Q.
  - intros x'. rewrite (inner_image zero one add mul sub opp RT first n c h w dx x' Dd), (dot_extl zero add mul n c h w (nchw first dx) _ (nchw first x') Vd). unfold dot. rewrite <- sums2_sigma. apply sum_ext. intros b Hb. apply sum_ext. intros ch Hch.
    assert (G1 : best b ch < h * w) by (apply G, HP).
    transitivity (sum (h * w) (fun q => if Nat.eqb q (best b ch) then mul (val dy [b; ch]) (nchw first x' b ch (q / w) (q mod w)) else zero)).
    + rewrite (sum_prod zero one add mul sub opp RT). apply sum_ext. intros i _. apply sum_ext. intros j Hj. rewrite two_div, two_mod by exact Hj. destruct (Nat.eqb (i * w + j) (best b ch)); ring.
    + rewrite (sum_pick zero one add mul sub opp RT). destruct (Nat.ltb_spec (best b ch) (h * w)); [reflexivity|lia].
Qed.
End Props.
Print Assumptions C96_average.
Print Assumptions C96_max.
Print Assumptions C97_average.
Print Assumptions C97_max.
Print Assumptions C97_uncovered_refuted.
Print Assumptions C97_global_average.
Print Assumptions C97_global_max.

(** Concrete cases over the integers. *)
Fixpoint zarg (n : nat) (f : nat -> Z) : nat :=
  match n with S (S _ as m) => let r := zarg m f in if Z.ltb (f r) (f m) then m else r | _ => 0 end.
Lemma zarg_greatest : finds_greatest Z.le zarg.
Proof.
  intros n f Hn. induction n as [|[|n] IH]; [lia|cbn; split; [lia|intros q Hq; replace q with 0 by lia; apply Z.le_refl]|].
  destruct (IH ltac:(lia)) as (I1 & I2). change (zarg (S (S n)) f) with (if Z.ltb (f (zarg (S n) f)) (f (S n)) then S n else zarg (S n) f).
  destruct (Z.ltb_spec (f (zarg (S n) f)) (f (S n))) as [H|H]; (split; [lia|]); intros q Hq; (destruct (Nat.eq_dec q (S n)) as [->|Nq]; [lia|specialize (I2 q ltac:(lia)); lia]).
Qed.
Definition zavg L x := avg_call 0%Z Z.add Z.mul L 1%Z x.
Definition zmax L x := max_call 0%Z 1%Z L zarg x.
Definition zavg_back L x dy := avg_backward 0%Z Z.add Z.mul L 1%Z x dy.
Definition zmax_back L hot x dy := max_backward 0%Z Z.add Z.mul L hot x dy.
Definition zfst (r : res (ten Z * ten Z)) : res (ten Z) := match r with Ok (o, _) => Ok o | Err e => Err e end.

Definition pool32 : pool := Pool 3 2 2 2 SAME false.
Definition image53 : ten Z := zten [1; 5; 3; 2] [3; 1; 4; 1; 5; 9; 2; 6; 5; 3; 5; 8; 9; 7; 9; 3; 2; 3; 8; 4; 6; 2; 6; 4; 3; 3; 8; 3; 2; 7]%Z.
Definition grad3x2 : ten Z := zten [1; 3; 2; 2] (map Z.of_nat (seq 1 12)).
Example C96_case : finds_greatest Z.le zarg /\ dims image53 = shape (pfirst pool32) 1 2 5 3 /\ windows SAME 5 3 2 3 /\ windows SAME 3 2 2 2 /\ placed SAME 5 3 2 3 1 /\ placed SAME 3 2 2 2 0.
Proof. split; [exact zarg_greatest|]. repeat split; cbn; intros; lia. Qed.
Example C96_average_value : shown (zavg pool32 image53) = Some ([1; 3; 2; 2], [14; 11; 10; 17; 39; 25; 13; 15; 25; 12; 8; 11]%Z).
Proof. vm_compute. reflexivity. Qed.
Example C96_max_value : shown (zfst (zmax pool32 image53)) = Some ([1; 3; 2; 2], [5; 6; 5; 9; 9; 7; 6; 8; 8; 4; 6; 7]%Z).
Proof. vm_compute. reflexivity. Qed.
Example C97_case : covered SAME 5 3 2 3 /\ covered SAME 3 2 2 2 /\ dims grad3x2 = shape false 1 2 3 2 /\ step0 pool32 = 2 /\ step1 pool32 = 2.
Proof. repeat split; cbn; intros; lia. Qed.
Example C97_average_value : match zavg_back pool32 image53 grad3x2, zavg pool32 image53, zavg pool32 (plus Z.add image53 image53) with
  | Ok dx, Ok o, Ok o' => dims dx = [1; 5; 3; 2] /\ (zinner grad3x2 o' = zinner grad3x2 o + zinner dx image53)%Z /\ zinner dx image53 = 1255%Z
  | _, _, _ => False end.
Proof. vm_compute. repeat split. Qed.
Example C97_max_value : match zmax pool32 image53 with
  | Ok (o, hot) => match zmax_back pool32 hot image53 grad3x2 with Ok dx => dims dx = [1; 5; 3; 2] /\ zinner dx image53 = zinner grad3x2 o /\ zinner dx image53 = 523%Z | _ => False end
  | _ => False end.
Proof. vm_compute. repeat split. Qed.
Definition grad12 : ten Z := zten [1; 2] [10; 1]%Z.
Example C97_global_case : dims image53 = shape false 1 2 5 3 /\ dims grad12 = flat_shape false 1 2.
Proof. split; reflexivity. Qed.
Example C97_global_average_value : shown (gap_call 0%Z Z.add Z.mul false false 1%Z image53) = Some ([1; 2], [77; 64]%Z) /\ zinner (gap_backward Z.mul false false 1%Z image53 grad12) image53 = 834%Z.
Proof. vm_compute. split; reflexivity. Qed.
Example C97_global_max_value : match gmp_call 0%Z 1%Z false zarg image53 with
  | Ok (o, hot) => entries o = [9; 9]%Z /\ match gmp_backward Z.mul false hot image53 grad12 with Ok dx => dims dx = dims image53 /\ zinner dx image53 = 99%Z | _ => False end
  | _ => False end.
Proof. vm_compute. repeat split. Qed.

(** With SAME padding, the zeros of the padding take part: the "maximum" of windows of negative entries may be 0. *)
Theorem C96_same_negative_refuted : exists (L : pool) (x o hot : ten Z), ppad L = SAME /\ size0 L = 2 /\ size1 L = 2 /\ step0 L = 2 /\ step1 L = 2 /\ pfirst L = true /\ dims x = [1; 1; 3; 3] /\
  (forall y z, (at4 x 0 0 y z < 0)%Z) /\ zmax L x = Ok (o, hot) /\ dims o = [1; 1; 2; 2] /\ at4 o 0 0 1 1 = 0%Z.
Proof.
  pose (L := Pool 2 2 2 2 SAME true). pose (x := Ten [1; 1; 3; 3] (fun _ => (-5)%Z)).
  assert (Q : match zmax L x with Ok (o, _) => dims o = [1; 1; 2; 2] /\ at4 o 0 0 1 1 = 0%Z | _ => False end) by (clear; vm_compute; split; reflexivity).
  destruct (zmax L x) as [[o hot]|] eqn:E; [|destruct Q]. exists L, x, o, hot. destruct Q as (Q1 & Q2). repeat (split; [first [assumption|reflexivity|intros; cbn; lia]|]). assumption.
Qed.
Print Assumptions C96_same_negative_refuted.
(** The hypotheses of [C97_uncovered_refuted] hold for the default layer on an image of odd size. *)
Example C97_uncovered_case : windows VALID 5 2 2 2 /\ (2 - 1) * 2 + 2 < 5 /\
  shown (zavg (Pool 2 2 2 2 VALID true) (zten [1; 1; 5; 5] (map Z.of_nat (seq 1 25)))) = Some ([1; 1; 2; 2], [16; 24; 56; 64]%Z) /\
  zavg_back (Pool 2 2 2 2 VALID true) (zten [1; 1; 5; 5] (map Z.of_nat (seq 1 25))) (zten [1; 1; 2; 2] [1; 2; 3; 4]%Z) = Err TypeError.
Proof. repeat split; try reflexivity; cbn; intros; lia. Qed.
(** With different strides along rows and columns, backward may return a wrong gradient, without any error. *)
Theorem C97_strides_refuted : exists (L : pool) (x x' dy o o' dx : ten Z), step0 L = 2 /\ step1 L = 1 /\
  dims x' = dims x /\ zavg L x = Ok o /\ dims o = dims dy /\ zavg L (plus Z.add x x') = Ok o' /\
  zavg_back L x dy = Ok dx /\ dims dx = dims x /\ zinner dy o' <> (zinner dy o + zinner dx x')%Z.
Proof.
  pose (L := Pool 2 2 2 1 VALID true). pose (x := zten [1; 1; 2; 3] (repeat 0%Z 6)).
  pose (x' := zten [1; 1; 2; 3] [0; 1]%Z). pose (dy := zten [1; 1; 1; 2] [1; 1]%Z).
  assert (Q : match zavg L x, zavg L (plus Z.add x x'), zavg_back L x dy with
    | Ok o, Ok o', Ok dx => dims o = dims dy /\ dims dx = dims x /\ zinner dy o' <> (zinner dy o + zinner dx x')%Z | _, _, _ => False end).
  { clear. vm_compute. repeat split; discriminate. }
  destruct (zavg L x) as [o|] eqn:E1; [|destruct Q]. destruct (zavg L (plus Z.add x x')) as [o'|] eqn:E2; [|destruct Q].
  destruct (zavg_back L x dy) as [dx|] eqn:E3; [|destruct Q]. exists L, x, x', dy, o, o', dx.
  destruct Q as (Q1 & Q2 & Q3). repeat (split; [first [assumption|reflexivity]|]). assumption.
Qed.
Print Assumptions C97_strides_refuted.
(** GlobalAveragePooling2D with keepdims, channels_last and several channels returns a gradient of another shape than its input. *)
Theorem C97_keepdims_refuted (sc : Z) (x dy : ten Z) n c h w : dims x = shape false n c h w -> dims dy = [n; 1; 1; c] -> 1 < c ->
  (exists o, gap_call 0%Z Z.add Z.mul false true sc x = Ok o /\ dims o = dims dy) /\ dims (gap_backward Z.mul false true sc x dy) <> dims x.
Proof.
  unfold shape. intros Dx Dy Hc. split.
  - unfold gap_call. rewrite Dx. destruct (reshape_ok [n; 1; 1; c] (Ten [n; c] (fun idx => Z.mul (match idx with [b; ch] => ConvModel.sum 0%Z Z.add h (fun i => ConvModel.sum 0%Z Z.add w (fun j => val x [b; i; j; ch])) | _ => 0%Z end) sc))) as (o & E & Do & _); [cbn; lia|]. exists o. split; [exact E|rewrite Dy; exact Do].
  - unfold gap_backward, tile4, transpose. cbn [dims]. rewrite Dx, Dy. cbn. intros E. injection E. intros. lia.
Qed.
Print Assumptions C97_keepdims_refuted.
Example C97_keepdims_case : dims image53 = shape false 1 2 5 3 /\ dims (gap_backward Z.mul false true 1%Z image53 (zten [1; 1; 1; 2] [1; 2]%Z)) = [1; 5; 6; 1].
Proof. split; reflexivity. Qed.
