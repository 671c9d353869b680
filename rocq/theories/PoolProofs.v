(** Proofs about pooling. *)
From Coq Require Import List Arith Bool Lia Ring Ring_theory.
From Verif Require Import ConvModel ConvSpec ConvProofs ConvGrad ConvBack PoolModel.
Import ListNotations.

Lemma w5 a b c d e i j k l m : i < a -> j < b -> k < c -> l < d -> m < e -> within [i; j; k; l; m] [a; b; c; d; e].
Proof. intros. repeat constructor; assumption. Qed.
Lemma w1 a i : i < a -> within [i] [a].
Proof. intros. repeat constructor; assumption. Qed.
Lemma two_lt a b i j : i < a -> j < b -> i * b + j < a * b.
Proof. intros H1 H2. assert (S i * b <= a * b) by (apply Nat.mul_le_mono_r; lia). lia. Qed.
Lemma two_div b i j : j < b -> (i * b + j) / b = i.
Proof. intros H. symmetry. apply (Nat.div_unique _ b i j); lia. Qed.
Lemma two_mod b i j : j < b -> (i * b + j) mod b = j.
Proof. intros H. symmetry. apply (Nat.mod_unique _ b i j); lia. Qed.

Section PoolP.
Context {A : Type} (zero one : A) (add mul sub : A -> A -> A) (opp : A -> A) (RT : ring_theory zero one add mul sub opp eq).
Add Ring Aring4 : RT.
Notation sum := (ConvModel.sum zero add).
Let sum_ext := sum_ext zero add.
Let sum_zero := sum_zero zero one add mul sub opp RT.
Let sum_swap := sum_swap zero one add mul sub opp RT.
Let sum_mul := sum_mul zero one add mul sub opp RT.
Let sum_mulr := sum_mulr zero one add mul sub opp RT.
Let sum_prod := sum_prod zero one add mul sub opp RT.
Let swap21 := swap21 zero one add mul sub opp RT.
Let sum_pick := sum_pick zero one add mul sub opp RT.
Notation pixel := (ConvProofs.pixel zero).
Notation dot := (ConvBack.dot zero add mul).

Lemma pixel_eq img img' p h w k0 k1 s0 s1 b ch b' ch' y z : (forall y z, y < h -> z < w -> img b ch y z = img' b' ch' y z) ->
  pixel img p h w k0 k1 s0 s1 b ch y z = pixel img' p h w k0 k1 s0 s1 b' ch' y z.
Proof.
  intros H. unfold ConvProofs.pixel, extended. destruct (_ && _) eqn:E; [|reflexivity]. apply andb_prop in E. destruct E as (E & E4). apply andb_prop in E. destruct E as (E & E3). apply andb_prop in E. destruct E as (E1 & E2).
  apply Nat.leb_le in E1, E3. apply Nat.ltb_lt in E2, E4. apply H; lia.
Qed.

(** Every channel becomes an image of its own. *)
Lemma split_ok (x : ten A) b c h w : dims x = [b; c; h; w] -> exists xs, reshape [b * c; 1; h; w] x = Ok xs /\ dims xs = [b * c; 1; h; w] /\
  forall a ch y z, a < b -> ch < c -> y < h -> z < w -> at4 xs (a * c + ch) 0 y z = at4 x a ch y z.
Proof.
  intros D. destruct (reshape_ok [b * c; 1; h; w] x) as (xs & E & Dx & V); [rewrite D; cbn; ring|]. exists xs. split; [exact E|]. split; [exact Dx|]. intros a ch y z Ha Hc Hy Hz.
  apply V; [apply w4; [apply two_lt; assumption|lia|assumption|assumption]|rewrite D; apply w4; assumption|]. rewrite D. cbn. ring.
Qed.

Section Window.
Context (b c h w k0 k1 s0 s1 : nat) (p : padding) (Hk0 : 0 < k0) (Hk1 : 0 < k1).
Let ho := out_len p h k0 s0.
Let wo := out_len p w k1 s1.
Lemma avgpool_ok sc (x : ten A) : dims x = [b; c; h; w] -> exists o, avgpool zero add mul sc x k0 k1 s0 s1 p = Ok o /\ dims o = [b; c; ho; wo] /\
  forall a ch i j, a < b -> ch < c -> i < ho -> j < wo -> at4 o a ch i j = mul (sum k0 (fun u => sum k1 (fun v => pixel (at4 x) p h w k0 k1 s0 s1 a ch (i * s0 + u) (j * s1 + v)))) sc.
Proof.
  intros D. unfold avgpool. rewrite D. destruct (split_ok x b c h w D) as (xs & E & Dx & V). rewrite E.
  destruct (im2col_nchw zero xs (b * c) h w 1 k0 k1 s0 s1 p Dx Hk0 Hk1 Nat.lt_0_1) as (y & Ey & Dy & Vy). cbv zeta in *. fold ho wo in Dy, Vy. fold ho wo. rewrite Ey, Dy. cbn [nth].
  set (r := Ten [ho * wo * (b * c)] _). destruct (reshape_ok [ho; wo; b; c] r) as (z & Ez & Dz & Vz); [cbn; ring|]. rewrite Ez. eexists. split; [reflexivity|].
  split; [unfold transpose; cbn [dims]; rewrite Dz; reflexivity|]. intros a ch i j Ha Hc Hi Hj. transitivity (val z [i; j; a; ch]); [reflexivity|].
  rewrite (Vz [i; j; a; ch] [(i * wo + j) * (b * c) + (a * c + ch)]); [|apply w4; assumption|apply w1, two_lt; apply two_lt; assumption|cbn; ring].
  unfold r. cbn [val nth]. rewrite Nat.mul_1_l. rewrite sum_prod. f_equal. apply sum_ext. intros u Hu. apply sum_ext. intros v Hv.
  pose proof (Vy u v 0 i j (a * c + ch) Hu Hv Nat.lt_0_1 Hi Hj (two_lt _ _ _ _ Ha Hc)) as Q. rewrite Nat.mul_0_l, Nat.add_0_l in Q. rewrite Q. apply pixel_eq. intros. apply V; assumption.
Qed.

Lemma im2patches_at (xs : ten A) m q i j : dims xs = [b * c; 1; h; w] -> q < k0 * k1 -> val (im2patches zero xs k0 k1 s0 s1 p) [m; q; i; j] = pixel (at4 xs) p h w k0 k1 s0 s1 m 0 (i * s0 + q / k1) (j * s1 + q mod k1).
Proof.
  intros D Hq. unfold im2patches. set (y := transpose [0; 2; 3; 1] xs). assert (Dy : dims y = [b * c; h; w; 1]) by (unfold y, transpose; cbn [dims]; rewrite D; reflexivity).
  transitivity (val (patches zero y k0 k1 s0 s1 p) [m; i; j; (q / k1 * k1 + q mod k1) * 1 + 0]).
  - unfold transpose at 1. cbn [val map seq length pos Nat.eqb nth]. f_equal. f_equal. f_equal. f_equal. rewrite Nat.mul_1_r, Nat.add_0_r, Nat.mul_comm, <- Nat.div_mod by lia. reflexivity.
  - rewrite (patches_at zero y (b * c) h w 1 k0 k1 s0 s1 p m i j (q / k1) (q mod k1) 0 Dy); [reflexivity|apply Nat.div_lt_upper_bound; lia|apply Nat.mod_upper_bound; lia|lia].
Qed.
Lemma maxpool_ok arg (x : ten A) : dims x = [b; c; h; w] -> (forall n f, 0 < n -> arg n f < n) -> exists o hot (place : nat -> nat -> nat -> nat -> nat), maxpool zero one arg x k0 k1 s0 s1 p = Ok (o, hot) /\ dims o = [b; c; ho; wo] /\ dims hot = [b; c; ho; wo; k0 * k1] /\
  forall a ch i j, a < b -> ch < c -> i < ho -> j < wo ->
    let win := fun q => pixel (at4 x) p h w k0 k1 s0 s1 a ch (i * s0 + q / k1) (j * s1 + q mod k1) in
    (exists f, (forall q, q < k0 * k1 -> f q = win q) /\ place a ch i j = arg (k0 * k1) f) /\ at4 o a ch i j = win (place a ch i j) /\
    forall q, q < k0 * k1 -> val hot [a; ch; i; j; q] = if Nat.eqb q (place a ch i j) then one else zero.
Proof.
  intros D Harg. unfold maxpool. rewrite D. destruct (split_ok x b c h w D) as (xs & E & Dx & V). rewrite E. fold ho wo.
  set (y := im2patches zero xs k0 k1 s0 s1 p). assert (Dy : dims y = [b * c; k0 * k1; ho; wo]).
  { unfold y, im2patches, transpose, patches. cbn [dims map]. rewrite Dx. cbn [dims nth map]. rewrite Nat.mul_1_r. reflexivity. }
  rewrite Dy. cbn [nth]. set (best := fun a i j => arg (k0 * k1) (fun q => val y [a; q; i; j])). set (m := Ten [b * c; ho; wo] _). set (hot := Ten [b * c; k0 * k1; ho; wo] _).
  destruct (reshape_ok [b; c; ho; wo] m) as (o & Eo & Do & Vo); [cbn; ring|]. rewrite Eo.
  destruct (reshape_ok [b; c; ho; wo; k0 * k1] (transpose [0; 2; 3; 1] hot)) as (t & Et & Dt & Vt); [cbn; ring|]. rewrite Et.
  exists o, t, (fun a ch i j => best (a * c + ch) i j). split; [reflexivity|]. split; [exact Do|]. split; [exact Dt|].
  intros a ch i j Ha Hc Hi Hj. set (win := fun q => pixel (at4 x) p h w k0 k1 s0 s1 a ch (i * s0 + q / k1) (j * s1 + q mod k1)).
  assert (Vy : forall q, q < k0 * k1 -> val y [a * c + ch; q; i; j] = win q). { intros q Hq. unfold y. rewrite (im2patches_at xs (a * c + ch) q i j Dx Hq). apply pixel_eq. intros. apply V; assumption. }
  split; [|split].
  - exists (fun q => val y [a * c + ch; q; i; j]). split; [exact Vy|reflexivity].
  - transitivity (val m [a * c + ch; i; j]); [apply Vo; [apply w4; assumption|apply w3; [apply two_lt|..]; assumption|cbn; ring]|]. unfold m. cbn [val]. apply Vy. unfold best. apply Harg. apply Nat.mul_pos_pos; assumption.
  - intros q Hq. transitivity (val (transpose [0; 2; 3; 1] hot) [a * c + ch; i; j; q]); [|reflexivity].
    apply Vt; [apply w5; assumption|apply w4; [apply two_lt|..]; assumption|cbn; ring].
Qed.
End Window.

(** The sum over the places of an extended line. *)
Lemma sum_place h t a g : sum h (fun y => if Nat.eqb (y + t) a then g y else zero) = if (t <=? a) && (a <? t + h) then g (a - t) else zero.
Proof.
  destruct (Nat.leb_spec t a) as [L|L]; cbn [andb].
  - rewrite (sum_ext h _ (fun y => if Nat.eqb y (a - t) then g y else zero)).
    + rewrite sum_pick. destruct (Nat.ltb_spec (a - t) h), (Nat.ltb_spec a (t + h)); try reflexivity; lia.
    + intros y _. destruct (Nat.eqb_spec (y + t) a), (Nat.eqb_spec y (a - t)); try reflexivity; lia.
  - rewrite (sum_ext h _ (fun _ => zero)); [apply sum_zero|]. intros y _. destruct (Nat.eqb_spec (y + t) a); [lia|reflexivity].
Qed.

Section Back.
Context (first : bool) (n c h w k0 k1 s : nat) (p : padding).
Let ho := out_len p h k0 s.
Let wo := out_len p w k1 s.
Context (Hn : 0 < n) (Hc : 0 < c) (Hk0 : 0 < k0) (Hk1 : 0 < k1) (Hs : 0 < s) (Ho : 0 < ho) (Wo : 0 < wo).
Context (C0 : covered p h k0 s ho) (C1 : covered p w k1 s wo).
Let top := tf_before p h k0 s.
Let left := tf_before p w k1 s.
Let H := (ho - 1) * s + k0.
Let W := (wo - 1) * s + k1.

(** What lands at one place of the image. *)
Definition landed (D : nat -> nat -> nat -> A) (Y X : nat) : A :=
  sum ho (fun i => sum wo (fun j => sum k0 (fun u => sum k1 (fun v => if (Nat.eqb Y (i * s + u)) && (Nat.eqb X (j * s + v)) then D i j (u * k1 + v) else zero)))).
Lemma landed_inner D img a ch : sum h (fun y => sum w (fun z => mul (landed D (y + top) (z + left)) (img a ch y z))) =
  sum ho (fun i => sum wo (fun j => sum k0 (fun u => sum k1 (fun v => mul (D i j (u * k1 + v)) (pixel img p h w k0 k1 s s a ch (i * s + u) (j * s + v)))))).
Proof.
  transitivity (sum h (fun y => sum w (fun z => sum ho (fun i => sum wo (fun j => sum k0 (fun u => sum k1 (fun v =>
    if Nat.eqb (y + top) (i * s + u) then if Nat.eqb (z + left) (j * s + v) then mul (D i j (u * k1 + v)) (img a ch y z) else zero else zero))))))).
  { apply sum_ext. intros y _. apply sum_ext. intros z _. unfold landed. do 4 (rewrite <- sum_mulr; apply sum_ext; intros ? _). destruct (Nat.eqb (y + top) _), (Nat.eqb (z + left) _); cbn [andb]; ring. }
  rewrite (swap21 h w ho). apply sum_ext. intros i _. rewrite (swap21 h w wo). apply sum_ext. intros j _. rewrite (swap21 h w k0). apply sum_ext. intros u _. rewrite (swap21 h w k1). apply sum_ext. intros v _.
  transitivity (sum h (fun y => if Nat.eqb (y + top) (i * s + u) then sum w (fun z => if Nat.eqb (z + left) (j * s + v) then mul (D i j (u * k1 + v)) (img a ch y z) else zero) else zero)).
  { apply sum_ext. intros y _. destruct (Nat.eqb (y + top) (i * s + u)); [reflexivity|apply sum_zero]. }
  rewrite (sum_place h top (i * s + u) (fun y => sum w (fun z => if Nat.eqb (z + left) (j * s + v) then mul (D i j (u * k1 + v)) (img a ch y z) else zero))). rewrite sum_place.
  unfold ConvProofs.pixel, extended. fold top left. destruct ((top <=? i * s + u) && (i * s + u <? top + h)); cbn [andb]; [|ring]. destruct ((left <=? j * s + v) && (j * s + v <? left + w)); [reflexivity|ring].
Qed.

Lemma crop_place q k o : 0 < s -> covered p q k s o -> o = out_len p q k s -> q <= (o - 1) * s + k /\ ((o - 1) * s + k - q) / 2 = tf_before p q k s.
Proof.
  clear. intros Hs C E. unfold tf_before. destruct p; cbn [covered] in C.
  - subst o. split; [exact C|reflexivity].
  - rewrite C, Nat.sub_diag. split; [lia|reflexivity].
Qed.
Lemma patches2im_ok (t : ten A) : dims t = [n * c; ho; wo; k0 * k1] -> exists d, patches2im zero add t k0 k1 s s h w = Ok d /\ dims d = [n * c; h; w; 1] /\
  forall m y z, m < n * c -> y < h -> z < w -> at4 d m y z 0 = landed (fun i j q => at4 t m i j q) (y + top) (z + left).
Proof.
  intros D. assert (HK : 0 < k0 * k1) by (apply Nat.mul_pos_pos; assumption). assert (HN : 0 < n * c) by (apply Nat.mul_pos_pos; assumption).
  unfold patches2im. rewrite D. rewrite Nat.div_same, Nat.mod_same by lia. cbn [Nat.eqb].
  assert (Q : psize [n * c; ho; wo; k0 * k1] / (n * c * k0 * k1 * 1) = ho * wo).
  { cbn [psize fold_right]. replace (n * c * (ho * (wo * (k0 * k1 * 1)))) with (ho * wo * (n * c * k0 * k1 * 1)) by ring. apply Nat.div_mul. intros Z. apply Nat.eq_mul_0 in Z. destruct Z as [Z|Z]; [|discriminate]. rewrite <- Nat.mul_assoc in Z. apply Nat.eq_mul_0 in Z. lia. }
  rewrite Q. destruct (reshape_ok [n * c; ho * wo; k0; k1; 1] t) as (t5 & E5 & D5 & V5); [rewrite D; cbn; ring|]. rewrite E5. fold H W.
  destruct (crop_place h k0 ho Hs C0 eq_refl) as (F0 & T0). destruct (crop_place w k1 wo Hs C1 eq_refl) as (F1 & T1). fold H top in F0, T0. fold W left in F1, T1. rewrite T0, T1.
  destruct (Nat.ltb_spec H h) as [B|_]; [lia|]. destruct (Nat.ltb_spec W w) as [B|_]; [lia|].
  assert (L0 : top <= H - h) by (rewrite <- T0; apply Nat.div_le_upper_bound; lia). assert (L1 : left <= W - w) by (rewrite <- T1; apply Nat.div_le_upper_bound; lia).
  set (img := Ten [n * c; H; W; 1] _).
  assert (VI : forall m Y X, m < n * c -> val img [m; Y; X; 0] = landed (fun i j q => at4 t m i j q) Y X).
  { intros m Y X Hm. unfold img. cbn [val]. rewrite sum_prod. unfold landed. apply sum_ext. intros i Hi. apply sum_ext. intros j Hj. unfold transpose. cbn [val map seq length pos Nat.eqb nth].
    apply sum_ext. intros u Hu. apply sum_ext. intros v Hv. rewrite (two_div wo i j Hj), (two_mod wo i j Hj), (Nat.add_comm u), (Nat.add_comm v). destruct (_ && _); [|reflexivity].
    apply V5; [apply w5; [assumption|apply two_lt; assumption|assumption|assumption|lia]|rewrite D; apply w4; [assumption|assumption|assumption|apply two_lt; assumption]|rewrite D; cbn; ring]. }
  set (i1 := if h <? H then crop_axis 1 top (H - h - top) img else img).
  assert (D1 : dims i1 = [n * c; h; W; 1]). { unfold i1. destruct (Nat.ltb_spec h H); [|unfold img; cbn [dims]; f_equal; f_equal; lia]. unfold crop_axis, img. cbn [dims nth set_nth]. f_equal. f_equal. lia. }
  assert (V1 : forall m y X, m < n * c -> y < h -> val i1 [m; y; X; 0] = landed (fun i j q => at4 t m i j q) (y + top) X).
  { intros m y X Hm Hy. rewrite <- VI by assumption. unfold i1. destruct (Nat.ltb_spec h H); [reflexivity|]. assert (Z : top = 0) by lia. rewrite Z, Nat.add_0_r. reflexivity. }
  eexists. split; [reflexivity|]. split.
  - destruct (Nat.ltb_spec w W); [|rewrite D1; f_equal; f_equal; f_equal; lia]. unfold crop_axis. cbn [dims]. rewrite D1. cbn [nth set_nth]. f_equal. f_equal. f_equal. lia.
  - intros m y z Hm Hy Hz. rewrite <- V1 by assumption. destruct (Nat.ltb_spec w W); [reflexivity|]. assert (Z : left = 0) by lia. rewrite Z, Nat.add_0_r. reflexivity.
Qed.

Lemma pool_grad_ok L weigh x dy D : size0 L = k0 -> size1 L = k1 -> step0 L = s -> step1 L = s -> pfirst L = first -> dims x = shape first n c h w -> dims dy = shape first n c ho wo ->
  (let t := weigh (tile_last (k0 * k1) (if first then dy else transpose [0; 3; 1; 2] dy)) in dims t = [n; c; ho; wo; k0 * k1] /\
    forall a ch i j q, a < n -> ch < c -> i < ho -> j < wo -> q < k0 * k1 -> val t [a; ch; i; j; q] = D a ch i j q) ->
  exists dx, pool_grad zero add L weigh x dy = Ok dx /\ dims dx = dims x /\ forall img, dot n c h w (nchw first dx) img =
    sum n (fun a => sum c (fun ch => sum ho (fun i => sum wo (fun j => sum k0 (fun u => sum k1 (fun v => mul (D a ch i j (u * k1 + v)) (pixel img p h w k0 k1 s s a ch (i * s + u) (j * s + v)))))))).
Proof.
  intros L0 L1 L2 L3 L4 Dx Dy (Dt & Vt). unfold pool_grad. rewrite L0, L1, L2, L3, L4. set (dyi := if first then dy else transpose [0; 3; 1; 2] dy) in *.
  assert (Di : dims dyi = [n; c; ho; wo]) by (unfold dyi, shape in *; destruct first; [exact Dy|unfold transpose; cbn [dims]; rewrite Dy; reflexivity]). rewrite Di.
  assert (EX : nth (if first then 2 else 1) (dims x) 0 = h) by (rewrite Dx; unfold shape; destruct first; reflexivity). assert (EW : nth (if first then 3 else 2) (dims x) 0 = w) by (rewrite Dx; unfold shape; destruct first; reflexivity). rewrite EX, EW.
  set (t := weigh _) in *. destruct (reshape_ok [n * c; ho; wo; k0 * k1] t) as (t4 & E4 & D4 & V4); [rewrite Dt; cbn; ring|]. rewrite E4.
  destruct (patches2im_ok t4 D4) as (d & Ed & Dd & Vd). rewrite Ed. destruct (reshape_ok [n; c; h; w] d) as (e & Ee & De & Ve); [rewrite Dd; cbn; ring|]. rewrite Ee.
  eexists. split; [reflexivity|]. split; [rewrite Dx; unfold shape; destruct first; [exact De|unfold transpose; cbn [dims]; rewrite De; reflexivity]|]. intros img.
  apply sum_ext. intros a Ha. apply sum_ext. intros ch Hch. transitivity (sum h (fun y => sum w (fun z => mul (landed (fun i j q => D a ch i j q) (y + top) (z + left)) (img a ch y z)))); [|exact (landed_inner (D a ch) img a ch)].
  apply sum_ext. intros y Hy. apply sum_ext. intros z Hz. f_equal. transitivity (at4 e a ch y z); [unfold nchw; destruct first; reflexivity|].
  transitivity (at4 d (a * c + ch) y z 0); [apply Ve; [apply w4; assumption|rewrite Dd; apply w4; [apply two_lt; assumption|assumption|assumption|lia]|rewrite Dd; cbn; ring]|].
  rewrite Vd by (try apply two_lt; assumption). unfold landed. apply sum_ext. intros i Hi. apply sum_ext. intros j Hj. apply sum_ext. intros u Hu. apply sum_ext. intros v Hv. destruct (_ && _); [|reflexivity].
  rewrite <- (Vt a ch i j (u * k1 + v)) by (try apply two_lt; assumption). apply V4; [apply w4; try apply two_lt; assumption|rewrite Dt; apply w5; try apply two_lt; assumption|rewrite Dt; cbn; ring].
Qed.
End Back.
End PoolP.
