(** Proofs about the gradients of Conv2D. *)
From Coq Require Import List Arith Bool Lia Ring Ring_theory.
From Verif Require Import ConvModel ConvSpec ConvProofs.
Import ListNotations.

(** Paddings. *)
Lemma pad_along_total h k s : 0 < s -> 0 < h -> pad_along h k s = (ceil_div h s - 1) * s + k - h.
Proof.
  intros Hs Hh. unfold pad_along. pose proof (Nat.div_mod h s ltac:(lia)) as E. pose proof (Nat.mod_upper_bound h s ltac:(lia)) as U.
  destruct (Nat.eqb_spec (h mod s) 0) as [Z|Z].
  - assert (C : ceil_div h s = h / s). { unfold ceil_div. symmetry. apply (Nat.div_unique _ s (h / s) (s - 1)); lia. }
    assert (Q : 1 <= h / s) by (apply Nat.div_le_lower_bound; [lia|]; destruct (Nat.lt_ge_cases h s) as [Q|Q]; [rewrite (Nat.mod_small _ _ Q) in Z; lia|lia]).
    assert (s * 1 <= s * (h / s)) by (apply Nat.mul_le_mono_l; exact Q). rewrite C, Nat.mul_sub_distr_r. lia.
  - assert (C : ceil_div h s = h / s + 1). { unfold ceil_div. symmetry. apply (Nat.div_unique _ s (h / s + 1) (h mod s - 1)); lia. }
    rewrite C. replace (h / s + 1 - 1) with (h / s) by lia. lia.
Qed.

Section ConvG.
Context {A : Type} (zero one : A) (add mul sub : A -> A -> A) (opp : A -> A) (RT : ring_theory zero one add mul sub opp eq).
Add Ring Aring2 : RT.
Notation sum := (ConvModel.sum zero add).
Notation sigma := (ConvSpec.sigma zero add).
Let sum_ext := sum_ext zero add.
Let sum_zero := sum_zero zero one add mul sub opp RT.
Let sum_swap := sum_swap zero one add mul sub opp RT.
Let sum_mul := sum_mul zero one add mul sub opp RT.
Let sum_mulr := sum_mulr zero one add mul sub opp RT.
Let sum_app := sum_app zero one add mul sub opp RT.
Let sum_add := sum_add zero one add mul sub opp RT.

Lemma swap21 a b n F : sum a (fun i => sum b (fun j => sum n (fun q => F i j q))) = sum n (fun q => sum a (fun i => sum b (fun j => F i j q))).
Proof. transitivity (sum a (fun i => sum n (fun q => sum b (fun j => F i j q)))); [apply sum_ext; intros i _; apply sum_swap|exact (sum_swap a n (fun i q => sum b (fun j => F i j q)))]. Qed.
Lemma swap31 a b c n F : sum a (fun i => sum b (fun j => sum c (fun k => sum n (fun q => F i j k q)))) = sum n (fun q => sum a (fun i => sum b (fun j => sum c (fun k => F i j k q)))).
Proof. transitivity (sum a (fun i => sum n (fun q => sum b (fun j => sum c (fun k => F i j k q))))); [apply sum_ext; intros i _; exact (swap21 b c n (fun j k q => F i j k q))|exact (sum_swap a n (fun i q => sum b (fun j => sum c (fun k => F i j k q))))]. Qed.
Lemma swap12 n a b F : sum n (fun q => sum a (fun i => sum b (fun j => F q i j))) = sum a (fun i => sum b (fun j => sum n (fun q => F q i j))).
Proof. symmetry. exact (swap21 a b n (fun i j q => F q i j)). Qed.
Lemma swap13 n a b c F : sum n (fun q => sum a (fun i => sum b (fun j => sum c (fun k => F q i j k)))) = sum a (fun i => sum b (fun j => sum c (fun k => sum n (fun q => F q i j k)))).
Proof. symmetry. exact (swap31 a b c n (fun i j k q => F q i j k)). Qed.
Lemma swap33 a b c l m n F : sum a (fun i => sum b (fun j => sum c (fun k => sum l (fun u => sum m (fun v => sum n (fun q => F i j k u v q)))))) =
  sum l (fun u => sum m (fun v => sum n (fun q => sum a (fun i => sum b (fun j => sum c (fun k => F i j k u v q)))))).
Proof.
  rewrite (swap31 a b c l (fun i j k u => sum m (fun v => sum n (fun q => F i j k u v q)))). apply sum_ext. intros u _.
  rewrite (swap31 a b c m (fun i j k v => sum n (fun q => F i j k u v q))). apply sum_ext. intros v _.
  exact (swap31 a b c n (fun i j k q => F i j k u v q)).
Qed.
Lemma sum_pick n a g : sum n (fun i => if Nat.eqb i a then g i else zero) = if a <? n then g a else zero.
Proof.
  induction n as [|n IH]; [reflexivity|]. cbn [ConvModel.sum]. rewrite IH. destruct (Nat.eqb_spec n a) as [->|N].
  - destruct (Nat.ltb_spec a a); [lia|]. destruct (Nat.ltb_spec a (S a)); [ring|lia].
  - destruct (Nat.ltb_spec a n), (Nat.ltb_spec a (S n)); try lia; ring.
Qed.
Lemma sum_rev n f : sum n f = sum n (fun i => f (n - 1 - i)).
Proof.
  revert f. induction n as [|n IH]; intros f; [reflexivity|]. change (S n) with (1 + n) at 1. rewrite sum_app. cbn [ConvModel.sum]. rewrite (IH (fun j => f (1 + j))).
  replace (S n - 1 - n) with 0 by lia. rewrite (sum_ext n (fun i => f (S n - 1 - i)) (fun i => f (1 + (n - 1 - i)))); [ring|]. intros i Hi. f_equal. lia.
Qed.
(** An extended line: its sum against anything. *)
Lemma sum_shift n h t g : t + h <= n -> sum n (fun y => if (t <=? y) && (y <? t + h) then g y else zero) = sum h (fun y => g (y + t)).
Proof.
  intros H. replace n with (t + (h + (n - t - h))) by lia. rewrite !sum_app.
  rewrite (sum_ext t _ (fun _ => zero)), sum_zero. 2:{ intros i Hi. destruct (Nat.leb_spec t i); [lia|reflexivity]. }
  rewrite (sum_ext h _ (fun y => g (y + t))). 2:{ intros i Hi. destruct (Nat.leb_spec t (t + i)); [|lia]. destruct (Nat.ltb_spec (t + i) (t + h)); [|lia]. cbn. f_equal. lia. }
  rewrite (sum_ext (n - t - h) _ (fun _ => zero)), sum_zero. 2:{ intros i Hi. destruct (Nat.ltb_spec (t + (h + i)) (t + h)); [lia|]. rewrite andb_false_r. reflexivity. }
  ring.
Qed.

(** The entries of an expanded line, moved by [p]. *)
Lemma grid (s o p Y : nat) (D : nat -> A) : 0 < s -> 0 < o ->
  (if (p <=? Y) && (Y <? p + ((o - 1) * s + 1)) then if Nat.eqb ((Y - p) mod s) 0 then D ((Y - p) / s) else zero else zero) = sum o (fun i => if Nat.eqb Y (p + i * s) then D i else zero).
Proof.
  intros Hs Ho. destruct (Nat.leb_spec p Y) as [L|L]; cbn [andb].
  2:{ rewrite (sum_ext o _ (fun _ => zero)), sum_zero; [reflexivity|]. intros i Hi. destruct (Nat.eqb_spec Y (p + i * s)); [lia|reflexivity]. }
  pose proof (Nat.div_mod (Y - p) s ltac:(lia)) as E. pose proof (Nat.mod_upper_bound (Y - p) s ltac:(lia)) as U. set (q := (Y - p) / s) in *. set (r := (Y - p) mod s) in *.
  destruct (Nat.eqb_spec r 0) as [R|R].
  - rewrite (sum_ext o _ (fun i => if Nat.eqb i q then D i else zero)).
    2:{ intros i Hi. destruct (Nat.eqb_spec Y (p + i * s)) as [X|X], (Nat.eqb_spec i q) as [Z|Z]; try reflexivity; exfalso; [apply Z|apply X]; [apply (Nat.mul_cancel_l i q s); lia|subst i; lia]. }
    rewrite sum_pick. assert (Q : Y < p + ((o - 1) * s + 1) <-> q < o). { split; intros H; [assert (s * q <= s * (o - 1)) by lia; apply Nat.mul_le_mono_pos_l in H0; lia|assert (s * q <= s * (o - 1)) by (apply Nat.mul_le_mono_l; lia); lia]. }
    destruct (Nat.ltb_spec Y (p + ((o - 1) * s + 1))), (Nat.ltb_spec q o); try reflexivity; lia.
  - rewrite (sum_ext o _ (fun _ => zero)), sum_zero; [destruct (Y <? _); reflexivity|]. intros i Hi. destruct (Nat.eqb_spec Y (p + i * s)) as [X|X]; [|reflexivity]. exfalso. apply R.
    unfold r. subst Y. replace (p + i * s - p) with (i * s) by lia. apply Nat.mod_mul. lia.
Qed.

(** Convolution with VALID padding and stride 1 reads the image itself. *)
Lemma valid_pixel (img : nat -> nat -> nat -> nat -> A) h w kh kw sh sw b ch y z : y < h -> z < w -> pixel zero img VALID h w kh kw sh sw b ch y z = img b ch y z.
Proof.
  intros Hy Hz. unfold pixel, extended. cbn [tf_before]. cbn [Nat.leb Nat.add]. rewrite !Nat.sub_0_r.
  destruct (Nat.ltb_spec y h); [|lia]. destruct (Nat.ltb_spec z w); [|lia]. reflexivity.
Qed.
Lemma out_len_one h k : out_len VALID h k 1 = h + 1 - k.
Proof. unfold out_len, ceil_div. rewrite Nat.div_1_r. lia. Qed.
Lemma conv_valid (x y : ten A) n c h w kh kw f : dims x = [n; c; h; w] -> dims y = [kh; kw; c; f] -> 0 < kh -> 0 < kw -> 0 < c -> 0 < f -> kh <= h -> kw <= w ->
  exists z, conv2d zero add mul x y 1 1 VALID = Ok z /\ dims z = [n; f; h + 1 - kh; w + 1 - kw] /\
  forall b g i j, b < n -> g < f -> i < h + 1 - kh -> j < w + 1 - kw ->
    at4 z b g i j = sum kh (fun u => sum kw (fun v => sum c (fun ch => mul (at4 x b ch (i + u) (j + v)) (at4 y u v ch g)))).
Proof.
  intros D E H1 H2 H3 H4 L1 L2. destruct (conv2d_ok zero one add mul sub opp RT x y n c h w kh kw f 1 1 VALID D E H1 H2 H3 H4) as (z & Ez & Dz & Vz). cbv zeta in *. rewrite !out_len_one in *.
  exists z. split; [exact Ez|]. split; [exact Dz|]. intros b g i j Hb Hg Hi Hj. rewrite (Vz b g i j Hb Hg Hi Hj). unfold conv_at. apply sum_ext. intros u Hu. apply sum_ext. intros v Hv. apply sum_ext. intros ch Hc.
  rewrite !Nat.mul_1_r. rewrite valid_pixel by lia. reflexivity.
Qed.

Section Layer.
Context (n c h w k0 k1 f s : nat) (p : padding).
Let ho := out_len p h k0 s.
Let wo := out_len p w k1 s.
Context (Hn : 0 < n) (Hc : 0 < c) (Hk0 : 0 < k0) (Hk1 : 0 < k1) (Hf : 0 < f) (Hs : 0 < s) (Ho : 0 < ho) (Wo : 0 < wo).
Context (dyc : nat -> nat -> nat -> nat -> A) (K : ten A) (DK : dims K = [k0; k1; c; f]).

(** The first convolution: one entry of the gradient of the padded image. *)
Lemma padded_at dyT : dims dyT = [ho; wo; n; f] -> (forall i j b g, i < ho -> j < wo -> b < n -> g < f -> val dyT [i; j; b; g] = dyc b g i j) ->
  let P := transpose [2; 3; 0; 1] (pad_axis zero 1 (k1 - 1) (k1 - 1) (pad_axis zero 0 (k0 - 1) (k0 - 1) (expand zero s dyT))) in
  dims P = [n; f; (ho - 1) * s + 1 + 2 * (k0 - 1); (wo - 1) * s + 1 + 2 * (k1 - 1)] /\
  forall b g Y Z, b < n -> g < f -> at4 P b g Y Z = sum ho (fun i => if Nat.eqb Y (k0 - 1 + i * s) then sum wo (fun j => if Nat.eqb Z (k1 - 1 + j * s) then dyc b g i j else zero) else zero).
Proof.
  intros D V P. split; [unfold P, transpose, pad_axis, expand; rewrite D; cbn [dims map nth set_nth]; f_equal; f_equal; f_equal; [lia|f_equal; lia]|].
  intros b g Y Z Hb Hg. rewrite <- (grid s ho (k0 - 1) Y (fun i => sum wo (fun j => if Nat.eqb Z (k1 - 1 + j * s) then dyc b g i j else zero)) Hs Ho).
  unfold P, at4, transpose, pad_axis, expand. rewrite D. cbn [dims val map nth set_nth seq length pos Nat.eqb].
  destruct ((k0 - 1 <=? Y) && (Y <? k0 - 1 + ((ho - 1) * s + 1))) eqn:B0.
  2:{ destruct ((k1 - 1 <=? Z) && (Z <? k1 - 1 + ((wo - 1) * s + 1))); reflexivity. }
  destruct (Nat.eqb_spec ((Y - (k0 - 1)) mod s) 0) as [R|R].
  2:{ destruct ((k1 - 1 <=? Z) && (Z <? k1 - 1 + ((wo - 1) * s + 1))); reflexivity. }
  apply andb_prop in B0. destruct B0 as (B1 & B2). apply Nat.leb_le in B1. apply Nat.ltb_lt in B2.
  assert (Yb : (Y - (k0 - 1)) / s < ho). { assert ((Y - (k0 - 1)) / s <= ho - 1) by (apply Nat.div_le_upper_bound; lia). lia. }
  rewrite <- (grid s wo (k1 - 1) Z (fun j => dyc b g ((Y - (k0 - 1)) / s) j) Hs Wo).
  destruct ((k1 - 1 <=? Z) && (Z <? k1 - 1 + ((wo - 1) * s + 1))) eqn:C0; [|reflexivity].
  apply andb_prop in C0. destruct C0 as (C1 & C2). apply Nat.leb_le in C1. apply Nat.ltb_lt in C2.
  assert (Zb : (Z - (k1 - 1)) / s < wo). { assert ((Z - (k1 - 1)) / s <= wo - 1) by (apply Nat.div_le_upper_bound; lia). lia. }
  destruct (Nat.eqb_spec ((Z - (k1 - 1)) mod s) 0); [|reflexivity]. cbn [andb]. apply V; assumption.
Qed.

(** The gradient of the padded image. *)
Lemma one_pos m : 0 < m + 1.
Proof. lia. Qed.
Lemma one_le m k : 0 < k -> m + 1 <= m + k.
Proof. lia. Qed.
Lemma one_out m k : m + k + 1 - (m + 1) = k.
Proof. lia. Qed.
Lemma total_ge m k : k <= m + 1 + 2 * (k - 1).
Proof. lia. Qed.
Lemma total_out m k : 0 < k -> m + 1 + 2 * (k - 1) + 1 - k = m + k.
Proof. lia. Qed.
Definition image_grad (b ch y z : nat) : A :=
  sum k0 (fun u => sum k1 (fun v => sum f (fun g => sum ho (fun i => sum wo (fun j =>
    if Nat.eqb y (i * s + u) then if Nat.eqb z (j * s + v) then mul (dyc b g i j) (at4 K u v ch g) else zero else zero))))).
Lemma dx_ok dyT : dims dyT = [ho; wo; n; f] -> (forall i j b g, i < ho -> j < wo -> b < n -> g < f -> val dyT [i; j; b; g] = dyc b g i j) ->
  exists z, conv2d zero add mul (transpose [2; 3; 0; 1] (pad_axis zero 1 (k1 - 1) (k1 - 1) (pad_axis zero 0 (k0 - 1) (k0 - 1) (expand zero s dyT))))
      (transpose [0; 1; 3; 2] (reverse2 K)) 1 1 VALID = Ok z /\ dims z = [n; c; (ho - 1) * s + k0; (wo - 1) * s + k1] /\
  forall b ch y x, b < n -> ch < c -> y < (ho - 1) * s + k0 -> x < (wo - 1) * s + k1 -> at4 z b ch y x = image_grad b ch y x.
Proof.
  intros D V. destruct (padded_at dyT D V) as (DP & VP). cbv zeta in *. set (P := transpose _ _) in *. set (F := transpose [0; 1; 3; 2] (reverse2 K)).
  assert (DF : dims F = [k0; k1; f; c]) by (unfold F, transpose, reverse2; cbn [dims]; rewrite DK; reflexivity).
  destruct (conv_valid P F n f ((ho - 1) * s + 1 + 2 * (k0 - 1)) ((wo - 1) * s + 1 + 2 * (k1 - 1)) k0 k1 c DP DF Hk0 Hk1 Hf Hc (total_ge _ _) (total_ge _ _)) as (z & Ez & Dz & Vz). exists z. split; [exact Ez|].
  rewrite !total_out in * by assumption. split; [exact Dz|]. intros b ch y x Hb Hch Hy Hx. rewrite (Vz b ch y x Hb Hch Hy Hx).
  unfold image_grad. rewrite sum_rev. apply sum_ext. intros u Hu. rewrite sum_rev. apply sum_ext. intros v Hv. apply sum_ext. intros g Hg.
  rewrite (VP b g _ _ Hb Hg). unfold F, at4, transpose, reverse2. cbn [val map seq length pos Nat.eqb nth]. rewrite DK. replace (k0 - 1 - (k0 - 1 - u)) with u by lia. replace (k1 - 1 - (k1 - 1 - v)) with v by lia.
  rewrite <- sum_mulr. apply sum_ext. intros i Hi. destruct (Nat.eqb_spec (y + (k0 - 1 - u)) (k0 - 1 + i * s)) as [E1|E1], (Nat.eqb_spec y (i * s + u)) as [E2|E2]; try lia.
  - rewrite <- sum_mulr. apply sum_ext. intros j Hj. destruct (Nat.eqb_spec (x + (k1 - 1 - v)) (k1 - 1 + j * s)) as [E3|E3], (Nat.eqb_spec x (j * s + v)) as [E4|E4]; try lia; [reflexivity|ring].
  - rewrite sum_zero. ring.
Qed.

(** The terms of the inner product of the gradient with the output. *)
Definition term (X : nat -> nat -> nat -> nat -> A) (W : nat -> nat -> nat -> nat -> A) (b ch u v g i j : nat) : A :=
  mul (dyc b g i j) (mul (X b ch (i * s + u) (j * s + v)) (W u v ch g)).
Lemma order_image X W : sum n (fun b => sum f (fun g => sum ho (fun i => sum wo (fun j => sum k0 (fun u => sum k1 (fun v => sum c (fun ch => term X W b ch u v g i j))))))) =
  sum n (fun b => sum c (fun ch => sum k0 (fun u => sum k1 (fun v => sum f (fun g => sum ho (fun i => sum wo (fun j => term X W b ch u v g i j))))))).
Proof.
  apply sum_ext. intros b _. rewrite (swap33 f ho wo k0 k1 c (fun g i j u v ch => term X W b ch u v g i j)).
  exact (swap21 k0 k1 c (fun u v ch => sum f (fun g => sum ho (fun i => sum wo (fun j => term X W b ch u v g i j))))).
Qed.
Lemma order_kernel X W : sum n (fun b => sum f (fun g => sum ho (fun i => sum wo (fun j => sum k0 (fun u => sum k1 (fun v => sum c (fun ch => term X W b ch u v g i j))))))) =
  sum k0 (fun u => sum k1 (fun v => sum c (fun ch => sum f (fun g => sum n (fun b => sum ho (fun i => sum wo (fun j => term X W b ch u v g i j))))))).
Proof.
  transitivity (sum n (fun b => sum k0 (fun u => sum k1 (fun v => sum c (fun ch => sum f (fun g => sum ho (fun i => sum wo (fun j => term X W b ch u v g i j)))))))).
  - apply sum_ext. intros b _. exact (swap33 f ho wo k0 k1 c (fun g i j u v ch => term X W b ch u v g i j)).
  - rewrite (swap13 n k0 k1 c (fun b u v ch => sum f (fun g => sum ho (fun i => sum wo (fun j => term X W b ch u v g i j))))). apply sum_ext. intros u _. apply sum_ext. intros v _. apply sum_ext. intros ch _. apply sum_swap.
Qed.

(** The gradient of the image against an image, extended to all of the windows. *)
Lemma image_inner (X : nat -> nat -> nat -> nat -> A) :
  sum n (fun b => sum c (fun ch => sum ((ho - 1) * s + k0) (fun y => sum ((wo - 1) * s + k1) (fun z => mul (image_grad b ch y z) (X b ch y z))))) =
  sum n (fun b => sum f (fun g => sum ho (fun i => sum wo (fun j => sum k0 (fun u => sum k1 (fun v => sum c (fun ch => term X (at4 K) b ch u v g i j))))))).
Proof.
  rewrite order_image. apply sum_ext. intros b _. apply sum_ext. intros ch _. unfold image_grad.
  set (H := (ho - 1) * s + k0). set (W := (wo - 1) * s + k1).
  transitivity (sum H (fun y => sum W (fun z => sum k0 (fun u => sum k1 (fun v => sum f (fun g => sum ho (fun i => sum wo (fun j =>
    if Nat.eqb y (i * s + u) then if Nat.eqb z (j * s + v) then mul (mul (dyc b g i j) (at4 K u v ch g)) (X b ch y z) else zero else zero)))))))).
  { apply sum_ext. intros y _. apply sum_ext. intros z _. do 5 (rewrite <- sum_mulr; apply sum_ext; intros ? _). match goal with |- context [if ?p then if ?q then _ else _ else _] => destruct p, q end; ring. }
  rewrite swap21. apply sum_ext. intros u Hu. rewrite swap21. apply sum_ext. intros v Hv. rewrite swap21. apply sum_ext. intros g Hg. rewrite swap21. apply sum_ext. intros i Hi. rewrite swap21. apply sum_ext. intros j Hj.
  assert (B1 : i * s + u < H) by (assert (i * s <= (ho - 1) * s) by (apply Nat.mul_le_mono_r; lia); unfold H; lia).
  assert (B2 : j * s + v < W) by (assert (j * s <= (wo - 1) * s) by (apply Nat.mul_le_mono_r; lia); unfold W; lia).
  transitivity (sum H (fun y => if Nat.eqb y (i * s + u) then sum W (fun z => if Nat.eqb z (j * s + v) then mul (mul (dyc b g i j) (at4 K u v ch g)) (X b ch y z) else zero) else zero)).
  { apply sum_ext. intros y _. match goal with |- context [Nat.eqb y ?q] => destruct (Nat.eqb y q) end; [reflexivity|]. apply sum_zero. }
  rewrite sum_pick. destruct (Nat.ltb_spec (i * s + u) H); [|lia]. rewrite sum_pick. destruct (Nat.ltb_spec (j * s + v) W); [|lia]. unfold term. ring.
Qed.

(** The second convolution: the gradient of the kernel, for the extended image [X]. *)
Lemma dk_ok dyT XT : dims dyT = [ho; wo; n; f] -> (forall i j b g, i < ho -> j < wo -> b < n -> g < f -> val dyT [i; j; b; g] = dyc b g i j) ->
  dims XT = [c; n; (ho - 1) * s + k0; (wo - 1) * s + k1] ->
  exists z, conv2d zero add mul XT (expand zero s dyT) 1 1 VALID = Ok z /\ dims z = [c; f; k0; k1] /\
  forall ch g u v, ch < c -> g < f -> u < k0 -> v < k1 -> at4 z ch g u v = sum n (fun b => sum ho (fun i => sum wo (fun j => mul (dyc b g i j) (at4 XT ch b (i * s + u) (j * s + v))))).
Proof.
  intros D V DX. assert (DE : dims (expand zero s dyT) = [(ho - 1) * s + 1; (wo - 1) * s + 1; n; f]) by (unfold expand; rewrite D; reflexivity).
  destruct (conv_valid XT (expand zero s dyT) c n ((ho - 1) * s + k0) ((wo - 1) * s + k1) ((ho - 1) * s + 1) ((wo - 1) * s + 1) f DX DE (one_pos _) (one_pos _) Hn Hf (one_le _ _ Hk0) (one_le _ _ Hk1)) as (z & Ez & Dz & Vz). exists z. split; [exact Ez|].
  rewrite !one_out in *. split; [exact Dz|]. intros ch g u v Hch Hg Hu Hv. rewrite (Vz ch g u v Hch Hg Hu Hv).
  transitivity (sum ((ho - 1) * s + 1) (fun y => sum ((wo - 1) * s + 1) (fun x => sum n (fun b => mul (at4 XT ch b (u + y) (v + x)) (sum ho (fun i => sum wo (fun j => if Nat.eqb y (i * s) then if Nat.eqb x (j * s) then dyc b g i j else zero else zero))))))).
  { apply sum_ext. intros y Hy. apply sum_ext. intros x Hx. apply sum_ext. intros b Hb. f_equal. unfold at4, expand. rewrite D. cbn [val].
    transitivity (sum ho (fun i => if Nat.eqb y (0 + i * s) then sum wo (fun j => if Nat.eqb x (0 + j * s) then dyc b g i j else zero) else zero)).
    2:{ apply sum_ext. intros i _. cbn [Nat.add]. destruct (Nat.eqb y (i * s)); [reflexivity|]. symmetry. apply sum_zero. }
    rewrite <- (grid s ho 0 y _ Hs Ho). cbn [Nat.leb andb Nat.add]. rewrite Nat.sub_0_r. destruct (Nat.ltb_spec y ((ho - 1) * s + 1)); [|lia].
    destruct (Nat.eqb_spec (y mod s) 0) as [R|R]; [|reflexivity]. cbn [andb]. rewrite <- (grid s wo 0 x _ Hs Wo). cbn [Nat.leb andb Nat.add]. rewrite Nat.sub_0_r. destruct (Nat.ltb_spec x ((wo - 1) * s + 1)); [|lia].
    destruct (Nat.eqb_spec (x mod s) 0) as [R'|R']; [|reflexivity]. apply V; [| |exact Hb|exact Hg].
    - assert (y / s <= ho - 1) by (apply Nat.div_le_upper_bound; lia). lia.
    - assert (x / s <= wo - 1) by (apply Nat.div_le_upper_bound; lia). lia. }
  rewrite swap21. apply sum_ext. intros b Hb.
  transitivity (sum ((ho - 1) * s + 1) (fun y => sum ((wo - 1) * s + 1) (fun x => sum ho (fun i => sum wo (fun j => if Nat.eqb y (i * s) then if Nat.eqb x (j * s) then mul (at4 XT ch b (u + y) (v + x)) (dyc b g i j) else zero else zero))))).
  { apply sum_ext. intros y _. apply sum_ext. intros x _. do 2 (rewrite <- sum_mul; apply sum_ext; intros ? _). match goal with |- context [if ?p then if ?q then _ else _ else _] => destruct p, q end; ring. }
  rewrite swap21. apply sum_ext. intros i Hi. rewrite swap21. apply sum_ext. intros j Hj.
  transitivity (sum ((ho - 1) * s + 1) (fun y => if Nat.eqb y (i * s) then sum ((wo - 1) * s + 1) (fun x => if Nat.eqb x (j * s) then mul (at4 XT ch b (u + y) (v + x)) (dyc b g i j) else zero) else zero)).
  { apply sum_ext. intros y _. match goal with |- context [Nat.eqb y ?q] => destruct (Nat.eqb y q) end; [reflexivity|]. apply sum_zero. }
  assert (B1 : i * s <= (ho - 1) * s) by (apply Nat.mul_le_mono_r; lia). assert (B2 : j * s <= (wo - 1) * s) by (apply Nat.mul_le_mono_r; lia).
  rewrite sum_pick. destruct (Nat.ltb_spec (i * s) ((ho - 1) * s + 1)); [|lia]. rewrite sum_pick. destruct (Nat.ltb_spec (j * s) ((wo - 1) * s + 1)); [|lia].
  rewrite (Nat.add_comm u), (Nat.add_comm v). ring.
Qed.
End Layer.
End ConvG.
