(** Proofs about the 128-bit limbs and the bit kernels. *)
From Coq Require Import ZArith List Lia Bool.
From Verif Require Import Base Factory Aby3Bits KernModel KernSpec.
Import ListNotations.
Local Open Scope Z_scope.

Lemma p64 : 0 < 2 ^ 64. Proof. apply pow2_pos; lia. Qed.
Lemma p128 : 2 ^ 128 = 2 ^ 64 * 2 ^ 64. Proof. reflexivity. Qed.
Lemma mod0_eqm m a b : 0 < m -> ((a - b) mod m = 0 <-> eqm m a b).
Proof.
  intros Hm. unfold eqm. split; intros H.
  - apply Z.mod_divide in H; [|lia]. destruct H as [k H]. replace a with (b + k * m) by lia.
    rewrite Z.mod_add by lia. reflexivity.
  - rewrite Zminus_mod, H, Z.sub_diag. apply Z.mod_0_l. lia.
Qed.

Lemma stands_view x v : stands x v -> view x = v.
Proof.
  intros (L & H & M & E). unfold view, uwrap. rewrite E.
  apply mod0_eqm in M; [|exact p64]. unfold eqm in M. rewrite <- M.
  pose proof (Z.div_mod v (2 ^ 64) ltac:(pose proof p64; lia)). lia.
Qed.
Lemma stands_range x v : stands x v -> in_s 128 v.
Proof.
  intros H. pose proof (stands_view _ _ H) as E. destruct H as (_ & H & _). unfold view, uwrap in E.
  pose proof (Z.mod_pos_bound (lo x) (2 ^ 64) p64) as B. unfold in_s.
  change (128 - 1) with (63 + 64). rewrite pow2_split by lia. revert H B E. generalize (lo x mod 2 ^ 64).
  intros r H B <-. pose proof p64. nia.
Qed.
Lemma store_stands v : in_s 128 v -> stands (store v) v.
Proof.
  intros H. unfold stands, store. cbn [lo hi]. pose proof p64 as P.
  rewrite Z.shiftr_div_pow2 by lia.
  assert (D : in_s 64 (v / 2 ^ 64)).
  { unfold in_s in *. change (128 - 1) with (63 + 64) in H. rewrite pow2_split in H by lia. change (64 - 1) with 63.
    split; [apply Z.div_le_lower_bound|apply Z.div_lt_upper_bound]; lia. }
  repeat split; try apply (swrap_range 64); try lia.
  - apply mod0_eqm; [exact P|]. apply eqm_sym, swrap_eqm. lia.
  - rewrite swrap_id by (lia || exact D). reflexivity.
Qed.
Lemma stands_limbs x : limbs_ok x -> stands x (view x).
Proof.
  intros [L H]. unfold stands, view. pose proof p64 as P. unfold uwrap.
  repeat split; try apply L; try apply H.
  - apply mod0_eqm; [exact P|]. unfold eqm. rewrite Z.add_comm, Z.mod_add by lia. apply Z.mod_mod. lia.
  - rewrite Z.div_add_l by lia. rewrite (Z.div_small (lo x mod 2 ^ 64)) by (apply Z.mod_pos_bound; exact P). lia.
Qed.
Lemma stands_unique x y v : stands x v -> stands y v -> x = y.
Proof.
  intros (L & _ & M & H) (L' & _ & M' & H'). destruct x as [a b], y as [a' b']. cbn in *. f_equal; [|congruence].
  apply (in_s_eqm_eq 64); [lia|exact L|exact L'|]. apply mod0_eqm in M, M'; try exact p64.
  eapply eqm_trans; [apply eqm_sym; exact M|exact M'].
Qed.
Lemma stands_ok x v : stands x v -> limbs_ok x.
Proof. intros (L & H & _). split; assumption. Qed.
Lemma reduced_eq w z r : 0 < w -> reduced w z r -> r = swrap w z.
Proof.
  intros Hw [R M]. apply (in_s_eqm_eq w); [exact Hw|exact R|apply swrap_range; exact Hw|].
  apply mod0_eqm in M; [|apply pow2_pos; lia]. rewrite swrap_eqm by exact Hw. exact M.
Qed.
Lemma store_reduced z r : reduced 128 z r -> stands (store (swrap 128 z)) r.
Proof. intros H. rewrite (reduced_eq 128 z r ltac:(lia) H). apply store_stands, swrap_range. lia. Qed.

(** ** Conversions *)

Lemma to_bytes_app n m v : to_bytes (n + m) v = to_bytes n v ++ to_bytes m (v / 256 ^ Z.of_nat n).
Proof.
  revert v; induction n as [|n IH]; intros v.
  - cbn [Nat.add to_bytes app]. change (256 ^ Z.of_nat 0) with 1. rewrite Z.div_1_r. reflexivity.
  - cbn [Nat.add to_bytes app]. rewrite IH. do 3 f_equal.
    rewrite Nat2Z.inj_succ, Z.pow_succ_r by lia. rewrite Z.div_div by lia. reflexivity.
Qed.
Lemma to_bytes_length n v : length (to_bytes n v) = n.
Proof. revert v; induction n as [|n IH]; intros v; cbn [to_bytes length]; [reflexivity|]. rewrite IH. reflexivity. Qed.
Lemma bytes_value n v : fold_right (fun b acc => b + 256 * acc) 0 (to_bytes n v) = v mod 256 ^ Z.of_nat n.
Proof.
  revert v; induction n as [|n IH]; intros v; cbn [to_bytes fold_right].
  - change (256 ^ Z.of_nat 0) with 1. rewrite Z.mod_1_r. reflexivity.
  - rewrite IH. rewrite Nat2Z.inj_succ, Z.pow_succ_r by lia. rewrite Z.rem_mul_r by lia. reflexivity.
Qed.
Lemma encode_store z : encode z = store (swrap 128 z).
Proof.
  unfold encode. cbv zeta. change (2 ^ 128 - 1) with (Z.ones 128). rewrite Z.land_ones by lia.
  change 16%nat with (8 + 8)%nat. rewrite to_bytes_app.
  rewrite firstn_app, skipn_app, to_bytes_length, Nat.sub_diag.
  rewrite firstn_all2 by (rewrite to_bytes_length; lia). rewrite skipn_all2 by (rewrite to_bytes_length; lia).
  cbn [firstn skipn app]. rewrite app_nil_r. unfold le_int64. rewrite !bytes_value.
  change (256 ^ Z.of_nat 8) with (2 ^ 64). unfold store. pose proof p64 as P.
  assert (P2 : 0 < 2 ^ 128) by (apply pow2_pos; lia).
  assert (S : eqm (2 ^ 128) (swrap 128 z) (z mod 2 ^ 128)).
  { eapply eqm_trans; [apply swrap_eqm; lia|apply eqm_sym, eqm_mod_l]. }
  apply eqm_exists in S; [|lia]. destruct S as [k S]. rewrite S.
  f_equal; apply eqm_swrap_eq; try lia.
  - unfold eqm. rewrite Z.mod_mod by lia. rewrite p128. rewrite Z.mul_assoc, Z.mod_add by lia. reflexivity.
  - rewrite Z.shiftr_div_pow2 by lia. rewrite p128, Z.mul_assoc, Z.div_add by lia.
    unfold eqm. rewrite Z.mod_add by lia. rewrite Z.mod_mod by lia. reflexivity.
Qed.
Lemma decode_view x : decode x = view x.
Proof. unfold decode, view. rewrite Z.shiftl_mul_pow2 by lia. lia. Qed.
(** ** Ring operations *)

Lemma add_ok x y u v r : stands x u -> stands y v -> reduced 128 (u + v) r -> stands (k_add x y) r.
Proof. intros Hx Hy. unfold k_add. rewrite (stands_view _ _ Hx), (stands_view _ _ Hy). apply store_reduced. Qed.
Lemma sub_ok x y u v r : stands x u -> stands y v -> reduced 128 (u - v) r -> stands (k_sub x y) r.
Proof. intros Hx Hy. unfold k_sub. rewrite (stands_view _ _ Hx), (stands_view _ _ Hy). apply store_reduced. Qed.
Lemma mul_ok x y u v r : stands x u -> stands y v -> reduced 128 (u * v) r -> stands (k_mul x y) r.
Proof. intros Hx Hy. unfold k_mul. rewrite (stands_view _ _ Hx), (stands_view _ _ Hy). apply store_reduced. Qed.
Lemma neg_ok x u r : stands x u -> reduced 128 (- u) r -> stands (k_neg x) r.
Proof. intros Hx. unfold k_neg. rewrite (stands_view _ _ Hx). apply store_reduced. Qed.
Lemma swrap_reduced w z : 0 < w -> reduced w z (swrap w z).
Proof. intros Hw. split; [apply swrap_range; exact Hw|]. apply mod0_eqm; [apply pow2_pos; lia|apply swrap_eqm; exact Hw]. Qed.
Lemma reduced_self w z : 0 < w -> in_s w z -> reduced w z z.
Proof. intros Hw H. split; [exact H|]. rewrite Z.sub_diag. apply Z.mod_0_l. pose proof (pow2_pos w ltac:(lia)). lia. Qed.
Lemma abs_ok x u r : stands x u -> reduced 128 (Z.abs u) r -> stands (k_abs x) r.
Proof.
  intros Hx Hr. unfold k_abs. rewrite (stands_view _ _ Hx). destruct (Z.ltb_spec u 0).
  - apply (neg_ok x u); [exact Hx|]. rewrite Z.abs_neq in Hr by lia. exact Hr.
  - rewrite Z.abs_eq in Hr by lia. rewrite (reduced_eq 128 u r ltac:(lia) Hr).
    rewrite swrap_id; [exact Hx|lia|]. exact (stands_range _ _ Hx).
Qed.

(** ** Shifts *)

Lemma div_in_s w u s : 0 < w -> 0 <= s -> in_s w u -> in_s w (u / 2 ^ s).
Proof.
  intros Hw Hs [A B]. pose proof (pow2_pos s Hs) as P. unfold in_s. pose proof (pow2_pos (w - 1) ltac:(lia)) as Q.
  split; [apply Z.div_le_lower_bound|apply Z.div_lt_upper_bound]; try lia; nia.
Qed.
Lemma rshift_ok x u s : stands x u -> 0 <= s -> stands (k_rshift x s) (u / 2 ^ s).
Proof.
  intros Hx Hs. pose proof (stands_range _ _ Hx) as R. unfold k_rshift. rewrite (stands_view _ _ Hx).
  destruct (Z.leb_spec s 0).
  - replace s with 0 by lia. rewrite Z.pow_0_r, Z.div_1_r. exact Hx.
  - destruct (Z.leb_spec 128 s).
    + assert (2 ^ 127 <= 2 ^ s) by (apply Z.pow_le_mono_r; lia). unfold in_s in R. change (128 - 1) with 127 in R.
      destruct (Z.ltb_spec u 0).
      * replace (u / 2 ^ s) with (-1); [apply store_stands; unfold in_s; lia|].
        apply (Z.div_unique u (2 ^ s) (-1) (u + 2 ^ s)); lia.
      * rewrite Z.div_small by lia. apply store_stands. unfold in_s; lia.
    + rewrite Z.shiftr_div_pow2 by lia. apply store_stands, div_in_s; [lia|lia|exact R].
Qed.
Lemma lrshift_ok x u s r : stands x u -> 0 <= s -> reduced 128 ((u mod 2 ^ 128) / 2 ^ s) r -> stands (k_lrshift x s) r.
Proof.
  intros Hx Hs Hr. unfold k_lrshift. rewrite (stands_view _ _ Hx).
  destruct (Z.leb_spec s 0).
  - replace s with 0 in Hr by lia. rewrite Z.pow_0_r, Z.div_1_r in Hr.
    replace r with u; [exact Hx|]. rewrite (reduced_eq 128 _ _ ltac:(lia) Hr).
    rewrite <- (swrap_id 128 u) at 1; [|lia|exact (stands_range _ _ Hx)]. apply eqm_swrap_eq; [lia|]. apply eqm_sym, eqm_mod_l.
  - destruct (Z.leb_spec 128 s).
    + assert (L : 2 ^ 128 <= 2 ^ s) by (apply Z.pow_le_mono_r; lia).
      pose proof (Z.mod_pos_bound u (2 ^ 128) ltac:(apply pow2_pos; lia)) as B.
      rewrite Z.div_small in Hr by lia. rewrite (reduced_eq 128 _ _ ltac:(lia) Hr).
      rewrite swrap_id; [apply store_stands|lia|]; unfold in_s; lia.
    + unfold uwrap. rewrite Z.shiftr_div_pow2 by lia. apply store_reduced, Hr.
Qed.
Lemma lshift_ok x u s r : stands x u -> 0 <= s -> reduced 128 (u * 2 ^ s) r -> stands (k_lshift x s) r.
Proof.
  intros Hx Hs Hr. unfold k_lshift. rewrite (stands_view _ _ Hx).
  destruct (Z.leb_spec s 0).
  - replace s with 0 in Hr by lia. rewrite Z.pow_0_r, Z.mul_1_r in Hr.
    rewrite (reduced_eq 128 _ _ ltac:(lia) Hr), swrap_id; [exact Hx|lia|exact (stands_range _ _ Hx)].
  - destruct (Z.leb_spec 128 s).
    + replace r with 0; [apply store_stands; unfold in_s; lia|]. rewrite (reduced_eq 128 _ _ ltac:(lia) Hr).
      rewrite <- (swrap_id 128 0) at 1; [|lia|unfold in_s; lia]. apply eqm_swrap_eq; [lia|].
      replace s with (s - 128 + 128) by lia. rewrite pow2_split by lia. rewrite Z.mul_assoc.
      unfold eqm. rewrite Z.mod_mul by (pose proof (pow2_pos 128 ltac:(lia)); lia). apply Z.mod_0_l. pose proof (pow2_pos 128 ltac:(lia)). lia.
    + rewrite Z.shiftl_mul_pow2 by lia. apply store_reduced, Hr.
Qed.
Lemma shift_nonpos x s : s <= 0 -> k_rshift x s = x /\ k_lrshift x s = x /\ k_lshift x s = x.
Proof. intros H. unfold k_rshift, k_lrshift, k_lshift. destruct (Z.leb_spec s 0); [auto|lia]. Qed.

(** ** Bitwise operators *)

Lemma stands_bits x v : stands x v <->
  (forall i, 63 <= i -> Z.testbit (lo x) i = Z.testbit (lo x) 63) /\
  (forall i, 63 <= i -> Z.testbit (hi x) i = Z.testbit (hi x) 63) /\
  (forall i, 0 <= i < 64 -> Z.testbit (lo x) i = Z.testbit v i) /\
  (forall i, 0 <= i -> Z.testbit (hi x) i = Z.testbit v (i + 64)).
Proof.
  split.
  - intros (L & H & M & E). apply mod0_eqm in M; [|exact p64]. repeat split.
    + apply (in_s_bits 64); [lia|exact L].
    + apply (in_s_bits 64); [lia|exact H].
    + intros i Hi. symmetry. apply (eqm_bits 64); [lia|exact M|exact Hi].
    + intros i Hi. rewrite E, <- Z.shiftr_div_pow2, Z.shiftr_spec by lia. reflexivity.
  - intros (A & B & C & D). repeat split.
    1,2: apply (in_s_of_bits 64 (lo x)); [lia|exact A].
    1,2: apply (in_s_of_bits 64 (hi x)); [lia|exact B].
    + apply mod0_eqm; [exact p64|]. apply bits_eqm; [lia|]. intros i Hi. symmetry. apply C, Hi.
    + rewrite <- Z.shiftr_div_pow2 by lia. apply Z.bits_inj'. intros i Hi. rewrite Z.shiftr_spec by exact Hi. apply D, Hi.
Qed.
Lemma pointwise_ok (f : Z -> Z -> Z) (g : bool -> bool -> bool) x y u v :
  (forall a b i, 0 <= i -> Z.testbit (f a b) i = g (Z.testbit a i) (Z.testbit b i)) ->
  stands x u -> stands y v -> stands (Limbs (f (lo x) (lo y)) (f (hi x) (hi y))) (f u v).
Proof.
  intros F Hx Hy. apply stands_bits in Hx, Hy. destruct Hx as (A & B & C & D), Hy as (A' & B' & C' & D').
  apply stands_bits. cbn [lo hi]. repeat split; intros i Hi; rewrite !F by lia.
  - rewrite (A i Hi), (A' i Hi). reflexivity.
  - rewrite (B i Hi), (B' i Hi). reflexivity.
  - rewrite (C i Hi), (C' i Hi). reflexivity.
  - rewrite (D i Hi), (D' i Hi). reflexivity.
Qed.
Lemma and_ok x y u v : stands x u -> stands y v -> stands (k_and x y) (Z.land u v).
Proof. apply (pointwise_ok Z.land andb). intros. apply Z.land_spec. Qed.
Lemma or_ok x y u v : stands x u -> stands y v -> stands (k_or x y) (Z.lor u v).
Proof. apply (pointwise_ok Z.lor orb). intros. apply Z.lor_spec. Qed.
Lemma xor_ok x y u v : stands x u -> stands y v -> stands (k_xor x y) (Z.lxor u v).
Proof. apply (pointwise_ok Z.lxor xorb). intros. apply Z.lxor_spec. Qed.
Lemma not_ok x u : stands x u -> stands (k_not x) (Z.lnot u).
Proof.
  intros Hx. exact (pointwise_ok (fun a _ => Z.lnot a) (fun a _ => negb a) x x u u (fun a b i Hi => Z.lnot_spec a i Hi) Hx Hx).
Qed.

(** ** Sums *)

Lemma fold_add_ok xs us : Forall2 stands xs us -> forall a s, stands a (swrap 128 s) ->
  stands (fold_left k_add xs a) (swrap 128 (s + zsum us)).
Proof.
  induction 1 as [|x u xs us Hx H IH]; intros a s Ha; cbn [fold_left zsum fold_right].
  - rewrite Z.add_0_r. exact Ha.
  - rewrite Z.add_assoc. apply IH. apply (add_ok a x _ _ _ Ha Hx). split; [apply swrap_range; lia|].
    apply mod0_eqm; [apply pow2_pos; lia|]. rewrite !swrap_eqm by lia. reflexivity.
Qed.
Lemma sum_ok xs us r : Forall2 stands xs us -> reduced 128 (zsum us) r -> stands (k_sum xs) r.
Proof.
  intros H Hr. rewrite (reduced_eq 128 _ _ ltac:(lia) Hr). unfold k_sum.
  apply (fold_add_ok xs us H (store 0) 0). apply store_stands, swrap_range. lia.
Qed.
Lemma dot_ok xs ys us vs r : Forall2 stands xs us -> Forall2 stands ys vs -> reduced 128 (dot us vs) r -> stands (k_dot xs ys) r.
Proof.
  intros Hx Hy Hr. rewrite (reduced_eq 128 _ _ ltac:(lia) Hr). unfold k_dot.
  assert (G : forall a s, stands a (swrap 128 s) ->
    stands (fold_left k_add (map (fun p => k_mul (fst p) (snd p)) (combine xs ys)) a) (swrap 128 (s + dot us vs))).
  { clear Hr. revert ys vs Hy. induction Hx as [|x u xs us Hx H IH]; intros ys vs Hy a s Ha.
    - cbn. rewrite Z.add_0_r. exact Ha.
    - destruct Hy as [|y v ys vs Hy Hys]; cbn [combine map fold_left dot fst snd].
      + rewrite Z.add_0_r. exact Ha.
      + rewrite Z.add_assoc. apply (IH ys vs Hys).
        apply (add_ok a (k_mul x y) (swrap 128 s) (swrap 128 (u * v)) _ Ha).
        * apply (mul_ok x y u v _ Hx Hy), swrap_reduced. lia.
        * split; [apply swrap_range; lia|]. apply mod0_eqm; [apply pow2_pos; lia|]. rewrite !swrap_eqm by lia. reflexivity. }
  apply (G (store 0) 0). apply store_stands, swrap_range. lia.
Qed.

(** ** A lawful ring *)

Lemma int128_lawful : lawful int128.
Proof.
  assert (P : 0 < 2 ^ 128) by (apply pow2_pos; lia).
  assert (V : forall x, limbs_ok x -> stands x (view x)) by exact stands_limbs.
  assert (S : forall z, stands (store (swrap 128 z)) (swrap 128 z)) by (intros z; apply store_stands, swrap_range; lia).
  assert (W : forall z, uwrap 128 (view (store (swrap 128 z))) = z mod 2 ^ 128).
  { intros z. rewrite (stands_view _ _ (S z)). unfold uwrap. apply swrap_mod. lia. }
  assert (M2 : forall (f : Z -> Z -> Z) a b, (forall a a' b b', eqm (2 ^ 128) a a' -> eqm (2 ^ 128) b b' -> eqm (2 ^ 128) (f a b) (f a' b')) ->
     (f a b) mod 2 ^ 128 = (f (uwrap 128 a) (uwrap 128 b)) mod 2 ^ 128).
  { intros f a b Hf. apply Hf; apply eqm_sym, eqm_mod_l. }
  constructor; cbn [fmod fwf fval fof fadd fsub fmul fneg felt int128].
  - exact P.
  - intros x _. apply uwrap_range. lia.
  - intros x y Hx Hy E. pose proof (V x Hx) as A. pose proof (V y Hy) as B.
    assert (view x = view y) as Q.
    { apply (in_s_eqm_eq 128); [lia|exact (stands_range _ _ A)|exact (stands_range _ _ B)|exact E]. }
    rewrite Q in A. exact (stands_unique _ _ _ A B).
  - intros z. rewrite encode_store. exact (stands_ok _ _ (S z)).
  - intros z. rewrite encode_store. apply W.
  - intros x y _ _. exact (stands_ok _ _ (S _)).
  - intros x y _ _. exact (stands_ok _ _ (S _)).
  - intros x y _ _. exact (stands_ok _ _ (S _)).
  - intros x _. exact (stands_ok _ _ (S _)).
  - intros x y _ _. unfold k_add. rewrite W. apply (M2 Z.add). intros. apply eqm_trans with (b := a + b'); unfold eqm in *; rewrite Zplus_mod; [rewrite H0|rewrite H]; rewrite <- Zplus_mod; reflexivity.
  - intros x y _ _. unfold k_sub. rewrite W. apply (M2 Z.sub). intros. unfold eqm in *. rewrite Zminus_mod, H, H0, <- Zminus_mod. reflexivity.
  - intros x y _ _. unfold k_mul. rewrite W. apply (M2 Z.mul). intros. unfold eqm in *. rewrite Zmult_mod, H, H0, <- Zmult_mod. reflexivity.
  - intros x _. unfold k_neg. rewrite W. apply (M2 (fun a _ => - a) (view x) 0). intros. unfold eqm in *.
    rewrite <- (Z.sub_0_l a), <- (Z.sub_0_l a'), Zminus_mod, H, <- Zminus_mod. reflexivity.
Qed.

(** ** Through float64 *)

Lemma float64_error z : 2 ^ 53 * Z.abs (float64 z - z) <= Z.abs z.
Proof.
  unfold float64. cbv zeta. set (a := Z.abs z). set (e := Z.max 0 (Z.log2 a - 52)).
  assert (Ha : 0 <= a) by (unfold a; lia). assert (He : 0 <= e) by (unfold e; lia).
  pose proof (pow2_pos e He) as P. pose proof (Z.div_mod a (2 ^ e) ltac:(lia)) as DM.
  pose proof (Z.mod_pos_bound a (2 ^ e) P) as R. set (q := a / 2 ^ e) in *. set (r := a mod 2 ^ e) in *.
  match goal with |- context [(q + ?u)] => set (up := u) end.
  assert (E : Z.abs (Z.sgn z * ((q + up) * 2 ^ e) - z) <= Z.abs (up * 2 ^ e - r)).
  { assert (Ez : z = Z.sgn z * a) by (unfold a; destruct z; cbn; lia). rewrite Ez at 2. rewrite <- Z.mul_sub_distr_l, Z.abs_mul.
    replace ((q + up) * 2 ^ e - a) with (up * 2 ^ e - r) by lia.
    assert (Z.abs (Z.sgn z) <= 1) by (destruct z; cbn; lia). pose proof (Z.abs_nonneg (up * 2 ^ e - r)). nia. }
  apply Z.le_trans with (2 ^ 53 * Z.abs (up * 2 ^ e - r)); [apply Z.mul_le_mono_nonneg_l; [lia|exact E]|]. clear E.
  destruct (Z.eqb_spec e 0) as [E0|E0].
  - unfold up. rewrite E0 in *. change (2 ^ 0) with 1 in *. replace r with 0 by lia. cbn. lia.
  - assert (L : 2 ^ e * 2 ^ 52 <= a).
    { rewrite <- pow2_split by lia. replace (e + 52) with (Z.log2 a) by (unfold e in *; lia).
      apply Z.log2_spec. destruct (Z.eq_dec a 0) as [Z0|]; [|lia]. exfalso. apply E0. unfold e. rewrite Z0. reflexivity. }
    assert (H2 : 2 ^ e = 2 * (2 ^ e / 2)).
    { rewrite (pow2_half e) by lia. rewrite Z.mul_comm at 2. rewrite Z.div_mul by lia. reflexivity. }
    change (2 ^ 53) with (2 * 2 ^ 52). set (h := 2 ^ e / 2) in *. clearbody h.
    assert (B : Z.abs (up * 2 ^ e - r) <= h).
    { unfold up. destruct (Z.eqb_spec e 0) as [|_]; [contradiction|].
      pose proof (Z.mod_pos_bound q 2 ltac:(lia)) as Q2. clear - H2 R Q2.
      destruct (Z.ltb_spec h r); [lia|]. destruct (Z.eqb_spec r h); [|lia].
      assert (C : q mod 2 = 0 \/ q mod 2 = 1) by lia. destruct C as [-> | ->]; lia. }
    clear - B L H2. set (t := 2 ^ 52) in *. assert (Ht : 0 < t) by (unfold t; lia). clearbody t. rewrite H2 in L.
    apply Z.le_trans with (2 * t * h); [apply Z.mul_le_mono_nonneg_l; lia|]. lia.
Qed.
Lemma float64_exact z : Z.abs z <= 2 ^ 53 -> float64 z = z.
Proof.
  intros H. pose proof (float64_error z) as E.
  destruct (Z.eq_dec (Z.abs z) (2 ^ 53)) as [Eq|Ne].
  - assert (C : z = 2 ^ 53 \/ z = - 2 ^ 53) by lia. destruct C as [-> | ->]; vm_compute; reflexivity.
  - assert (Z.abs (float64 z - z) = 0); [|lia]. pose proof (Z.abs_nonneg (float64 z - z)). revert E H Ne H0.
    generalize (Z.abs (float64 z - z)). generalize (Z.abs z). intros. change (2 ^ 53) with 9007199254740992 in *. lia.
Qed.
Lemma float64_bound z : in_s 64 z -> in_s 128 (float64 z).
Proof.
  intros H. pose proof (float64_error z) as E. unfold in_s in *. change (64 - 1) with 63 in H. change (128 - 1) with 127.
  assert (Z.abs (float64 z - z) <= Z.abs z) by (pose proof (Z.abs_nonneg (float64 z - z)); lia). lia.
Qed.

(** ** Bits *)

Lemma land1_bit x i : 0 <= i -> Z.land (Z.shiftr x i) 1 = Z.b2z (Z.testbit x i).
Proof. intros Hi. rewrite land1, Z.shiftr_spec by lia. reflexivity. Qed.
