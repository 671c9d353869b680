(** Lemmas about TensorModel. *)
From Coq Require Import QArith Qabs Lqa Znumtheory Zpow_facts.
From Coq Require Import ZifyBool ZifyNat.
From Verif Require Import Base Factory TensorModel.
Local Open Scope Z_scope.

(* ------------------------------------------------------------------ *)
(** * egcd / inverse *)

Lemma egcd_bezout fuel : forall a b g x y,
  egcd fuel a b = Some (g, x, y) -> a * x + b * y = g.
Proof.
  induction fuel as [|fuel IH]; intros a b g x y H; [discriminate|].
  cbn [egcd] in H. destruct (a =? 0) eqn:Ea.
  - inversion H; subst. lia.
  - destruct (egcd fuel (b mod a) a) as [[[g' y'] x']|] eqn:E; [|discriminate].
    inversion H; subst. apply IH in E.
    pose proof (Z.div_mod b a ltac:(lia)) as Hd. rewrite <- E.
    rewrite Hd at 2. ring.
Qed.

Lemma egcd_gcd fuel : forall a b g x y,
  0 <= a -> 0 <= b -> egcd fuel a b = Some (g, x, y) -> g = Z.gcd a b.
Proof.
  induction fuel as [|fuel IH]; intros a b g x y Ha Hb H; [discriminate|].
  cbn [egcd] in H. destruct (a =? 0) eqn:Ea.
  - inversion H; subst. assert (a = 0) by lia; subst. rewrite Z.gcd_0_l. lia.
  - destruct (egcd fuel (b mod a) a) as [[[g' y'] x']|] eqn:E; [|discriminate].
    inversion H; subst. apply IH in E; [|apply Z.mod_pos_bound; lia|lia].
    rewrite E. rewrite Z.gcd_mod by lia. reflexivity.
Qed.

Lemma egcd_enough (k : nat) : forall fuel a b,
  0 <= a < 2 ^ Z.of_nat k -> (2 * k + 1 <= fuel)%nat -> exists r, egcd fuel a b = Some r.
Proof.
  induction k as [|k IH]; intros fuel a b Ha Hf.
  - change (2 ^ Z.of_nat 0) with 1 in Ha. assert (a = 0) by lia; subst.
    destruct fuel as [|fuel]; [lia|]. cbn. eauto.
  - destruct fuel as [|[|fuel]]; [lia|lia|]. cbn [egcd].
    destruct (a =? 0) eqn:Ea; [eauto|].
    set (a1 := b mod a). assert (H1 : 0 <= a1 < a) by (apply Z.mod_pos_bound; lia).
    destruct (a1 =? 0) eqn:Ea1; [eauto|].
    assert (H2 : 0 <= a mod a1 < a1) by (apply Z.mod_pos_bound; lia).
    assert (H3 : a mod a1 < 2 ^ Z.of_nat k).
    { rewrite Nat2Z.inj_succ, Z.pow_succ_r in Ha by lia.
      pose proof (Z.div_mod a a1 ltac:(lia)).
      assert (1 <= a / a1) by (apply Z.div_le_lower_bound; lia). nia. }
    destruct (IH fuel (a mod a1) a1 ltac:(lia) ltac:(lia)) as [[[g y] x] Hr].
    rewrite Hr. eauto.
Qed.

Lemma egcd_fuel_enough a b : 0 <= a -> exists r, egcd (egcd_fuel a) a b = Some r.
Proof.
  intros Ha. apply (egcd_enough (Z.to_nat (Z.log2_up (a + 1)))).
  - rewrite Z2Nat.id by apply Z.log2_up_nonneg. split; [lia|].
    destruct (Z.eq_dec a 0) as [->|]; [reflexivity|].
    pose proof (Z.log2_up_spec (a + 1)). lia.
  - unfold egcd_fuel. lia.
Qed.

Lemma inverse_sound a m b :
  0 <= a -> 0 < m -> inverse a m = Some b -> 0 <= b < m /\ (a * b) mod m = 1 mod m.
Proof.
  intros Ha Hm H. unfold inverse in H.
  destruct (egcd (egcd_fuel a) a m) as [[[g x] y]|] eqn:E; [|discriminate].
  destruct (g =? 1) eqn:Eg; [|discriminate]. inversion H; subst b.
  split; [apply Z.mod_pos_bound; lia|].
  apply egcd_bezout in E. change (eqm m (a * (x mod m)) 1).
  rewrite (eqm_mod_l m x). apply eqm_exists; [lia|]. exists (- y). lia.
Qed.

Lemma inverse_none a m : 0 <= a -> 0 < m -> (inverse a m = None <-> Z.gcd a m <> 1).
Proof.
  intros Ha Hm. unfold inverse.
  destruct (egcd_fuel_enough a m Ha) as [[[g x] y] E]. rewrite E.
  apply egcd_gcd in E; [|lia|lia]. rewrite <- E. destruct (g =? 1) eqn:Eg.
  - split; [discriminate|lia].
  - split; [lia|reflexivity].
Qed.

Lemma inverse_some_iff a m : 0 <= a -> 0 < m ->
  ((exists b, inverse a m = Some b) <-> Z.gcd a m = 1).
Proof.
  intros Ha Hm. pose proof (inverse_none a m Ha Hm).
  destruct (inverse a m) as [b|].
  - split; [|eauto]. intros _. destruct (Z.eq_dec (Z.gcd a m) 1); [assumption|].
    apply H in n. discriminate.
  - split; [intros [? ?]; discriminate|]. intros. exfalso. apply H; auto.
Qed.

(* ------------------------------------------------------------------ *)
(** * Fixed point *)

Lemma quot_trunc n d : 0 < d ->
  Z.abs (Z.quot n d * d - n) < d /\ Z.abs (Z.quot n d * d) <= Z.abs n /\ 0 <= Z.quot n d * n.
Proof.
  intros Hd. pose proof (Z.quot_rem n d ltac:(lia)) as Hq.
  destruct (Z_le_gt_dec 0 n).
  - pose proof (Z.rem_bound_pos n d ltac:(lia) ltac:(lia)).
    pose proof (Z.quot_pos n d ltac:(lia) ltac:(lia)).
    assert (0 <= d * (n ÷ d)) by (apply Z.mul_nonneg_nonneg; lia).
    generalize dependent (n ÷ d). generalize dependent (Z.rem n d). intros r Hr q Hq Hq0 Hdq.
    replace (q * d) with (n - r) by lia.
    repeat split; [lia|lia|apply Z.mul_nonneg_nonneg; lia].
  - pose proof (Z.rem_bound_pos_neg n d ltac:(lia) ltac:(lia)) as Hr.
    assert (n ÷ d <= 0).
    { rewrite <- (Z.opp_involutive n), Z.quot_opp_l by lia.
      pose proof (Z.quot_pos (- n) d ltac:(lia) ltac:(lia)). lia. }
    assert (d * (n ÷ d) <= 0) by (apply Z.mul_nonneg_nonpos; lia).
    generalize dependent (n ÷ d). generalize dependent (Z.rem n d). intros r Hr q Hq Hq0 Hdq.
    replace (q * d) with (n - r) by lia.
    repeat split; [lia|lia|apply Z.mul_nonpos_nonpos; lia].
Qed.

(** The statement of the error bound over exact rationals, cross-multiplied. *)
Lemma decode_encode_err s q : 0 < s ->
  (Qabs (decode s (encode s q) - q) < 1 / inject_Z s)%Q.
Proof.
  intros Hs. destruct q as [n d]. unfold decode, encode. cbn [Qnum Qden].
  destruct (quot_trunc (n * s) (Zpos d) ltac:(lia)) as (H & _ & _).
  set (e := Z.quot (n * s) (Zpos d)) in *.
  assert (Hq : (inject_Z e / inject_Z s - (n # d) ==
               inject_Z (e * Zpos d - n * s) / inject_Z (s * Zpos d))%Q).
  { rewrite (Qmake_Qdiv n d). unfold Zminus.
    rewrite inject_Z_plus, inject_Z_opp, !inject_Z_mult. field.
    split; intros Hc; unfold Qeq in Hc; cbn in Hc; lia. }
  rewrite Hq. unfold Qdiv. rewrite Qabs_Qmult.
  rewrite (Qabs_pos (/ inject_Z (s * Zpos d))).
  2:{ apply Qinv_le_0_compat. unfold Qle. cbn. lia. }
  assert (Habs : (Qabs (inject_Z (e * Zpos d - n * s)) == inject_Z (Z.abs (e * Zpos d - n * s)))%Q).
  { unfold Qabs, inject_Z. reflexivity. }
  rewrite Habs. rewrite Qmult_1_l.
  apply Qlt_shift_div_r; [unfold Qlt; cbn; lia|].
  assert (Hr : (/ inject_Z s * inject_Z (s * Zpos d) == inject_Z (Zpos d))%Q).
  { rewrite inject_Z_mult. field. intros Hc; unfold Qeq in Hc; cbn in Hc; lia. }
  rewrite Hr. rewrite <- Zlt_Qlt. exact H.
Qed.

Lemma encode_exact s k : 0 < s -> encode s (decode s k) = k.
Proof.
  intros Hs. unfold encode, decode. destruct s as [|p|p]; try lia.
  unfold Qdiv, Qinv, Qmult, inject_Z. cbn [Qnum Qden].
  rewrite Pos.mul_1_l, Z.mul_1_r. apply Z.quot_mul. lia.
Qed.

Lemma encode_magnitude s q : 0 < s ->
  (Qabs (decode s (encode s q)) <= Qabs q)%Q.
Proof.
  intros Hs. destruct q as [n d]. unfold decode, encode. cbn [Qnum Qden].
  destruct (quot_trunc (n * s) (Zpos d) ltac:(lia)) as (_ & H & _).
  set (e := Z.quot (n * s) (Zpos d)) in *.
  unfold Qdiv. rewrite Qabs_Qmult.
  destruct s as [|p|p]; try lia. unfold Qabs, Qinv, Qmult, inject_Z, Qle. cbn [Qnum Qden].
  rewrite Pos.mul_1_l. nia.
Qed.

Lemma encode_sign s q : 0 < s -> 0 <= encode s q * Qnum q.
Proof.
  intros Hs. unfold encode.
  destruct (quot_trunc (Qnum q * s) (Zpos (Qden q)) ltac:(lia)) as (_ & _ & H). nia.
Qed.

Lemma encode_mono s q r : 0 < s -> (q <= r)%Q -> encode s q <= encode s r.
Proof.
  intros Hs H. destruct q as [a b], r as [c d]. unfold Qle in H. cbn in H.
  unfold encode. cbn [Qnum Qden].
  rewrite <- (Z.quot_mul_cancel_r (a * s) (Zpos b) (Zpos d)) by lia.
  rewrite <- (Z.quot_mul_cancel_r (c * s) (Zpos d) (Zpos b)) by lia.
  rewrite (Z.mul_comm (Zpos d) (Zpos b)).
  apply Z.quot_le_mono; [lia|]. nia.
Qed.

Lemma encode_Qeq s q r : 0 < s -> (q == r)%Q -> encode s q = encode s r.
Proof.
  intros Hs H. assert (H1 : (q <= r)%Q) by (rewrite H; apply Qle_refl).
  assert (H2 : (r <= q)%Q) by (rewrite H; apply Qle_refl).
  apply (encode_mono s) in H1; [|assumption]. apply (encode_mono s) in H2; [|assumption]. lia.
Qed.

Lemma pond_decode_exact w b z : 0 < w -> 0 <= b ->
  in_s w z -> z + b < 2 ^ (w - 1) -> pond_decode_raw w b z = z.
Proof.
  intros Hw Hb Hz H. unfold pond_decode_raw. unfold in_s in Hz.
  rewrite (swrap_id w (z + b)) by (try assumption; unfold in_s; lia).
  rewrite swrap_id; [lia|assumption|]. unfold in_s; lia.
Qed.

(* ------------------------------------------------------------------ *)
(** * Native ring *)

Definition n_ok c :=
  0 < nw c /\ match nmodulus c with Some p => 1 < p /\ p * p <= 2 ^ (nw c - 1) | None => True end.

Lemma n_modulus_pos c : n_ok c -> 0 < n_modulus c.
Proof.
  intros [Hw H]. unfold n_modulus. destruct (nmodulus c); [lia|apply pow2_pos; lia].
Qed.

Lemma n_norm_val c z : n_ok c ->
  match nmodulus c with Some p => in_s (nw c) z | None => True end ->
  eqm (n_modulus c) (n_norm c z) z.
Proof.
  intros [Hw H] Hz. unfold n_norm, n_modulus. destruct (nmodulus c) as [p|].
  - rewrite swrap_id by assumption. apply eqm_mod_l.
  - apply swrap_eqm; assumption.
Qed.

Lemma n_norm_wf c z : n_ok c -> n_wf c (n_norm c z).
Proof.
  intros [Hw H]. unfold n_norm, n_wf. destruct (nmodulus c) as [p|].
  - apply Z.mod_pos_bound. lia.
  - apply swrap_range; assumption.
Qed.

Lemma lawful_native c : n_ok c -> lawful (native c).
Proof.
  intros Hok. pose proof (n_modulus_pos c Hok) as Hm.
  assert (Hbin : forall z, match nmodulus c with Some p => in_s (nw c) z | None => True end ->
     forall v, eqm (n_modulus c) z v -> n_norm c z mod n_modulus c = v mod n_modulus c).
  { intros z Hz v Hv. change (eqm (n_modulus c) (n_norm c z) v).
    rewrite n_norm_val by assumption. exact Hv. }
  split; cbn [native fmod felt fwf fval fof fadd fsub fmul fneg].
  - exact Hm.
  - intros. apply Z.mod_pos_bound. exact Hm.
  - intros x y Hx Hy H. destruct Hok as [Hw Hok]. unfold n_wf, n_modulus in *.
    destruct (nmodulus c) as [p|].
    + rewrite !Z.mod_small in H by lia. exact H.
    + apply (in_s_eqm_eq (nw c)); assumption.
  - intros z. destruct Hok as [Hw Hok]. unfold n_wf. destruct (nmodulus c) as [p|].
    + apply Z.mod_pos_bound; lia.
    + apply swrap_range; assumption.
  - intros z. destruct Hok as [Hw Hok]. unfold n_modulus. destruct (nmodulus c) as [p|].
    + apply Z.mod_mod; lia.
    + apply swrap_mod; assumption.
  - intros; apply n_norm_wf; assumption.
  - intros; apply n_norm_wf; assumption.
  - intros; apply n_norm_wf; assumption.
  - intros; apply n_norm_wf; assumption.
  - intros x y Hx Hy. apply Hbin.
    + destruct Hok as [Hw Hok]. unfold n_wf in *. destruct (nmodulus c); [|exact I]. unfold in_s. nia.
    + rewrite !eqm_mod_l. reflexivity.
  - intros x y Hx Hy. apply Hbin.
    + destruct Hok as [Hw Hok]. unfold n_wf in *. destruct (nmodulus c); [|exact I]. unfold in_s. nia.
    + rewrite !eqm_mod_l. reflexivity.
  - intros x y Hx Hy. apply Hbin.
    + destruct Hok as [Hw Hok]. unfold n_wf in *. destruct (nmodulus c); [|exact I]. unfold in_s. nia.
    + rewrite !eqm_mod_l. reflexivity.
  - intros x Hx. apply Hbin.
    + destruct Hok as [Hw Hok]. unfold n_wf in *. destruct (nmodulus c); [|exact I]. unfold in_s. nia.
    + rewrite !eqm_mod_l. reflexivity.
Qed.

(** Sums without an explicit modulus. *)
Lemma fold_wrap_sum w l : 0 < w -> forall a,
  eqm (2 ^ w) (fold_left (fun acc x => swrap w (acc + x)) l a) (a + zsum l).
Proof.
  intros Hw. induction l as [|x l IH]; intros a; cbn [fold_left].
  - cbn. apply eqm_eq; ring.
  - rewrite IH. rewrite swrap_eqm by assumption. cbn. apply eqm_eq.
    change (fold_right Z.add 0 l) with (zsum l). ring.
Qed.

Lemma fold_wrap_range {A} w (f : Z -> A -> Z) l : 0 < w -> forall a, in_s w a ->
  in_s w (fold_left (fun acc x => swrap w (f acc x)) l a).
Proof.
  intros Hw. induction l as [|x l IH]; intros a Ha; cbn [fold_left]; [exact Ha|].
  apply IH. apply swrap_range; assumption.
Qed.

(** Sums that never leave the word range are exact. *)
Lemma fold_wrap_exact w l B : 0 < w -> forall a,
  (forall x, In x l -> 0 <= x <= B) -> 0 <= a -> a + Z.of_nat (length l) * B < 2 ^ (w - 1) ->
  0 <= B ->
  fold_left (fun acc x => swrap w (acc + x)) l a = a + zsum l.
Proof.
  intros Hw. induction l as [|x l IH]; intros a Hl Ha Hb HB; cbn [fold_left].
  - cbn. ring.
  - cbn [length] in Hb. rewrite Nat2Z.inj_succ in Hb.
    pose proof (Hl x (or_introl eq_refl)).
    rewrite swrap_id; [|assumption|].
    + rewrite IH; cbn; [change (fold_right Z.add 0 l) with (zsum l); ring| | | |]; try lia.
      * intros y Hy; apply Hl; right; exact Hy.
    + unfold in_s. pose proof (pow2_pos (w-1) ltac:(lia)). nia.
Qed.

Lemma reduce_sum_native w l : 0 < w ->
  eqm (2 ^ w) (n_reduce_sum (MkN w None) l) (zsum l) /\ in_s w (n_reduce_sum (MkN w None) l).
Proof.
  intros Hw. unfold n_reduce_sum. cbn [nw nmodulus]. split.
  - rewrite fold_wrap_sum by assumption. apply eqm_eq. ring.
  - apply (fold_wrap_range w (fun acc x => acc + x)); [assumption|].
    unfold in_s. pose proof (pow2_pos (w-1) ltac:(lia)). lia.
Qed.

Lemma reduce_sum_prime w p l : 0 < w -> 0 < p ->
  (forall x, In x l -> 0 <= x < p) -> Z.of_nat (length l) * (p - 1) < 2 ^ (w - 1) ->
  n_reduce_sum (MkN w (Some p)) l = zsum l mod p.
Proof.
  intros Hw Hp Hl Hb. unfold n_reduce_sum. cbn [nw nmodulus].
  rewrite (fold_wrap_exact w l (p - 1)); [f_equal; ring|lia| |lia|lia|lia].
  intros x Hx; specialize (Hl x Hx); lia.
Qed.

(* cumsum *)
Lemma scan_from_length w l : forall a, length (scan_from w a l) = length l.
Proof. induction l; intros; cbn; [reflexivity|]. f_equal. apply IHl. Qed.
Lemma scan_ex_from_length w l : forall a, length (scan_ex_from w a l) = length l.
Proof. induction l; intros; cbn; [reflexivity|]. f_equal. apply IHl. Qed.

Lemma scan_from_nth w l : 0 < w -> forall a i, (i < length l)%nat ->
  eqm (2 ^ w) (nth i (scan_from w a l) 0) (a + zsum (firstn (S i) l)).
Proof.
  intros Hw. induction l as [|x l IH]; intros a i Hi; cbn in Hi; [lia|].
  cbn [scan_from firstn zsum fold_right]. destruct i as [|i]; cbn [nth].
  - rewrite swrap_eqm by assumption. cbn. apply eqm_eq; ring.
  - rewrite IH by lia. rewrite swrap_eqm by assumption. apply eqm_eq.
    change (fold_right Z.add 0 (firstn (S i) l)) with (zsum (firstn (S i) l)). ring.
Qed.
Lemma scan_ex_from_nth w l : 0 < w -> forall a i, (i < length l)%nat ->
  eqm (2 ^ w) (nth i (scan_ex_from w a l) 0) (a + zsum (firstn i l)).
Proof.
  intros Hw. induction l as [|x l IH]; intros a i Hi; cbn in Hi; [lia|].
  cbn [scan_ex_from]. destruct i as [|i]; cbn [nth firstn].
  - cbn. apply eqm_eq; ring.
  - rewrite IH by lia. rewrite swrap_eqm by assumption. apply eqm_eq. cbn [zsum fold_right].
    change (fold_right Z.add 0 (firstn i l)) with (zsum (firstn i l)). ring.
Qed.

Lemma zsum_rev l : zsum (rev l) = zsum l.
Proof.
  induction l as [|x l IH]; cbn [rev]; [reflexivity|].
  rewrite zsum_app, IH. cbn. unfold zsum. ring.
Qed.

(** What tf.cumsum is documented to return at position [i]. *)
Definition cumsum_spec (exclusive reverse : bool) (l : list Z) (i : nat) : Z :=
  match reverse, exclusive with
  | false, false => zsum (firstn (S i) l)
  | false, true => zsum (firstn i l)
  | true, false => zsum (skipn i l)
  | true, true => zsum (skipn (S i) l)
  end.

Lemma n_cumsum_length c e r l : length (n_cumsum c e r l) = length l.
Proof.
  unfold n_cumsum. rewrite map_length.
  destruct e, r; rewrite ?rev_length, ?scan_from_length, ?scan_ex_from_length, ?rev_length; reflexivity.
Qed.

Lemma n_cumsum_nth w e r l i : 0 < w -> (i < length l)%nat ->
  eqm (2 ^ w) (nth i (n_cumsum (MkN w None) e r l) 0) (cumsum_spec e r l i).
Proof.
  intros Hw Hi. unfold n_cumsum. cbn [nw nmodulus]. rewrite map_id.
  destruct r, e; cbn [cumsum_spec].
  - rewrite rev_nth; rewrite scan_ex_from_length, rev_length; [|exact Hi].
    rewrite scan_ex_from_nth; [|assumption|rewrite rev_length; lia].
    rewrite firstn_rev. rewrite zsum_rev.
    replace (length l - (length l - S i))%nat with (S i) by lia. apply eqm_eq; ring.
  - rewrite rev_nth; rewrite scan_from_length, rev_length; [|exact Hi].
    rewrite scan_from_nth; [|assumption|rewrite rev_length; lia].
    rewrite firstn_rev. rewrite zsum_rev.
    replace (length l - S (length l - S i))%nat with i by lia. apply eqm_eq; ring.
  - rewrite scan_ex_from_nth by assumption. apply eqm_eq; ring.
  - rewrite scan_from_nth by assumption. apply eqm_eq; ring.
Qed.

(** Mathematical inner product. *)
Definition zdot (xs ys : list Z) : Z := zsum (map (fun p => fst p * snd p) (combine xs ys)).

Lemma n_dot_native w xs ys : 0 < w ->
  eqm (2 ^ w) (n_dot (MkN w None) xs ys) (zdot xs ys) /\ in_s w (n_dot (MkN w None) xs ys).
Proof.
  intros Hw. unfold n_dot, zdot. cbn [nw nmodulus]. split.
  - assert (H : forall l a, eqm (2 ^ w)
       (fold_left (fun acc p => swrap w (acc + swrap w (fst p * snd p))) l a)
       (a + zsum (map (fun p : Z * Z => fst p * snd p) l))).
    { induction l as [|[x y] l IH]; intros a; cbn [fold_left map zsum fold_right].
      - apply eqm_eq; ring.
      - rewrite IH, swrap_eqm, swrap_eqm by assumption. apply eqm_eq.
        change (fold_right Z.add 0) with zsum. ring. }
    rewrite H. apply eqm_eq; ring.
  - apply (fold_wrap_range w (fun acc (p : Z * Z) => acc + swrap w (fst p * snd p))); [assumption|].
    unfold in_s. pose proof (pow2_pos (w-1) ltac:(lia)). lia.
Qed.

Lemma n_dot_prime w p xs ys : 0 < w -> 1 < p ->
  (forall x, In x xs -> 0 <= x < p) -> (forall y, In y ys -> 0 <= y < p) ->
  Z.of_nat (length xs) * ((p - 1) * (p - 1)) < 2 ^ (w - 1) -> (p - 1) * (p - 1) < 2 ^ (w - 1) ->
  n_dot (MkN w (Some p)) xs ys = zdot xs ys mod p.
Proof.
  intros Hw Hp Hx Hy Hb Hb1. unfold n_dot, zdot. cbn [nw nmodulus]. f_equal.
  assert (H : forall l a, (forall q, In q l -> 0 <= fst q < p /\ 0 <= snd q < p) -> 0 <= a ->
     a + Z.of_nat (length l) * ((p - 1) * (p - 1)) < 2 ^ (w - 1) ->
     fold_left (fun acc p => swrap w (acc + swrap w (fst p * snd p))) l a =
     a + zsum (map (fun p : Z * Z => fst p * snd p) l)).
  { induction l as [|[x y] l IH]; intros a Hl Ha Hbb; cbn [fold_left map zsum fold_right].
    - ring.
    - destruct (Hl (x, y) (or_introl eq_refl)) as [H1 H2]. cbn [fst snd] in *.
      cbn [length] in Hbb. rewrite Nat2Z.inj_succ in Hbb.
      assert (0 <= x * y <= (p - 1) * (p - 1)) by nia.
      assert (0 <= Z.of_nat (length l) * ((p - 1) * (p - 1))) by nia.
      assert (0 < 2 ^ (w - 1)) by (apply pow2_pos; lia).
      rewrite (swrap_id w (x * y)); [|assumption|unfold in_s; lia].
      rewrite (swrap_id w (a + x * y)); [|assumption|unfold in_s; nia].
      rewrite IH; [change (fold_right Z.add 0) with zsum; ring| |lia|nia].
      intros q Hq; apply Hl; right; exact Hq. }
  rewrite H; [ring| |lia|].
  - intros [x y] Hq. split; [apply Hx; eapply in_combine_l; eauto|apply Hy; eapply in_combine_r; eauto].
  - assert (length (combine xs ys) <= length xs)%nat by (rewrite combine_length; lia).
    assert (0 <= (p-1)*(p-1)) by nia. nia.
Qed.

Lemma n_matmul_entry c n a b i j : (i < length a)%nat -> (j < n)%nat ->
  nth j (nth i (n_matmul c n a b) []) 0 = n_dot c (nth i a []) (col j b).
Proof.
  intros Hi Hj. unfold n_matmul.
  set (f := fun r => map (fun j0 => n_dot c r (col j0 b)) (seq 0 n)).
  rewrite (nth_indep (map f a) [] (f [])) by (rewrite map_length; exact Hi).
  rewrite map_nth. unfold f.
  rewrite (nth_indep _ 0 (n_dot c (nth i a []) (col 0 b))) by (rewrite map_length, seq_length; exact Hj).
  rewrite (map_nth (fun j0 => n_dot c (nth i a []) (col j0 b)) (seq 0 n) 0%nat j).
  rewrite seq_nth by exact Hj. reflexivity.
Qed.

(* ------------------------------------------------------------------ *)
(** * Truncation and shifts *)

Lemma shiftr_range w x k : 0 < w -> 0 <= k -> in_s w x -> in_s w (Z.shiftr x k).
Proof.
  intros Hw Hk [H1 H2]. rewrite Z.shiftr_div_pow2 by assumption. pose proof (pow2_pos k Hk).
  pose proof (pow2_pos (w-1) ltac:(lia)).
  split.
  - apply Z.div_le_lower_bound; nia.
  - apply Z.div_lt_upper_bound; nia.
Qed.

Lemma div_abs_range w x f : 0 < w -> 0 < f -> in_s w x -> in_s w (x / f).
Proof.
  intros Hw Hf [H1 H2]. pose proof (pow2_pos (w-1) ltac:(lia)). split.
  - apply Z.div_le_lower_bound; nia.
  - apply Z.div_lt_upper_bound; nia.
Qed.

Lemma truncate_floor w x amount base r : 0 < w -> 0 <= amount -> 0 < base -> in_s w x ->
  n_truncate (MkN w None) x amount base = Some r -> r = x / base ^ amount.
Proof.
  intros Hw Ha Hb Hx H. unfold n_truncate in H. destruct (base =? 2) eqn:Eb.
  - inversion H; subst. assert (base = 2) by lia; subst. unfold n_rshift.
    apply Z.shiftr_div_pow2; assumption.
  - set (f := base ^ amount) in *. assert (Hf : 0 < f) by (apply Z.pow_pos_nonneg; lia).
    destruct (inverse f (n_modulus (MkN w None))) as [fi|] eqn:E; [|discriminate].
    inversion H; subst r. apply inverse_sound in E; [|lia|unfold n_modulus; cbn; apply pow2_pos; lia].
    unfold n_modulus in E; cbn [nmodulus nw] in E. destruct E as [_ E].
    unfold n_mul, n_sub, n_mod, n_norm, n_lift; cbn [nmodulus nw].
    apply (in_s_eqm_eq w); [assumption|apply swrap_range; assumption|apply div_abs_range; assumption|].
    rewrite !swrap_eqm by assumption.
    assert (Hd : x - x mod f = f * (x / f)) by (pose proof (Z.div_mod x f ltac:(lia)); lia).
    rewrite Hd. replace (f * (x / f) * fi) with ((f * fi) * (x / f)) by ring.
    assert (E' : eqm (2 ^ w) (f * fi) 1) by exact E. rewrite E'. apply eqm_eq; ring.
Qed.

Lemma truncate_defined w amount base x : 0 < w -> 0 <= amount -> 0 < base -> Z.odd base = true ->
  exists r, n_truncate (MkN w None) x amount base = Some r.
Proof.
  intros Hw Ha Hb Ho. unfold n_truncate. destruct (base =? 2) eqn:Eb; [eauto|].
  assert (Hg : Z.gcd (base ^ amount) (n_modulus (MkN w None)) = 1).
  { unfold n_modulus; cbn [nmodulus nw].
    apply Zgcd_1_rel_prime. apply rel_prime_sym. apply rel_prime_Zpower_r; [lia|].
    apply rel_prime_sym. apply rel_prime_Zpower_r; [lia|].
    apply Zgcd_1_rel_prime. rewrite Zodd_mod in Ho. apply Zeq_bool_eq in Ho.
    rewrite Z.gcd_comm. rewrite <- Z.gcd_mod by lia. rewrite Ho. reflexivity. }
  apply inverse_some_iff in Hg.
  - destruct Hg as [b ->]. eauto.
  - apply Z.pow_nonneg; lia.
  - unfold n_modulus; cbn. apply pow2_pos; lia.
Qed.

Lemma truncate_even_undefined w amount base x : 0 < w -> 0 < amount -> 0 < base ->
  Z.even base = true -> base <> 2 -> n_truncate (MkN w None) x amount base = None.
Proof.
  intros Hw Ha Hb He Hn. unfold n_truncate. destruct (base =? 2) eqn:Eb; [lia|].
  assert (inverse (base ^ amount) (n_modulus (MkN w None)) = None) as ->; [|reflexivity].
  apply inverse_none.
  - apply Z.pow_nonneg; lia.
  - unfold n_modulus; cbn; apply pow2_pos; lia.
  - unfold n_modulus; cbn [nmodulus nw]. intros Hg.
    assert (H2 : (2 | Z.gcd (base ^ amount) (2 ^ w))).
    { apply Z.gcd_greatest.
      - replace amount with (Z.succ (amount - 1)) by lia. rewrite Z.pow_succ_r by lia.
        apply Z.divide_mul_l. apply Z.even_spec in He. destruct He as [k ->]. exists k; ring.
      - replace w with (Z.succ (w - 1)) by lia. rewrite Z.pow_succ_r by lia.
        apply Z.divide_mul_l. apply Z.divide_refl. }
    rewrite Hg in H2. apply Z.divide_1_r_nonneg in H2; lia.
Qed.

Lemma land_ones_mask w k : 0 <= k <= w -> Z.lnot (Z.shiftl (-1) (w - k)) = Z.ones (w - k).
Proof.
  intros H. unfold Z.ones. rewrite Z.shiftl_mul_pow2, Z.shiftl_mul_pow2 by lia.
  unfold Z.lnot. lia.
Qed.

Lemma mod_div_pow x w k : 0 <= k <= w -> (x / 2 ^ k) mod 2 ^ (w - k) = (x mod 2 ^ w) / 2 ^ k.
Proof.
  intros H. replace (2 ^ w) with (2 ^ k * 2 ^ (w - k)) by (rewrite <- pow2_split by lia; f_equal; lia).
  pose proof (pow2_pos k ltac:(lia)). pose proof (pow2_pos (w - k) ltac:(lia)).
  rewrite Z.rem_mul_r by lia.
  rewrite Z.mul_comm, Z.div_add by lia. rewrite (Z.div_small (x mod 2 ^ k)); [lia|].
  apply Z.mod_pos_bound; lia.
Qed.

Lemma logical_rshift_spec w x k : 0 < w -> 0 <= k < w -> in_s w x ->
  exists r, n_logical_rshift w x k = Some r /\ uwrap w r = uwrap w x / 2 ^ k /\ in_s w r.
Proof.
  intros Hw Hk Hx. unfold n_logical_rshift.
  destruct (k <? 0) eqn:E1; [lia|]. destruct (k =? 0) eqn:E2.
  - assert (k = 0) by lia; subst. exists x. split; [reflexivity|].
    change (2 ^ 0) with 1. rewrite Z.div_1_r. auto.
  - eexists; split; [reflexivity|]. rewrite land_ones_mask by lia.
    rewrite Z.land_ones by lia. rewrite Z.shiftr_div_pow2 by lia. rewrite mod_div_pow by lia.
    pose proof (uwrap_range w x ltac:(lia)) as Hu. fold (uwrap w x).
    assert (Hd : 0 <= uwrap w x / 2 ^ k < 2 ^ (w - 1)).
    { split; [apply Z.div_pos; [lia|apply pow2_pos; lia]|].
      apply Z.div_lt_upper_bound; [apply pow2_pos; lia|].
      rewrite <- pow2_split by lia.
      assert (2 ^ w <= 2 ^ (k + (w - 1))) by (apply Z.pow_le_mono_r; lia). lia. }
    split; [|unfold in_s; lia]. unfold uwrap at 1. apply Z.mod_small.
    pose proof (pow2_half w Hw). lia.
Qed.

Lemma logical_rshift_neg w x k : k < 0 -> n_logical_rshift w x k = None.
Proof. intros. unfold n_logical_rshift. destruct (k <? 0) eqn:E; [reflexivity|lia]. Qed.

(* ------------------------------------------------------------------ *)
(** * Bits *)

(** Value of a little-endian list of bits. *)
Fixpoint bits_value (l : list Z) : Z :=
  match l with [] => 0 | b :: l' => b + 2 * bits_value l' end.

Lemma land1_mod x : Z.land x 1 = x mod 2.
Proof. change 1 with (Z.ones 1). rewrite Z.land_ones by lia. reflexivity. Qed.

Lemma binarize_cons n x : binarize (S n) x = x mod 2 :: binarize n (x / 2).
Proof.
  unfold binarize. cbn [seq map]. f_equal.
  - rewrite land1_mod. rewrite Z.shiftr_0_r. reflexivity.
  - rewrite <- seq_shift, map_map. apply map_ext. intros i. f_equal.
    rewrite Nat2Z.inj_succ. change (x / 2) with (x / 2 ^ 1). rewrite <- (Z.shiftr_div_pow2 x 1) by lia.
    rewrite Z.shiftr_shiftr by lia. f_equal. lia.
Qed.

Lemma binarize_length n x : length (binarize n x) = n.
Proof. unfold binarize. rewrite map_length, seq_length. reflexivity. Qed.

Lemma binarize_value n : forall x, bits_value (binarize n x) = x mod 2 ^ Z.of_nat n.
Proof.
  induction n as [|n IH]; intros x.
  - cbn. rewrite Z.mod_1_r. reflexivity.
  - rewrite binarize_cons. cbn [bits_value]. rewrite IH.
    rewrite Nat2Z.inj_succ, Z.pow_succ_r by lia.
    rewrite Z.rem_mul_r by (try lia; apply Z.pow_pos_nonneg; lia). reflexivity.
Qed.

Lemma binarize_bits n : forall x b, In b (binarize n x) -> b = 0 \/ b = 1.
Proof.
  intros x b H. unfold binarize in H. apply in_map_iff in H. destruct H as [i [<- _]].
  rewrite land1_mod. pose proof (Z.mod_pos_bound (Z.shiftr x (Z.of_nat i)) 2). lia.
Qed.

Lemma binarize_nth n x i : (i < n)%nat -> nth i (binarize n x) 0 = Z.b2z (Z.testbit x (Z.of_nat i)).
Proof.
  intros H. unfold binarize.
  rewrite (nth_indep _ 0 (Z.land (Z.shiftr x (Z.of_nat 0)) 1)) by (rewrite map_length, seq_length; exact H).
  rewrite (map_nth (fun i0 => Z.land (Z.shiftr x (Z.of_nat i0)) 1) (seq 0 n) 0%nat i).
  rewrite seq_nth by exact H. cbn [Nat.add]. rewrite land1_mod.
  rewrite Z.testbit_spec' by lia. rewrite Z.shiftr_div_pow2 by lia. reflexivity.
Qed.

Lemma binarize_inj w x y : in_s (Z.of_nat w) x -> in_s (Z.of_nat w) y -> (0 < w)%nat ->
  binarize w x = binarize w y -> x = y.
Proof.
  intros Hx Hy Hw H. apply (in_s_eqm_eq (Z.of_nat w)); try assumption; [lia|].
  unfold eqm. rewrite <- !binarize_value, H. reflexivity.
Qed.
