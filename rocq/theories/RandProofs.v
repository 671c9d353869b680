(** Lemmas about the sampler. *)
From Coq Require Import Permutation.
From Verif Require Import Base RandModel RandSpec.

(** ** Arithmetic of the rejection zone *)
Lemma uwrap_id w z : 0 <= w -> 0 <= z < 2 ^ w -> uwrap w z = z.
Proof. intros. unfold uwrap. apply Z.mod_small. lia. Qed.

Lemma uwrap_swrap w z : 0 < w -> uwrap w (swrap w z) = uwrap w z.
Proof. intros. unfold uwrap. apply swrap_eqm. lia. Qed.

Lemma u_range_ok w low high :
  1 <= w -> in_s w low -> in_s w high -> low <= high -> high - low + 1 < 2 ^ w ->
  u_range w low high = high - low + 1.
Proof.
  intros Hw Hl Hh Hle Hr. unfold u_range.
  rewrite <- (uwrap_id w (high - low + 1)) by lia.
  unfold uwrap. rewrite <- Zplus_mod_idemp_l, <- Zminus_mod, Zplus_mod_idemp_l.
  reflexivity.
Qed.

Lemma u_range_full w : 1 <= w -> u_range w (- 2 ^ (w - 1)) (2 ^ (w - 1) - 1) = 0.
Proof.
  intros Hw. unfold u_range, uwrap.
  rewrite <- Zplus_mod_idemp_l, <- Zminus_mod, Zplus_mod_idemp_l.
  replace (2 ^ (w - 1) - 1 - - 2 ^ (w - 1) + 1) with (1 * 2 ^ w)
    by (rewrite (pow2_half w) by lia; ring).
  apply Z.mod_mul. pose proof (pow2_pos w). lia.
Qed.

Lemma reject_ok w r : 0 <= w -> 1 <= r < 2 ^ w -> ints_to_reject w r = 2 ^ w mod r.
Proof.
  intros. unfold ints_to_reject, u_max.
  replace (2 ^ w - 1 - r + 1) with (2 ^ w + (-1) * r) by ring.
  apply Z.mod_add. lia.
Qed.

Lemma zone_ok w r : 0 <= w -> 1 <= r < 2 ^ w -> zone w r + 1 = r * (2 ^ w / r).
Proof.
  intros. unfold zone. rewrite reject_ok by assumption. unfold u_max.
  pose proof (Z.div_mod (2 ^ w) r). lia.
Qed.

Lemma signed_add_ok w a b :
  2 <= w -> in_s w a -> 0 <= b -> in_s w (a + b) -> signed_add w a b = a + b.
Proof.
  intros Hw Ha Hb Hab. unfold signed_add.
  rewrite Z.shiftr_div_pow2 by lia. change (2 ^ 1) with 2.
  pose proof (pow2_half w). unfold in_s in *.
  assert (0 <= b / 2 <= b) by (split; [apply Z.div_pos; lia|apply Z.div_le_upper_bound; lia]).
  assert (2 * (b / 2) <= b < 2 * (b / 2) + 2) by
    (pose proof (Z.div_mod b 2); pose proof (Z.mod_pos_bound b 2); lia).
  assert (2 <= 2 ^ (w - 1)) by (change 2 with (2 ^ 1) at 1; apply Z.pow_le_mono_r; lia).
  assert (Hb2 : b < 2 ^ w) by lia.
  assert (E1 : swrap w (b / 2) = b / 2) by (apply swrap_id; [lia|unfold in_s; lia]).
  rewrite E1.
  rewrite (swrap_id w (a + b / 2)) by (try lia; unfold in_s; lia).
  destruct (Z.eq_dec (b - b / 2) (2 ^ (w - 1))) as [E|E].
  - apply in_s_eqm_eq with (w := w); [lia|apply swrap_range; lia|unfold in_s; lia|].
    rewrite !swrap_eqm by lia. apply eqm_eq. lia.
  - rewrite (swrap_id w (b - b / 2)) by (try lia; unfold in_s; lia).
    rewrite swrap_id by (try lia; unfold in_s; lia). lia.
Qed.

Lemma place_ok w low r word :
  2 <= w -> in_s w low -> 1 <= r -> in_s w (low + r - 1) ->
  place w low r word = low + uwrap w word mod r.
Proof.
  intros Hw Hl Hr Hh. unfold place.
  pose proof (Z.mod_pos_bound (uwrap w word) r).
  apply signed_add_ok; [lia|assumption|lia|unfold in_s in *; lia].
Qed.

(** ** Counting *)
Lemma count_by {A} (f : A -> bool) (l m : list A) :
  NoDup l -> NoDup m -> (forall x, In x m <-> In x l /\ f x = true) ->
  length (filter f l) = length m.
Proof.
  intros Hl Hm H. apply Permutation_length, NoDup_Permutation;
    [apply NoDup_filter; exact Hl|exact Hm|].
  intros x. rewrite filter_In, H. tauto.
Qed.

Lemma swrap_inj w a b :
  1 <= w -> 0 <= a < 2 ^ w -> 0 <= b < 2 ^ w -> swrap w a = swrap w b -> a = b.
Proof.
  intros Hw Ha Hb E.
  assert (uwrap w (swrap w a) = uwrap w (swrap w b)) by (rewrite E; reflexivity).
  rewrite !uwrap_swrap, !uwrap_id in H by lia. exact H.
Qed.

Lemma NoDup_map_inj {A B} (f : A -> B) (l : list A) :
  (forall x y, In x l -> In y l -> f x = f y -> x = y) -> NoDup l -> NoDup (map f l).
Proof.
  intros Hi Hl. induction Hl as [|x l Hx Hl IH]; cbn [map]; constructor.
  - rewrite in_map_iff. intros (y & E & Hy). apply Hx.
    rewrite <- (Hi y x); [exact Hy|right; exact Hy|left; reflexivity|exact E].
  - apply IH. intros; apply Hi; try right; assumption.
Qed.

Lemma all_words_NoDup w : 1 <= w -> NoDup (all_words w).
Proof.
  intros Hw. apply NoDup_map_inj; [|apply seq_NoDup].
  intros x y Hx Hy E. rewrite in_seq in Hx, Hy.
  pose proof (pow2_pos w).
  apply Nat2Z.inj. apply (swrap_inj w); [lia|lia|lia|exact E].
Qed.

Lemma all_words_In w x : 1 <= w -> In x (all_words w) <-> in_s w x.
Proof.
  intros Hw. unfold all_words. rewrite in_map_iff. pose proof (pow2_pos w). split.
  - intros (k & <- & _). apply swrap_range. lia.
  - intros Hx. exists (Z.to_nat (uwrap w x)).
    pose proof (Z.mod_pos_bound x (2 ^ w)). unfold uwrap in *.
    split.
    + rewrite Z2Nat.id by lia. apply in_s_eqm_eq with (w := w);
        [lia|apply swrap_range; lia|exact Hx|].
      rewrite swrap_eqm by lia. apply eqm_mod_l.
    + apply in_seq. lia.
Qed.

(** Words accepted and sent to offset [c]: one per multiple of the range. *)
Lemma count_residue w r c :
  2 <= w -> 1 <= r < 2 ^ w -> 0 <= c < r ->
  how_many w (fun x => (uwrap w x <=? zone w r) && (uwrap w x mod r =? c)) = 2 ^ w / r.
Proof.
  intros Hw Hr Hc. unfold how_many.
  pose proof (zone_ok w r ltac:(lia) Hr) as Hz.
  assert (Hq : 0 <= 2 ^ w / r) by (apply Z.div_pos; lia).
  assert (Hqr : r * (2 ^ w / r) <= 2 ^ w) by (apply Z.mul_div_le; lia).
  rewrite (count_by _ _
    (map (fun j => swrap w (Z.of_nat j * r + c)) (seq 0 (Z.to_nat (2 ^ w / r))))).
  - rewrite map_length, seq_length. lia.
  - apply all_words_NoDup. lia.
  - apply NoDup_map_inj; [|apply seq_NoDup].
    intros x y Hx Hy E. rewrite in_seq in Hx, Hy.
    apply swrap_inj in E; [nia|lia|nia|nia].
  - intros x. rewrite all_words_In by lia. rewrite in_map_iff. split.
    + intros (j & <- & Hj). rewrite in_seq in Hj. split; [apply swrap_range; lia|].
      rewrite uwrap_swrap by lia.
      assert (0 <= Z.of_nat j * r + c < r * (2 ^ w / r)) by nia.
      rewrite uwrap_id by lia.
      rewrite Z.add_comm, Z.mod_add by lia. rewrite (Z.mod_small c r) by lia.
      apply andb_true_intro. split; [apply Z.leb_le; lia|apply Z.eqb_refl].
    + intros (Hx & H). apply andb_prop in H. destruct H as [H1 H2].
      apply Z.leb_le in H1. apply Z.eqb_eq in H2.
      pose proof (Z.mod_pos_bound x (2 ^ w)). unfold uwrap in *.
      set (u := x mod 2 ^ w) in *.
      pose proof (Z.div_mod u r).
      assert (0 <= u / r) by (apply Z.div_pos; lia).
      assert (u / r < 2 ^ w / r) by (apply Z.div_lt_upper_bound; lia).
      exists (Z.to_nat (u / r)). split; [|apply in_seq; lia].
      rewrite Z2Nat.id by lia.
      replace (u / r * r + c) with u by lia.
      apply in_s_eqm_eq with (w := w); [lia|apply swrap_range; lia|exact Hx|].
      rewrite swrap_eqm by lia. apply eqm_mod_l.
Qed.

Lemma count_reject w r :
  2 <= w -> 1 <= r < 2 ^ w ->
  how_many w (fun x => zone w r <? uwrap w x) = 2 ^ w mod r.
Proof.
  intros Hw Hr. unfold how_many.
  pose proof (zone_ok w r ltac:(lia) Hr) as Hz.
  pose proof (Z.div_mod (2 ^ w) r). pose proof (Z.mod_pos_bound (2 ^ w) r).
  assert (0 <= 2 ^ w / r) by (apply Z.div_pos; lia).
  rewrite (count_by _ _
    (map (fun j => swrap w (zone w r + 1 + Z.of_nat j)) (seq 0 (Z.to_nat (2 ^ w mod r))))).
  - rewrite map_length, seq_length. lia.
  - apply all_words_NoDup. lia.
  - apply NoDup_map_inj; [|apply seq_NoDup].
    intros x y Hx Hy E. rewrite in_seq in Hx, Hy.
    apply swrap_inj in E; [lia|lia|nia|nia].
  - intros x. rewrite all_words_In by lia. rewrite in_map_iff. split.
    + intros (j & <- & Hj). rewrite in_seq in Hj. split; [apply swrap_range; lia|].
      rewrite uwrap_swrap by lia. rewrite uwrap_id by nia. apply Z.ltb_lt. lia.
    + intros (Hx & Hr1). apply Z.ltb_lt in Hr1.
      pose proof (Z.mod_pos_bound x (2 ^ w)). unfold uwrap in *.
      exists (Z.to_nat (x mod 2 ^ w - (zone w r + 1))). split; [|apply in_seq; lia].
      rewrite Z2Nat.id by lia.
      replace (zone w r + 1 + _) with (x mod 2 ^ w) by ring.
      apply in_s_eqm_eq with (w := w); [lia|apply swrap_range; lia|exact Hx|].
      rewrite swrap_eqm by lia. apply eqm_mod_l.
Qed.

Lemma how_many_ext w f g : (forall x, f x = g x) -> how_many w f = how_many w g.
Proof.
  intros H. unfold how_many. do 2 f_equal. apply filter_ext. exact H.
Qed.

Lemma how_many_none w f : (forall x, f x = false) -> how_many w f = 0.
Proof.
  intros H. unfold how_many. replace (filter f (all_words w)) with (@nil Z); [reflexivity|].
  induction (all_words w) as [|a l IH]; cbn [filter]; [reflexivity|].
  rewrite H. exact IH.
Qed.

(** One word through the sampler. *)
Lemma turns_into_eq w low high v word :
  2 <= w -> in_s w low -> in_s w high -> low <= high -> high - low + 1 < 2 ^ w ->
  let r := high - low + 1 in
  turns_into w low high v word =
  (uwrap w word <=? zone w r) && (uwrap w word mod r =? v - low).
Proof.
  intros Hw Hl Hh Hle Hr r. unfold turns_into, uniform.
  rewrite u_range_ok by (try assumption; lia). fold r.
  destruct (Z.eqb_spec r 0) as [E|_]; [lia|].
  cbn [fill redraw]. unfold rejected.
  destruct (Z.ltb_spec (zone w r) (uwrap w word)) as [H|H].
  - destruct (Z.leb_spec (uwrap w word) (zone w r)); [lia|reflexivity].
  - destruct (Z.leb_spec (uwrap w word) (zone w r)); [|lia]. cbn [andb].
    rewrite place_ok by (try assumption; try lia; unfold r; replace (low + _ - 1) with high by lia; assumption).
    destruct (Z.eqb_spec (low + uwrap w word mod r) v);
      destruct (Z.eqb_spec (uwrap w word mod r) (v - low)); lia || reflexivity.
Qed.

Lemma asks_again_eq w low high word :
  2 <= w -> in_s w low -> in_s w high -> low <= high -> high - low + 1 < 2 ^ w ->
  asks_again w low high word = (zone w (high - low + 1) <? uwrap w word).
Proof.
  intros Hw Hl Hh Hle Hr. unfold asks_again, uniform.
  rewrite u_range_ok by (try assumption; lia). set (r := high - low + 1) in *.
  destruct (Z.eqb_spec r 0) as [E|_]; [lia|].
  cbn [fill redraw]. unfold rejected.
  destruct (Z.ltb_spec (zone w r) (uwrap w word)); reflexivity.
Qed.

(** ** Whole runs *)
Section Runs.
  Context {S : Type}.
  Variable next : S -> Z * S.

  Lemma redraw_accepted fuel w r word s word' s' :
    redraw next fuel w r word s = Done (word', s') -> rejected w r word' = false.
  Proof.
    revert word s. induction fuel as [|fuel IH]; intros word s; cbn [redraw];
      destruct (rejected w r word) eqn:E; try discriminate.
    - intros [= <- <-]. exact E.
    - destruct (next s) as [wd s1]. apply IH.
    - intros [= <- <-]. exact E.
  Qed.

  Lemma redraw_mono f1 f2 w r word s a b :
    redraw next f1 w r word s = Done a -> redraw next f2 w r word s = Done b -> a = b.
  Proof.
    revert f2 word s. induction f1 as [|f1 IH]; intros f2 word s;
      destruct f2 as [|f2]; cbn [redraw]; destruct (rejected w r word);
      try discriminate; try congruence.
    destruct (next s). apply IH.
  Qed.

  Lemma redraw_more f1 f2 w r word s a :
    (f1 <= f2)%nat -> redraw next f1 w r word s = Done a ->
    redraw next f2 w r word s = Done a.
  Proof.
    revert f2 word s. induction f1 as [|f1 IH]; intros f2 word s Hf;
      destruct f2 as [|f2]; cbn [redraw]; destruct (rejected w r word);
      try discriminate; try congruence; try lia.
    destruct (next s). apply IH. lia.
  Qed.

  Lemma fill_mono f1 f2 w low r buf s a b :
    fill next f1 w low r buf s = Done a -> fill next f2 w low r buf s = Done b -> a = b.
  Proof.
    revert s a b. induction buf as [|word buf IH]; intros s a b; cbn [fill]; [congruence|].
    destruct (redraw next f1 w r word s) as [[w1 s1]| | |] eqn:E1; try discriminate.
    destruct (redraw next f2 w r word s) as [[w2 s2]| | |] eqn:E2; try discriminate.
    pose proof (redraw_mono _ _ _ _ _ _ _ _ E1 E2) as [= <- <-].
    destruct (fill next f1 w low r buf s1) as [[o1 t1]| | |] eqn:F1; try discriminate.
    destruct (fill next f2 w low r buf s1) as [[o2 t2]| | |] eqn:F2; try discriminate.
    pose proof (IH _ _ _ F1 F2) as [= <- <-]. congruence.
  Qed.

  Lemma fill_more f1 f2 w low r buf s a :
    (f1 <= f2)%nat -> fill next f1 w low r buf s = Done a ->
    fill next f2 w low r buf s = Done a.
  Proof.
    intros Hf. revert s a. induction buf as [|word buf IH]; intros s a; cbn [fill]; [congruence|].
    destruct (redraw next f1 w r word s) as [[w1 s1]| | |] eqn:E1; try discriminate.
    rewrite (redraw_more _ _ _ _ _ _ _ Hf E1).
    destruct (fill next f1 w low r buf s1) as [[o1 t1]| | |] eqn:F1; try discriminate.
    rewrite (IH _ _ F1). congruence.
  Qed.

  Lemma fill_length f w low r buf s out s' :
    fill next f w low r buf s = Done (out, s') -> length out = length buf.
  Proof.
    revert s out. induction buf as [|word buf IH]; intros s out; cbn [fill].
    - intros [= <- <-]. reflexivity.
    - destruct (redraw next f w r word s) as [[w1 s1]| | |] eqn:E1; try discriminate.
      destruct (fill next f w low r buf s1) as [[o1 t1]| | |] eqn:F1; try discriminate.
      intros [= <- <-]. cbn [length]. f_equal. eapply IH, F1.
  Qed.

  Lemma fill_Forall (P : Z -> Prop) f w low r buf s out s' :
    (forall word, rejected w r word = false -> P (place w low r word)) ->
    fill next f w low r buf s = Done (out, s') -> Forall P out.
  Proof.
    intros HP. revert s out. induction buf as [|word buf IH]; intros s out; cbn [fill].
    - intros [= <- <-]. constructor.
    - destruct (redraw next f w r word s) as [[w1 s1]| | |] eqn:E1; try discriminate.
      destruct (fill next f w low r buf s1) as [[o1 t1]| | |] eqn:F1; try discriminate.
      intros [= <- <-]. constructor; [apply HP; eapply redraw_accepted, E1|eapply IH, F1].
  Qed.

  (** The kernel on valid bounds is the loop with range [hi - lo]. *)
  Lemma kernel_fill f w lo hi buf s :
    2 <= w -> in_s w lo -> in_s w hi -> lo < hi -> buf <> [] ->
    kernel next f w lo hi buf s = fill next f w lo (hi - lo) buf s.
  Proof.
    intros Hw Hl Hh Hlt Hb. unfold kernel.
    destruct (Z.ltb_spec lo hi); [|lia]. cbn [negb].
    destruct buf as [|b buf]; [congruence|]. unfold generate, uniform.
    unfold in_s in *. pose proof (pow2_half w).
    rewrite (swrap_id w (hi - 1)) by (try lia; unfold in_s; lia).
    rewrite u_range_ok by (unfold in_s; lia).
    replace (hi - 1 - lo + 1) with (hi - lo) by ring.
    destruct (Z.eqb_spec (hi - lo) 0); [lia|reflexivity].
  Qed.

  Lemma fill_status f w low r buf s :
    (exists a, fill next f w low r buf s = Done a) \/ fill next f w low r buf s = Diverged.
  Proof.
    revert s. induction buf as [|word buf IH]; intros s; cbn [fill]; [eauto|].
    assert (R : (exists a, redraw next f w r word s = Done a) \/ redraw next f w r word s = Diverged).
    { clear. revert word s. induction f as [|f IH]; intros word s; cbn [redraw];
        destruct (rejected w r word); eauto. destruct (next s). apply IH. }
    destruct R as [[[w1 s1] ->]| ->]; [|right; reflexivity].
    destruct (IH s1) as [[[o t] ->]| ->]; [left; eauto|right; reflexivity].
  Qed.
End Runs.
