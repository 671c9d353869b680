(** Lists of values under the exchange steps of the sorting network: the index lists of
    [bitonic_index] give the steps of Bitonic, every step permutes the values, and the padding
    ends up at the far end. *)
From Verif Require Import Base Aby3NetModel Bitonic.
From Coq Require Import Permutation Sorted.
Local Open Scope nat_scope.

(** * Index lists *)

Lemma nth_flat_map {A} (f : nat -> list A) w d : (forall j, length (f j) = w) -> forall c a j off, j < c -> off < w ->
  nth (j * w + off) (flat_map f (seq a c)) d = nth off (f (a + j)) d.
Proof.
  intros Hw. induction c as [|c IH]; intros a j off Hj Ho; [lia|].
  cbn [seq flat_map]. destruct j as [|j].
  - cbn [Nat.mul Nat.add]. rewrite app_nth1 by (rewrite Hw; lia). rewrite Nat.add_0_r. reflexivity.
  - rewrite app_nth2 by (rewrite Hw; nia). rewrite Hw. replace (S j * w + off - w) with (j * w + off) by lia.
    rewrite IH by lia. f_equal. f_equal. lia.
Qed.
Lemma length_flat_map {A} (f : nat -> list A) w : (forall j, length (f j) = w) -> forall c a, length (flat_map f (seq a c)) = c * w.
Proof. intros Hw. induction c as [|c IH]; intros a; [reflexivity|]. cbn [seq flat_map]. rewrite app_length, Hw, IH. lia. Qed.

(** What the network needs of one pair of index lists: the two cover the positions once, and
    entry [j * w + off] pairs the two positions of Bitonic's exchange. *)
Definition index_ok (n : nat) (lr : list nat * list nat) (s : bool * nat) : Prop :=
  length (fst lr) = length (snd lr) /\ Permutation (fst lr ++ snd lr) (seq 0 n) /\
  (forall j off, off < snd s -> (2 * j + 2) * snd s <= n -> j * snd s + off < length (fst lr) /\
    nth (j * snd s + off) (fst lr) 0 = 2 * j * snd s + off /\
    nth (j * snd s + off) (snd lr) 0 = (2 * j + 1) * snd s + mate (fst s) (snd s) off).

Lemma cover w (fl : list nat -> list nat) : (forall l, Permutation (fl l) l) -> forall c,
  Permutation (flat_map (fun j => block w (2 * j)) (seq 0 c) ++ flat_map (fun j => fl (block w (2 * j + 1))) (seq 0 c))
    (seq 0 (2 * c * w)).
Proof.
  intros Hf. induction c as [|c IH]; [constructor|].
  rewrite seq_S, !flat_map_app. cbn [flat_map]. rewrite !app_nil_r.
  replace (2 * S c * w) with (2 * c * w + (w + w)) by lia. rewrite seq_app, seq_app. cbn [Nat.add].
  set (L := flat_map (fun j => block w (2 * j)) (seq 0 c)) in *.
  set (R := flat_map (fun j => fl (block w (2 * j + 1))) (seq 0 c)) in *.
  transitivity ((L ++ R) ++ block w (2 * c) ++ fl (block w (2 * c + 1))).
  { rewrite <- !app_assoc. apply Permutation_app_head. rewrite !app_assoc. apply Permutation_app_tail. apply Permutation_app_comm. }
  apply Permutation_app; [exact IH|]. unfold block at 1. apply Permutation_app_head.
  rewrite Hf. unfold block. replace ((2 * c + 1) * w) with (2 * c * w + w) by lia. reflexivity.
Qed.

Lemma bitonic_index_ok m s t : s < m -> t <= s ->
  index_ok (2 ^ m) (bitonic_index (2 ^ m) s t) (t =? 0, 2 ^ (s - t)).
Proof.
  intros Hs Ht. unfold bitonic_index. set (w := 2 ^ (s - t)).
  assert (Hw : 0 < w) by (apply Nat.neq_0_lt_0, Nat.pow_nonzero; lia).
  assert (E : 2 ^ m = 2 * 2 ^ (m - S (s - t)) * w).
  { unfold w. transitivity (2 ^ (S (m - S (s - t)) + (s - t))); [f_equal; lia|]. rewrite Nat.pow_add_r, Nat.pow_succ_r'. reflexivity. }
  assert (Ec : 2 ^ m / (2 * w) = 2 ^ (m - S (s - t))).
  { rewrite E, (Nat.mul_comm 2), <- Nat.mul_assoc. apply Nat.div_mul. lia. }
  rewrite Ec. set (c := 2 ^ (m - S (s - t))) in *.
  assert (Lf : forall j, length ((if t =? 0 then @rev nat else fun l => l) (block w (2 * j + 1))) = w).
  { intros j. destruct (t =? 0); rewrite ?rev_length; apply seq_length. }
  assert (EF : flat_map (fun j => if t =? 0 then rev (block w (2 * j + 1)) else block w (2 * j + 1)) (seq 0 c) =
    flat_map (fun j => (if t =? 0 then @rev nat else fun l => l) (block w (2 * j + 1))) (seq 0 c)).
  { apply flat_map_ext. intros j. destruct (t =? 0); reflexivity. }
  unfold index_ok. cbn [fst snd]. rewrite EF. split; [|split].
  - rewrite !(length_flat_map _ w); [reflexivity|exact Lf|intros j; apply seq_length].
  - rewrite E. apply cover. intros l. destruct (t =? 0); [symmetry; apply Permutation_rev|reflexivity].
  - intros j off Ho Hj. assert (Hjc : j < c) by nia. split; [|split].
    + rewrite (length_flat_map _ w) by (intros i; apply seq_length). clear - Hjc Ho. nia.
    + rewrite (nth_flat_map (fun j => block w (2 * j)) w 0) by (assumption || (intros i; apply seq_length)).
      cbn [Nat.add]. unfold block. rewrite seq_nth by exact Ho. reflexivity.
    + rewrite (nth_flat_map _ w 0 Lf) by assumption. cbn [Nat.add]. unfold mate, block. destruct (t =? 0).
      * rewrite rev_nth by (rewrite seq_length; exact Ho). rewrite seq_length, seq_nth by (clear - Ho; lia). f_equal. clear - Ho. lia.
      * apply seq_nth. exact Ho.
Qed.
Lemma Forall2_map_same {A B C} (R : B -> C -> Prop) (f : A -> B) (g : A -> C) l :
  (forall a, In a l -> R (f a) (g a)) -> Forall2 R (map f l) (map g l).
Proof.
  induction l as [|a l IH]; intros H; cbn; constructor; [apply H; left; reflexivity|].
  apply IH. intros b Hb. apply H. right. exact Hb.
Qed.
Lemma Forall2_flat_map_same {A B C} (R : B -> C -> Prop) (f : A -> list B) (g : A -> list C) l :
  (forall a, In a l -> Forall2 R (f a) (g a)) -> Forall2 R (flat_map f l) (flat_map g l).
Proof.
  induction l as [|a l IH]; intros H; cbn; [constructor|]. apply Forall2_app; [apply H; left; reflexivity|].
  apply IH. intros b Hb. apply H. right. exact Hb.
Qed.
Lemma bitonic_indices_ok m : Forall2 (index_ok (2 ^ m)) (bitonic_indices (2 ^ m) m) (flat_map stage (seq 0 m)).
Proof.
  unfold bitonic_indices. apply Forall2_flat_map_same. intros s Hs. apply in_seq in Hs. unfold stage.
  apply Forall2_map_same. intros t Ht. apply in_seq in Ht. apply bitonic_index_ok; lia.
Qed.

(** * One step on values *)

Definition swapped (acc : bool) (a b : Z) : Z * Z := if acc then (Z.min a b, Z.max a b) else (Z.max a b, Z.min a b).
Definition stepped (acc : bool) (lr : list nat * list nat) (vs ws : list Z) : Prop :=
  length ws = length vs /\
  forall k, k < length (fst lr) ->
    (nth (nth k (fst lr) 0) ws 0%Z, nth (nth k (snd lr) 0) ws 0%Z) =
    swapped acc (nth (nth k (fst lr) 0) vs 0%Z) (nth (nth k (snd lr) 0) vs 0%Z).

Lemma map_nth_seq (vs : list Z) : map (fun i => nth i vs 0%Z) (seq 0 (length vs)) = vs.
Proof.
  apply (nth_ext _ _ 0%Z 0%Z); [rewrite map_length, seq_length; reflexivity|]. intros i Hi. rewrite map_length, seq_length in Hi.
  rewrite (nth_indep _ 0%Z (nth 0 vs 0%Z)) by (rewrite map_length, seq_length; exact Hi).
  rewrite (map_nth (fun i => nth i vs 0%Z)). rewrite seq_nth by exact Hi. reflexivity.
Qed.
Lemma perm_swapped (f g : nat -> Z) : forall l r, length l = length r ->
  (forall k, k < length l -> Permutation [g (nth k l 0); g (nth k r 0)] [f (nth k l 0); f (nth k r 0)]) ->
  Permutation (map g (l ++ r)) (map f (l ++ r)).
Proof.
  induction l as [|a l IH]; intros [|b r] HL H; try discriminate HL; [constructor|].
  cbn [app map]. rewrite !map_app. cbn [map].
  transitivity ([g a; g b] ++ map g (l ++ r)).
  { rewrite map_app. cbn [app]. constructor. symmetry. apply Permutation_middle. }
  transitivity ([f a; f b] ++ map f (l ++ r)).
  { apply Permutation_app; [exact (H 0 ltac:(cbn; lia))|]. apply IH; [cbn in HL; lia|]. intros k Hk. exact (H (S k) ltac:(cbn; lia)). }
  rewrite map_app. cbn [app]. constructor. apply Permutation_middle.
Qed.
Lemma stepped_perm acc lr s vs ws : index_ok (length vs) lr s -> stepped acc lr vs ws -> Permutation ws vs.
Proof.
  intros (HL & HP & _) (Hlen & Hst).
  rewrite <- (map_nth_seq ws), <- (map_nth_seq vs), Hlen.
  rewrite <- (Permutation_map _ HP), <- (Permutation_map _ HP). apply perm_swapped; [exact HL|].
  intros k Hk. specialize (Hst k Hk). unfold swapped in Hst.
  set (a := nth (nth k (fst lr) 0) vs 0%Z) in *. set (b := nth (nth k (snd lr) 0) vs 0%Z) in *. clearbody a b.
  destruct acc; injection Hst as -> ->; destruct (Z.le_ge_cases a b); rewrite ?Z.min_l, ?Z.min_r, ?Z.max_l, ?Z.max_r by lia;
    first [reflexivity|apply perm_swap].
Qed.
Definition sgn (acc : bool) (z : Z) : Z := if acc then z else (- z)%Z.
Lemma stepped_exchanged acc lr fl w vs ws : index_ok (length vs) lr (fl, w) -> stepped acc lr vs ws ->
  exchanged fl w (length vs) (fun i => sgn acc (nth i vs 0%Z)) (fun i => sgn acc (nth i ws 0%Z)).
Proof.
  intros (HL & _ & HI) (_ & Hst) j off Ho Hj. cbn [fst snd] in HI. destruct (HI j off Ho Hj) as (Hk & El & Er).
  specialize (Hst _ Hk). rewrite El, Er in Hst. unfold swapped in Hst. unfold sgn.
  set (x := nth (2 * j * w + off) ws 0%Z) in *. set (y := nth ((2 * j + 1) * w + mate fl w off) ws 0%Z) in *. clearbody x y.
  set (a := nth (2 * j * w + off) vs 0%Z) in *. set (b := nth ((2 * j + 1) * w + mate fl w off) vs 0%Z) in *. clearbody a b.
  destruct acc; injection Hst as -> ->; lia.
Qed.

(** * The padding *)

Lemma sorted_nth (R : Z -> Z -> Prop) (l : list Z) :
  (forall i j, i < j -> j < length l -> R (nth i l 0%Z) (nth j l 0%Z)) -> StronglySorted R l.
Proof.
  induction l as [|a l IH]; intros H; [constructor|]. constructor.
  - apply IH. intros i j Hi Hj. exact (H (S i) (S j) ltac:(lia) ltac:(cbn; lia)).
  - apply Forall_forall. intros x Hx. destruct (In_nth _ _ 0%Z Hx) as (i & Hi & <-). exact (H 0 (S i) ltac:(lia) ltac:(cbn; lia)).
Qed.
Lemma strongly_app {A} (R : A -> A -> Prop) l1 l2 : StronglySorted R (l1 ++ l2) ->
  StronglySorted R l1 /\ StronglySorted R l2 /\ (forall a b, In a l1 -> In b l2 -> R a b).
Proof.
  induction l1 as [|a l1 IH]; intros H; [split; [constructor|split; [exact H|intros ? ? []]]|].
  cbn in H. inversion_clear H as [|? ? Hs Hf]. destruct (IH Hs) as (A1 & A2 & A3). rewrite Forall_forall in Hf.
  split; [constructor; [exact A1|apply Forall_forall; intros x Hx; apply Hf, in_or_app; auto]|split; [exact A2|]].
  intros x y [<-|Hx] Hy; [apply Hf, in_or_app; auto|apply A3; assumption].
Qed.
Lemma repeat_snoc {A} (p : A) k : repeat p (S k) = repeat p k ++ [p].
Proof. induction k; [reflexivity|]. cbn in *. f_equal. exact IHk. Qed.
Lemma drop_pads_up vs (p : Z) : (forall v, In v vs -> (v <= p)%Z) -> forall k ws, StronglySorted Z.le ws ->
  Permutation ws (vs ++ repeat p k) -> Permutation (firstn (length vs) ws) vs.
Proof.
  intros Hp. induction k as [|k IH]; intros ws Hs HP.
  - cbn in HP. rewrite app_nil_r in HP. rewrite firstn_all2 by (rewrite (Permutation_length HP); lia). exact HP.
  - rewrite repeat_snoc, app_assoc in HP. destruct (exists_last (l := ws)) as (ws' & z & E).
    { intros ->. apply Permutation_length in HP. rewrite !app_length in HP. cbn in HP. lia. }
    subst ws. destruct (strongly_app _ _ _ Hs) as (Hs' & _ & Hle).
    assert (Ez : z = p).
    { assert (Hzi : In z ((vs ++ repeat p k) ++ [p])) by (apply (Permutation_in _ HP), in_or_app; right; left; reflexivity).
      assert (Hpi : In p (ws' ++ [z])) by (apply (Permutation_in _ (Permutation_sym HP)), in_or_app; right; left; reflexivity).
      assert (U : (z <= p)%Z).
      { apply in_app_or in Hzi as [Hzi|[->|[]]]; [|lia]. apply in_app_or in Hzi as [Hzi|Hzi]; [apply Hp, Hzi|]. apply repeat_spec in Hzi. lia. }
      apply in_app_or in Hpi as [Hpi|[->|[]]]; [|reflexivity]. specialize (Hle p z Hpi (or_introl eq_refl)). lia. }
    subst z. apply Permutation_app_inv_r in HP.
    rewrite firstn_app. specialize (IH ws' Hs' HP). assert (L := Permutation_length HP). rewrite app_length in L.
    replace (length vs - length ws') with 0 by lia. cbn [firstn]. rewrite app_nil_r. exact IH.
Qed.
Lemma drop_pads_down vs (p : Z) : (forall v, In v vs -> (v <= p)%Z) -> forall k ws, StronglySorted Z.ge ws ->
  Permutation ws (vs ++ repeat p k) -> Permutation (skipn k ws) vs.
Proof.
  intros Hp. induction k as [|k IH]; intros ws Hs HP.
  - cbn in HP. rewrite app_nil_r in HP. exact HP.
  - destruct ws as [|z ws']; [apply Permutation_length in HP; rewrite app_length in HP; cbn in HP; lia|].
    inversion_clear Hs as [|? ? Hs' Hf]. rewrite Forall_forall in Hf. cbn [repeat] in HP.
    assert (Ez : z = p).
    { assert (Hzi : In z (vs ++ p :: repeat p k)) by (apply (Permutation_in _ HP); left; reflexivity).
      assert (Hpi : In p (z :: ws')) by (apply (Permutation_in _ (Permutation_sym HP)), in_or_app; right; left; reflexivity).
      assert (U : (z <= p)%Z).
      { apply in_app_or in Hzi as [Hzi|[->|Hzi]]; [apply Hp, Hzi|lia|]. apply repeat_spec in Hzi. lia. }
      destruct Hpi as [->|Hpi]; [reflexivity|]. specialize (Hf p Hpi). lia. }
    subst z. cbn [skipn]. apply IH; [exact Hs'|]. apply Permutation_cons_app_inv in HP. exact HP.
Qed.
Lemma strongly_firstn {A} (R : A -> A -> Prop) k l : StronglySorted R l -> StronglySorted R (firstn k l).
Proof. intros H. rewrite <- (firstn_skipn k l) in H. exact (proj1 (strongly_app _ _ _ H)). Qed.
Lemma strongly_skipn {A} (R : A -> A -> Prop) k l : StronglySorted R l -> StronglySorted R (skipn k l).
Proof. intros H. rewrite <- (firstn_skipn k l) in H. exact (proj1 (proj2 (strongly_app _ _ _ H))). Qed.

(** * Scattering *)

Lemma scatter_at_notin {A} (idx : list nat) : forall (vals : list A) d p, ~ In p idx -> scatter_at idx vals d p = d.
Proof.
  induction idx as [|i idx IH]; intros [|v vals] d p H; cbn; try reflexivity.
  destruct (Nat.eqb_spec i p) as [->|]; [destruct H; left; reflexivity|]. apply IH. intros Hp. apply H. right. exact Hp.
Qed.
Lemma scatter_at_nth {A} (idx : list nat) : forall (vals : list A) d d' k, NoDup idx -> k < length idx -> length vals = length idx ->
  scatter_at idx vals d (nth k idx 0) = nth k vals d'.
Proof.
  induction idx as [|i idx IH]; intros [|v vals] d d' k HN Hk HL; cbn in Hk, HL; try lia.
  inversion_clear HN as [|? ? Hni HN']. destruct k as [|k]; cbn.
  - rewrite Nat.eqb_refl. reflexivity.
  - destruct (Nat.eqb_spec i (nth k idx 0)) as [E|_].
    + destruct Hni. rewrite E. apply nth_In. lia.
    + apply IH; [exact HN'|lia|lia].
Qed.
