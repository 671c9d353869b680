(** The bitonic sorting network sorts: compare-exchange stages on sequences of integers. *)
From Verif Require Import Base.
From Coq Require Import Sorting.Sorted Sorting.Permutation Arith.
Local Open Scope nat_scope.

(** ** Threshold shapes *)
(** Above every threshold, the entries form an interval or the complement of one. *)
Definition bitonic (f : nat -> Z) (v : nat) : Prop :=
  forall t : Z, exists p q,
    (forall i, i < v -> (t <=? f i)%Z = (p <=? i) && (i <? q)) \/
    (forall i, i < v -> (t <=? f i)%Z = negb ((p <=? i) && (i <? q))).
Definition increasing (f : nat -> Z) (v : nat) : Prop := forall i j, i <= j -> j < v -> (f i <= f j)%Z.

Lemma increasing_threshold f v t : increasing f v -> exists p, p <= v /\ forall i, i < v -> (t <=? f i)%Z = (p <=? i).
Proof.
  induction v as [|v IH]; intros H.
  - exists 0. split; [lia|]. intros i Hi. lia.
  - destruct IH as (p & Hp & E). { intros i j Hij Hj. apply H; lia. }
    destruct (Z.leb_spec t (f v)) as [Hv|Hv].
    + exists p. split; [lia|]. intros i Hi. destruct (Nat.eq_dec i v) as [->|Hne]; [|apply E; lia].
      destruct (Nat.leb_spec p v); [apply Z.leb_le; lia|lia].
    + exists (S v). split; [lia|]. intros i Hi. destruct (Nat.leb_spec (S v) i); [lia|].
      apply Z.leb_gt. pose proof (H i v ltac:(lia) ltac:(lia)). lia.
Qed.

Lemma leb_min t a b : (t <=? Z.min a b)%Z = (t <=? a)%Z && (t <=? b)%Z.
Proof. destruct (Z.leb_spec t a), (Z.leb_spec t b), (Z.leb_spec t (Z.min a b)); cbn; lia. Qed.
Lemma leb_max t a b : (t <=? Z.max a b)%Z = (t <=? a)%Z || (t <=? b)%Z.
Proof. destruct (Z.leb_spec t a), (Z.leb_spec t b), (Z.leb_spec t (Z.max a b)); cbn; lia. Qed.

Ltac natb := repeat match goal with
  | |- context [?a <=? ?b] => destruct (Nat.leb_spec a b)
  | |- context [?a <? ?b] => destruct (Nat.ltb_spec a b)
  end; cbn [andb orb negb]; try reflexivity; try lia.

(** A clean cut: at every threshold the left part is empty or the right part is full. *)
Lemma clean_order (l r : nat -> Z) v :
  (forall t, (forall i, i < v -> (t <=? l i)%Z = false) \/ (forall i, i < v -> (t <=? r i)%Z = true)) ->
  forall i j, i < v -> j < v -> (l i <= r j)%Z.
Proof.
  intros H i j Hi Hj. destruct (H (l i)) as [E|E].
  - specialize (E i Hi). rewrite Z.leb_refl in E. discriminate.
  - apply Z.leb_le, E, Hj.
Qed.

(** Merging two increasing halves by exchanging mirrored entries. *)
Lemma flip_merge w (f : nat -> Z) (l r : nat -> Z) : increasing f w -> increasing (fun i => f (w + i)) w ->
  (forall i, i < w -> l i = Z.min (f i) (f (w + (w - 1 - i)))) ->
  (forall i, i < w -> r i = Z.max (f (w - 1 - i)) (f (w + i))) ->
  bitonic l w /\ bitonic r w /\ forall i j, i < w -> j < w -> (l i <= r j)%Z.
Proof.
  intros Ha Hb Hl Hr.
  assert (HL : forall t, exists p q, p <= w /\ q <= w /\
     (forall i, i < w -> (t <=? l i)%Z = (p <=? i) && (i <? w - q)) /\
     (forall i, i < w -> (t <=? r i)%Z = (i <? w - p) || (q <=? i))).
  { intros t. destruct (increasing_threshold f w t Ha) as (p & Hp & Ep). destruct (increasing_threshold _ w t Hb) as (q & Hq & Eq).
    exists p, q. split; [exact Hp|]. split; [exact Hq|]. split; intros i Hi.
    - rewrite Hl, leb_min, Ep, (Eq (w - 1 - i)) by lia. natb.
    - rewrite Hr, leb_max, (Ep (w - 1 - i)), Eq by lia. natb. }
  split; [|split].
  - intros t. destruct (HL t) as (p & q & _ & _ & E & _). exists p, (w - q). left. exact E.
  - intros t. destruct (HL t) as (p & q & Hp & Hq & _ & E). exists (w - p), q. right. intros i Hi. rewrite E by exact Hi. natb.
  - apply clean_order. intros t. destruct (HL t) as (p & q & Hp & Hq & E1 & E2).
    destruct (Nat.le_gt_cases (w - q) p).
    + left. intros i Hi. rewrite E1 by exact Hi. natb.
    + right. intros i Hi. rewrite E2 by exact Hi. natb.
Qed.
(** Splitting a bitonic sequence. *)
Lemma half_clean h (f : nat -> Z) (l r : nat -> Z) : bitonic f (h + h) ->
  (forall i, i < h -> l i = Z.min (f i) (f (h + i))) ->
  (forall i, i < h -> r i = Z.max (f i) (f (h + i))) ->
  bitonic l h /\ bitonic r h /\ forall i j, i < h -> j < h -> (l i <= r j)%Z.
Proof.
  intros Hf Hl Hr.
  assert (HL : forall t, exists p q,
     ((forall i, i < h -> (t <=? l i)%Z = (p <=? i) && (i <? q) && (p <=? h + i) && (h + i <? q)) /\
      (forall i, i < h -> (t <=? r i)%Z = (p <=? i) && (i <? q) || (p <=? h + i) && (h + i <? q))) \/
     ((forall i, i < h -> (t <=? l i)%Z = negb ((p <=? i) && (i <? q) || (p <=? h + i) && (h + i <? q))) /\
      (forall i, i < h -> (t <=? r i)%Z = negb ((p <=? i) && (i <? q) && (p <=? h + i) && (h + i <? q))))).
  { intros t. destruct (Hf t) as (p & q & [E|E]); exists p, q; [left|right]; split; intros i Hi.
    - rewrite Hl, leb_min, !E by lia. natb.
    - rewrite Hr, leb_max, !E by lia. natb.
    - rewrite Hl, leb_min, !E by lia. natb.
    - rewrite Hr, leb_max, !E by lia. natb. }
  (* the "and" part is the interval [p, q - h); the "or" part has three shapes *)
  assert (HA : forall p q i, i < h -> (p <=? i) && (i <? q) && (p <=? h + i) && (h + i <? q) = (p <=? i) && (i <? q - h)) by (intros; natb).
  assert (HO : forall p q, exists p' q',
     (forall i, i < h -> (p <=? i) && (i <? q) || (p <=? h + i) && (h + i <? q) = (p' <=? i) && (i <? q')) \/
     (forall i, i < h -> (p <=? i) && (i <? q) || (p <=? h + i) && (h + i <? q) = negb ((p' <=? i) && (i <? q')))).
  { intros p q. destruct (Nat.le_gt_cases q h).
    - exists p, q. left. intros. natb.
    - destruct (Nat.le_gt_cases h p).
      + exists (p - h), (q - h). left. intros. natb.
      + exists (q - h), p. right. intros. natb. }
  assert (HC : forall p q, (forall i, i < h -> (p <=? i) && (i <? q) && (p <=? h + i) && (h + i <? q) = false) \/
                           (forall i, i < h -> (p <=? i) && (i <? q) || (p <=? h + i) && (h + i <? q) = true)).
  { intros p q. destruct (Nat.le_gt_cases (Nat.min q (h + h) - h) p); [left|right]; intros i Hi; natb. }
  split; [|split].
  - intros t. destruct (HL t) as (p & q & [[E _]|[E _]]).
    + exists p, (q - h). left. intros i Hi. rewrite E, HA by exact Hi. reflexivity.
    + destruct (HO p q) as (p' & q' & [H|H]); exists p', q'; [right|left]; intros i Hi; rewrite E, H by exact Hi; [reflexivity|apply Bool.negb_involutive].
  - intros t. destruct (HL t) as (p & q & [[_ E]|[_ E]]).
    + destruct (HO p q) as (p' & q' & [H|H]); exists p', q'; [left|right]; intros i Hi; rewrite E, H by exact Hi; reflexivity.
    + exists p, (q - h). right. intros i Hi. rewrite E, HA by exact Hi. reflexivity.
  - apply clean_order. intros t. destruct (HL t) as (p & q & [[E1 E2]|[E1 E2]]); destruct (HC p q) as [H|H].
    + left. intros i Hi. rewrite E1, H by exact Hi. reflexivity.
    + right. intros i Hi. rewrite E2, H by exact Hi. reflexivity.
    + right. intros i Hi. rewrite E2, H by exact Hi. reflexivity.
    + left. intros i Hi. rewrite E1, H by exact Hi. reflexivity.
Qed.

(** ** Stages *)
(** [g] is [f] after exchanging, in every block of [2 w] entries below [n], entry [off] of the left
    half with entry [off] (or, flipped, [w - 1 - off]) of the right half. *)
Definition mate (flip : bool) (w off : nat) : nat := if flip then w - 1 - off else off.
Definition exchanged (flip : bool) (w n : nat) (f g : nat -> Z) : Prop :=
  forall j off, off < w -> (2 * j + 2) * w <= n ->
    g (2 * j * w + off) = Z.min (f (2 * j * w + off)) (f ((2 * j + 1) * w + mate flip w off)) /\
    g ((2 * j + 1) * w + mate flip w off) = Z.max (f (2 * j * w + off)) (f ((2 * j + 1) * w + mate flip w off)).

Definition blocks_sorted (w n : nat) (f : nat -> Z) : Prop :=
  forall j, (j + 1) * w <= n -> increasing (fun i => f (j * w + i)) w.
(** In every block of [W] entries, the sub-blocks of [v] entries are bitonic and ordered. *)
Definition blocks_bitonic (v W n : nat) (f : nat -> Z) : Prop :=
  forall j, (j + 1) * W <= n ->
    (forall k, (k + 1) * v <= W -> bitonic (fun i => f (j * W + (k * v + i))) v) /\
    (forall i i', i < W -> i' < W -> i / v < i' / v -> Z.le (f (j * W + i)) (f (j * W + i'))).

Lemma bitonic_ext f g v : (forall i, i < v -> f i = g i) -> bitonic f v -> bitonic g v.
Proof.
  intros E H t. destruct (H t) as (p & q & [K|K]); exists p, q; [left|right]; intros i Hi; rewrite <- E by exact Hi; apply K; exact Hi.
Qed.
Lemma div_block a v i : i < v -> (a * v + i) / v = a.
Proof. intros H. rewrite Nat.add_comm, Nat.div_add by lia. rewrite Nat.div_small by exact H. lia. Qed.

(** First step of a stage. *)
Lemma first_step w n f g : 0 < w -> blocks_sorted w n f -> exchanged true w n f g -> blocks_bitonic w (2 * w) n g.
Proof.
  intros Hw Hs He j Hj.
  destruct (flip_merge w (fun i => f (2 * j * w + i)) (fun i => g (2 * j * w + i)) (fun i => g ((2 * j + 1) * w + i))) as (B1 & B2 & O).
  - apply Hs. nia.
  - pose proof (Hs (2 * j + 1) ltac:(nia)) as H. intros a b Hab Hb. cbv beta.
    replace (2 * j * w + (w + a)) with ((2 * j + 1) * w + a) by ring. replace (2 * j * w + (w + b)) with ((2 * j + 1) * w + b) by ring.
    apply H; assumption.
  - intros i Hi. cbv beta. replace (2 * j * w + (w + (w - 1 - i))) with ((2 * j + 1) * w + mate true w i) by (cbn [mate]; nia).
    apply He; [exact Hi|nia].
  - intros i Hi. cbv beta. destruct (He j (w - 1 - i) ltac:(lia) ltac:(nia)) as [_ E]. cbn [mate] in E.
    replace (w - 1 - (w - 1 - i)) with i in E by lia. rewrite E. f_equal. f_equal. ring.
  - split.
    + intros k Hk. assert (Hk2 : k = 0 \/ k = 1) by nia. destruct Hk2 as [-> | ->].
      * eapply bitonic_ext; [|exact B1]. intros i Hi. cbv beta. f_equal. ring.
      * eapply bitonic_ext; [|exact B2]. intros i Hi. cbv beta. f_equal. ring.
    + intros i i' Hi Hi' Hd.
      assert (Hl : i < w). { destruct (Nat.lt_ge_cases i w); [assumption|]. exfalso.
        assert (i / w = 1) by (replace i with (1 * w + (i - w)) by lia; apply div_block; lia).
        assert (i' / w < 2) by (apply Nat.div_lt_upper_bound; lia). lia. }
      assert (Hr : w <= i'). { destruct (Nat.lt_ge_cases i' w); [|assumption]. exfalso. rewrite (Nat.div_small i') in Hd by assumption. exact (Nat.nlt_0_r _ Hd). }
      specialize (O i (i' - w) Hl ltac:(lia)). cbv beta in O.
      replace (j * (2 * w) + i) with (2 * j * w + i) by ring. replace (j * (2 * w) + i') with ((2 * j + 1) * w + (i' - w)) by (rewrite <- (Nat.sub_add w i' Hr) at 2; ring). exact O.
Qed.

(** An exchanged entry is one of the two entries of its pair. *)
Lemma plain_from u n f g : 0 < u -> exchanged false u n f g -> forall k i, i < 2 * u -> (k + 1) * (2 * u) <= n ->
  exists x, x < 2 * u /\ g (k * (2 * u) + i) = f (k * (2 * u) + x).
Proof.
  intros Hu He k i Hi Hk. destruct (Nat.lt_ge_cases i u) as [Hl|Hl].
  - destruct (He k i Hl ltac:(nia)) as [E _]. cbn [mate] in E. replace (k * (2 * u) + i) with (2 * k * u + i) by ring. rewrite E.
    destruct (Z.min_spec (f (2 * k * u + i)) (f ((2 * k + 1) * u + i))) as [[_ ->]|[_ ->]].
    + exists i. split; [exact Hi|]. f_equal. ring.
    + exists (u + i). split; [lia|]. f_equal. ring.
  - destruct (He k (i - u) ltac:(lia) ltac:(nia)) as [_ E]. cbn [mate] in E. replace (k * (2 * u) + i) with ((2 * k + 1) * u + (i - u)) by (rewrite <- (Nat.sub_add u i Hl) at 2; ring). rewrite E.
    destruct (Z.max_spec (f (2 * k * u + (i - u))) (f ((2 * k + 1) * u + (i - u)))) as [[_ ->]|[_ ->]].
    + exists i. split; [exact Hi|]. f_equal. rewrite <- (Nat.sub_add u i Hl) at 2. ring.
    + exists (i - u). split; [lia|]. f_equal. ring.
Qed.
(** Following steps. *)
Lemma next_step u c n f g : 0 < u -> blocks_bitonic (2 * u) (c * (2 * u)) n f -> exchanged false u n f g -> blocks_bitonic u (c * (2 * u)) n g.
Proof.
  intros Hu Hb He j Hj. destruct (Hb j Hj) as [HB HO]. set (W := c * (2 * u)) in *.
  assert (Half : forall k, (k + 1) * (2 * u) <= W ->
     bitonic (fun i => g (j * W + (k * (2 * u) + i))) u /\ bitonic (fun i => g (j * W + (k * (2 * u) + (u + i)))) u /\
     forall a b, a < u -> b < u -> Z.le (g (j * W + (k * (2 * u) + a))) (g (j * W + (k * (2 * u) + (u + b))))).
  { intros k Hk. pose (K := j * c + k).
    assert (EK : forall i, j * W + (k * (2 * u) + i) = 2 * K * u + i) by (intros i; unfold K, W; ring).
    assert (EK2 : forall i, j * W + (k * (2 * u) + (u + i)) = (2 * K + 1) * u + i) by (intros i; unfold K, W; ring).
    assert (HK : (2 * K + 2) * u <= n) by (unfold K, W in *; nia).
    apply (half_clean u (fun i => f (j * W + (k * (2 * u) + i)))).
    - eapply bitonic_ext; [|replace (u + u) with (2 * u) by lia; exact (HB k Hk)]. reflexivity.
    - intros i Hi. cbv beta. destruct (He K i Hi HK) as [E _]. cbn [mate] in E. rewrite (EK i), (EK2 i), E. reflexivity.
    - intros i Hi. cbv beta. destruct (He K i Hi HK) as [_ E]. cbn [mate] in E. rewrite (EK i), (EK2 i), E. reflexivity. }
  split.
  - intros k Hk. pose proof (Nat.div_mod k 2 ltac:(lia)) as E2. pose proof (Nat.mod_upper_bound k 2 ltac:(lia)).
    set (h := k / 2) in *. clearbody h. assert (k + 1 <= 2 * c) by (unfold W in Hk; nia). assert (h + 1 <= c) by lia.
    destruct (Half h ltac:(unfold W; nia)) as (B1 & B2 & _).
    destruct (k mod 2) as [|[|]] eqn:Em; [| |lia].
    + eapply bitonic_ext; [|exact B1]. intros i Hi. cbv beta. f_equal. nia.
    + eapply bitonic_ext; [|exact B2]. intros i Hi. cbv beta. f_equal. nia.
  - intros i i' Hi Hi' Hd.
    pose proof (Nat.div_mod i (2 * u) ltac:(lia)) as E. pose proof (Nat.mod_upper_bound i (2 * u) ltac:(lia)) as M.
    pose proof (Nat.div_mod i' (2 * u) ltac:(lia)) as E'. pose proof (Nat.mod_upper_bound i' (2 * u) ltac:(lia)) as M'.
    set (k := i / (2 * u)) in *. set (k' := i' / (2 * u)) in *. set (a := i mod (2 * u)) in *. set (a' := i' mod (2 * u)) in *. clearbody k k' a a'.
    assert (Dk : (k + 1) * (2 * u) <= W) by (unfold W in *; assert (k < c) by nia; nia).
    assert (Dk' : (k' + 1) * (2 * u) <= W) by (unfold W in *; assert (k' < c) by nia; nia).
    destruct (Nat.lt_trichotomy k k') as [Hlt|[Heq|Hgt]].
    + destruct (plain_from u n f g Hu He (j * c + k) a M ltac:(unfold W in *; nia)) as (x & Hx & Ex).
      destruct (plain_from u n f g Hu He (j * c + k') a' M' ltac:(unfold W in *; nia)) as (x' & Hx' & Ex').
      replace (j * W + i) with ((j * c + k) * (2 * u) + a) by (unfold W; rewrite E; ring).
      replace (j * W + i') with ((j * c + k') * (2 * u) + a') by (unfold W; rewrite E'; ring).
      rewrite Ex, Ex'.
      replace ((j * c + k) * (2 * u) + x) with (j * W + (k * (2 * u) + x)) by (unfold W; ring).
      replace ((j * c + k') * (2 * u) + x') with (j * W + (k' * (2 * u) + x')) by (unfold W; ring).
      apply HO; [nia|nia|]. rewrite !div_block by assumption. exact Hlt.
    + subst k'. destruct (Half k Dk) as (_ & _ & O).
      assert (Ha : a < u). { destruct (Nat.lt_ge_cases a u); [assumption|]. exfalso.
        assert (i / u = 2 * k + 1) by (rewrite E; replace (2 * u * k + a) with ((2 * k + 1) * u + (a - u)) by nia; apply div_block; lia).
        assert (i' / u < 2 * k + 2) by (apply Nat.div_lt_upper_bound; nia). lia. }
      assert (Ha' : u <= a'). { destruct (Nat.lt_ge_cases a' u); [|assumption]. exfalso.
        assert (i' / u = 2 * k) by (rewrite E'; replace (2 * u * k + a') with ((2 * k) * u + a') by ring; apply div_block; lia).
        assert (i / u = 2 * k) by (rewrite E; replace (2 * u * k + a) with ((2 * k) * u + a) by ring; apply div_block; lia). lia. }
      specialize (O a (a' - u) Ha ltac:(lia)).
      replace (j * W + i) with (j * W + (k * (2 * u) + a)) by lia. replace (j * W + i') with (j * W + (k * (2 * u) + (u + (a' - u)))) by lia. exact O.
    + exfalso. assert (i' / u <= i / u) by (apply Nat.div_le_mono; nia). lia.
Qed.
Lemma last_step W n f : blocks_bitonic 1 W n f -> blocks_sorted W n f.
Proof.
  intros H j Hj i i' Hle Hi'. destruct (H j Hj) as [_ HO]. destruct (Nat.eq_dec i i') as [->|Hne]; [lia|].
  apply HO; [lia|lia|]. rewrite !Nat.div_1_r. lia.
Qed.

(** A run of the network: a sequence of exchange steps. *)
Inductive runs (n : nat) : list (bool * nat) -> (nat -> Z) -> (nat -> Z) -> Prop :=
  | runs_nil f : runs n [] f f
  | runs_cons fl w l f g h : exchanged fl w n f g -> runs n l g h -> runs n ((fl, w) :: l) f h.
Lemma runs_app n l1 : forall l2 f h, runs n (l1 ++ l2) f h -> exists g, runs n l1 f g /\ runs n l2 g h.
Proof.
  induction l1 as [|[fl w] l1 IH]; intros l2 f h H; cbn [app] in H.
  - exists f. split; [constructor|exact H].
  - inversion H; subst. destruct (IH _ _ _ H6) as (g' & A & B). exists g'. split; [econstructor; eassumption|exact B].
Qed.
(** Stage [s]: half sizes [2^s] flipped, then [2^(s-1)], ..., [1]. *)
Definition stage (s : nat) : list (bool * nat) := map (fun t => (t =? 0, 2 ^ (s - t))) (seq 0 (S s)).
Lemma tail_sorts n W : forall t f h, (exists c, W = c * 2 ^ t) -> blocks_bitonic (2 ^ t) W n f ->
  runs n (map (fun i => (false, 2 ^ (t - i))) (seq 1 t)) f h -> blocks_sorted W n h.
Proof.
  induction t as [|t IH]; intros f h (c & Hc) Hb H.
  - cbn in H. inversion H; subst. apply last_step. exact Hb.
  - cbn [seq map] in H. replace (S t - 1) with t in H by lia. inversion H; subst. apply (IH g).
    + exists (c * 2). cbn [Nat.pow]. ring.
    + assert (Hp : 2 ^ t <> 0) by (apply Nat.pow_nonzero; lia). change (2 ^ S t) with (2 * 2 ^ t) in *. apply (next_step _ _ _ f); [lia|exact Hb|assumption].
    + rewrite <- seq_shift, map_map in H6. exact H6.
Qed.
Lemma stage_sorts n s f h : blocks_sorted (2 ^ s) n f -> runs n (stage s) f h -> blocks_sorted (2 ^ S s) n h.
Proof.
  intros Hs H. unfold stage in H. cbn [seq map] in H. inversion H; subst. cbn [Nat.eqb] in *. rewrite Nat.sub_0_r in *.
  assert (Hp : 2 ^ s <> 0) by (apply Nat.pow_nonzero; lia).
  apply (tail_sorts n (2 ^ S s) s g).
  - exists 2. reflexivity.
  - apply (first_step _ _ f); [lia|exact Hs|assumption].
  - rewrite (map_ext_in _ (fun i => (i =? 0, 2 ^ (s - i)))); [assumption|]. intros i Hi. apply in_seq in Hi. destruct (Nat.eqb_spec i 0); [lia|reflexivity].
Qed.
Theorem network_sorts m f h : runs (2 ^ m) (flat_map stage (seq 0 m)) f h -> increasing h (2 ^ m).
Proof.
  assert (G : forall k h, runs (2 ^ m) (flat_map stage (seq 0 k)) f h -> blocks_sorted (2 ^ k) (2 ^ m) h).
  { induction k as [|k IH]; intros h' H.
    - intros j Hj i i' Hle Hi'. cbn in Hi'. assert (i = 0 /\ i' = 0) as [-> ->] by lia. lia.
    - rewrite seq_S, flat_map_app in H. destruct (runs_app _ _ _ _ _ H) as (g & A & B). cbn [flat_map] in B. rewrite app_nil_r in B.
      apply (stage_sorts _ _ g); [apply IH, A|exact B]. }
  intros H. specialize (G m h H 0 ltac:(lia)). intros i j Hij Hj. apply (G i j Hij Hj).
Qed.
