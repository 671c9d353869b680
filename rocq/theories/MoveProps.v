(** C114: moving entries about in ABY3. *)
From Coq Require Import Permutation Lia.
From Verif Require Import Base TensorModel Aby3Model Aby3Spec StoreModel StoreSpec MoveModel MoveSpec MoveProofs.
Local Open Scope nat_scope.
Local Notation "'do' x <- m ; k" := (MoveModel.bind m (fun x => k)) (at level 200, x pattern, m at level 100, k at level 200).

Lemma one_ok o d d' ws : legal o d d' -> map dims ws = [d] -> exists src, one o (map dims ws) = Ok (d', src) /\
  good (map dims ws) d' src /\ forall ix, valid d' ix -> fst (src ix) = 0 /\ valid d (snd (src ix)) /\ from o d ix (snd (src ix)).
Proof.
  intros L E. destruct (kernel_ok o d d' L) as (f & K & H). rewrite E. unfold one. cbn [nth]. rewrite K. cbn [bind].
  eexists. split; [reflexivity|]. split.
  - intros ix V. cbn [fst snd nth length]. split; [lia|]. apply H. exact V.
  - intros ix V. cbn [fst snd]. split; [reflexivity|]. apply H. exact V.
Qed.

(** Whenever an operation makes sense for the shape, its result is a well-formed sharing of the same kind, with the same
    scaling, and its entries are the entries TensorFlow's operation takes from the secret. *)
Theorem C114_move k sc x w o d' : secret k sc x w -> legal o (dims w) d' ->
  exists y w', move o (Pr x) = Ok (Pr y) /\ secret k sc y w' /\ dims w' = d' /\
  forall ix, valid d' ix -> exists jx, valid (dims w) jx /\ from o (dims w) ix jx /\ value w' ix = value w jx.
Proof.
  intros S L. destruct (one_ok o (dims w) d' [w] L eq_refl) as (src & E & G & H).
  destruct (shares_ok (one o) k sc [x] [w] d' src (Forall2_cons _ _ S (Forall2_nil _)) E G) as (y & Ey & Sy).
  exists y, (Raw d' (moved [w] d' src)). destruct (S) as (_ & F1 & F2 & F3 & _).
  cbn [move]. rewrite F1, F2, F3, Ey. cbn [bind]. do 3 (split; [reflexivity||exact Sy|]).
  intros ix V. destruct (H ix V) as (H0 & H1 & H2). exists (snd (src ix)). split; [exact H1|]. split; [exact H2|].
  rewrite moved_value by assumption. rewrite H0. reflexivity.
Qed.
Print Assumptions C114_move.

(** The same for public tensors, except that they cannot be reversed. *)
Theorem C114_move_public f sc x w o d' : known f sc x w -> legal o (dims w) d' -> (forall a, o <> Reverse a) ->
  exists y w', move o (Pu x) = Ok (Pu y) /\ known f sc y w' /\ dims w' = d' /\
  forall ix, valid d' ix -> exists jx, valid (dims w) jx /\ from o (dims w) ix jx /\ value w' ix = value w jx.
Proof.
  intros S L N. destruct (one_ok o (dims w) d' [w] L eq_refl) as (src & E & G & H).
  destruct (copies_ok (one o) f sc [x] [w] d' src (Forall2_cons _ _ S (Forall2_nil _)) E) as (y & Ey & Sy).
  exists y, (Raw d' (moved [w] d' src)). destruct (S) as (_ & F1 & F2 & _). split.
  { destruct o; try (cbn [move]; rewrite F1, F2, Ey; reflexivity). destruct (N a eq_refl). }
  split; [exact Sy|]. split; [reflexivity|].
  intros ix V. destruct (H ix V) as (H0 & H1 & H2). exists (snd (src ix)). split; [exact H1|]. split; [exact H2|].
  rewrite moved_value by assumption. rewrite H0. reflexivity.
Qed.
Print Assumptions C114_move_public.

(** Tensors of one kind and one scaling, whose shapes differ only in the length of one axis, are concatenated along it. *)
Theorem C114_concat k sc p q xs ws ns : Forall2 (secret k sc) xs ws -> Forall2 (fun w n => dims w = p ++ n :: q) ws ns -> ws <> [] ->
  exists y w, concat_ (map Pr xs) (length p) = Ok (Pr y) /\ secret k sc y w /\ dims w = p ++ list_sum ns :: q /\
  forall t ip j iq, t < length ws -> valid p ip -> j < nth t ns 0 -> valid q iq ->
    value w (ip ++ list_sum (firstn t ns) + j :: iq) = value (nth t ws (Raw [] [])) (ip ++ j :: iq).
Proof. apply concat_private. Qed.
Print Assumptions C114_concat.

(** Tensors of one kind, one scaling and one shape are stacked along a new axis. *)
Theorem C114_stack k sc p q xs ws : Forall2 (secret k sc) xs ws -> Forall (fun w => dims w = p ++ q) ws -> ws <> [] ->
  exists y w, stack_ (map Pr xs) (length p) = Ok (Pr y) /\ secret k sc y w /\ dims w = p ++ length ws :: q /\
  forall t ip iq, t < length ws -> valid p ip -> valid q iq ->
    value w (ip ++ t :: iq) = value (nth t ws (Raw [] [])) (ip ++ iq).
Proof.
  intros HF HD NE. destruct (stack_k_ok p q ws NE) as (src & E & Hs). pose proof (stack_good p q ws src Hs) as G.
  assert (SH : map dims ws = map (fun _ => p ++ q) ws).
  { clear -HD. induction HD as [|w ws Hw H IH]; [reflexivity|]. cbn [map]. rewrite Hw, IH. reflexivity. }
  rewrite <- SH in E, G. destruct (join_private_ok _ k sc xs ws _ src HF NE E G) as (y & Ey & Sy).
  exists y, (Raw (p ++ length ws :: q) (moved ws (p ++ length ws :: q) src)).
  split; [exact Ey|]. split; [exact Sy|]. split; [reflexivity|].
  intros t ip iq T V1 V2. rewrite moved_value; [|exact G|apply valid_mid_mk; assumption].
  rewrite Hs by exact (valid_len _ _ V1). reflexivity.
Qed.
Print Assumptions C114_stack.

Lemma parts_ok (mk : nat -> res any) num : (forall t, t < num -> exists y, mk t = Ok y) ->
  exists ys, parts mk num 0 = Ok ys /\ length ys = num /\ forall t, t < num -> exists y, nth_error ys t = Some y /\ mk t = Ok y.
Proof.
  intros P. assert (Q : forall c a, a + c <= num -> exists ys, parts mk c a = Ok ys /\ length ys = c /\
    forall t, t < c -> exists y, nth_error ys t = Some y /\ mk (a + t) = Ok y).
  { induction c as [|c IH]; intros a H; [exists []; repeat split; intros; lia|].
    destruct (P a ltac:(lia)) as (y & Ey). destruct (IH (1 + a) ltac:(lia)) as (ys & E & L & H').
    exists (y :: ys). cbn [parts]. rewrite Ey. cbn [bind]. change (S a) with (1 + a). rewrite E. cbn [bind].
    split; [reflexivity|]. split; [cbn; lia|]. intros [|t] T.
    - exists y. split; [reflexivity|]. rewrite Nat.add_0_r. exact Ey.
    - destruct (H' t ltac:(lia)) as (z & A & B). exists z. split; [exact A|]. replace (a + S t) with (1 + a + t) by lia. exact B. }
  exact (Q num 0 ltac:(lia)).
Qed.
(** A tensor is split into [num] parts of equal length along an axis. *)
Theorem C114_split k sc p q num m x w : secret k sc x w -> dims w = p ++ num * m :: q -> 0 < num ->
  exists ys, split_ (Pr x) num (length p) = Ok ys /\ length ys = num /\
  forall t, t < num -> exists y w', nth_error ys t = Some (Pr y) /\ secret k sc y w' /\ dims w' = p ++ m :: q /\
  forall ip j iq, valid p ip -> j < m -> valid q iq -> value w' (ip ++ j :: iq) = value w (ip ++ t * m + j :: iq).
Proof.
  intros S D N. unfold split_. destruct (Nat.eqb_spec num 0) as [->|_]; [lia|].
  set (mk := fun t : nat => do y <- on_shares (split_k num (length p) t) [x] (tsc x) (tty x) (tfc x); Ok (Pr y)).
  assert (P : forall t, t < num -> exists y w', mk t = Ok (Pr y) /\ secret k sc y w' /\ dims w' = p ++ m :: q /\
    forall ip j iq, valid p ip -> j < m -> valid q iq -> value w' (ip ++ j :: iq) = value w (ip ++ t * m + j :: iq)).
  { intros t T. destruct (split_k_ok p q num m t N) as (src & E & Hs). pose proof (split_good p q num m t src T Hs) as G.
    assert (SH : map dims [w] = [p ++ num * m :: q]) by (cbn; rewrite D; reflexivity). rewrite <- SH in E, G.
    destruct (shares_ok _ k sc [x] [w] _ src (Forall2_cons _ _ S (Forall2_nil _)) E G) as (y & Ey & Sy).
    exists y, (Raw (p ++ m :: q) (moved [w] (p ++ m :: q) src)). destruct (S) as (_ & F1 & F2 & F3 & _).
    unfold mk. rewrite F1, F2, F3, Ey. cbn [bind]. do 3 (split; [reflexivity||exact Sy|]).
    intros ip j iq V1 J V2. rewrite moved_value; [|exact G|apply valid_mid_mk; assumption].
    rewrite Hs by exact (valid_len _ _ V1). reflexivity. }
  destruct (parts_ok mk num) as (ys & E & L & H).
  { intros t T. destruct (P t T) as (y & _ & Ey & _). exists (Pr y). exact Ey. }
  exists ys. split; [exact E|]. split; [exact L|].
  intros t T. destruct (H t T) as (z & A & B). destruct (P t T) as (y & w' & C & R).
  rewrite C in B. injection B as <-. exists y, w'. split; [exact A|exact R].
Qed.
Print Assumptions C114_split.

(** Public tensors are joined and split in the same way. *)
Theorem C114_concat_public f sc p q xs ws ns : Forall2 (known f sc) xs ws -> Forall2 (fun w n => dims w = p ++ n :: q) ws ns -> ws <> [] ->
  exists y w, concat_ (map Pu xs) (length p) = Ok (Pu y) /\ known f sc y w /\ dims w = p ++ list_sum ns :: q /\
  forall t ip j iq, t < length ws -> valid p ip -> j < nth t ns 0 -> valid q iq ->
    value w (ip ++ list_sum (firstn t ns) + j :: iq) = value (nth t ws (Raw [] [])) (ip ++ j :: iq).
Proof.
  intros HF HD NE. pose proof (same_len _ _ _ HD) as LN. pose proof (shapes_all p q ws ns HD) as SH.
  destruct (concat_k_ok p q ns ltac:(intros ->; destruct ws; [congruence|discriminate])) as (src & E & Hs).
  pose proof (concat_good p q ns src Hs) as G.
  rewrite <- SH in E, G. destruct (join_public_ok _ f sc xs ws _ src HF NE E) as (y & Ey & Sy).
  exists y, (Raw (p ++ list_sum ns :: q) (moved ws (p ++ list_sum ns :: q) src)).
  split; [exact Ey|]. split; [exact Sy|]. split; [reflexivity|].
  intros t ip j iq T V1 J V2. rewrite moved_value; [|exact G|].
  - rewrite Hs by (rewrite <- ?LN; try assumption; exact (valid_len _ _ V1)). reflexivity.
  - apply valid_mid_mk; [assumption| |assumption]. rewrite LN in T. clear -T J.
    unfold list_sum. revert t T J. induction ns as [|n ns IH]; intros [|t] T J; cbn [firstn fold_right nth length] in *; try lia.
    specialize (IH t ltac:(lia) J). lia.
Qed.
Print Assumptions C114_concat_public.

Theorem C114_stack_public f sc p q xs ws : Forall2 (known f sc) xs ws -> Forall (fun w => dims w = p ++ q) ws -> ws <> [] ->
  exists y w, stack_ (map Pu xs) (length p) = Ok (Pu y) /\ known f sc y w /\ dims w = p ++ length ws :: q /\
  forall t ip iq, t < length ws -> valid p ip -> valid q iq ->
    value w (ip ++ t :: iq) = value (nth t ws (Raw [] [])) (ip ++ iq).
Proof.
  intros HF HD NE. destruct (stack_k_ok p q ws NE) as (src & E & Hs). pose proof (stack_good p q ws src Hs) as G.
  assert (SH : map dims ws = map (fun _ => p ++ q) ws).
  { clear -HD. induction HD as [|w ws Hw H IH]; [reflexivity|]. cbn [map]. rewrite Hw, IH. reflexivity. }
  rewrite <- SH in E, G. destruct (join_public_ok _ f sc xs ws _ src HF NE E) as (y & Ey & Sy).
  exists y, (Raw (p ++ length ws :: q) (moved ws (p ++ length ws :: q) src)).
  split; [exact Ey|]. split; [exact Sy|]. split; [reflexivity|].
  intros t ip iq T V1 V2. rewrite moved_value; [|exact G|apply valid_mid_mk; assumption].
  rewrite Hs by exact (valid_len _ _ V1). reflexivity.
Qed.
Print Assumptions C114_stack_public.

Theorem C114_split_public f sc p q num m x w : known f sc x w -> dims w = p ++ num * m :: q -> 0 < num ->
  exists ys, split_ (Pu x) num (length p) = Ok ys /\ length ys = num /\
  forall t, t < num -> exists y w', nth_error ys t = Some (Pu y) /\ known f sc y w' /\ dims w' = p ++ m :: q /\
  forall ip j iq, valid p ip -> j < m -> valid q iq -> value w' (ip ++ j :: iq) = value w (ip ++ t * m + j :: iq).
Proof.
  intros S D N. unfold split_. destruct (Nat.eqb_spec num 0) as [->|_]; [lia|].
  set (mk := fun t : nat => do y <- on_copies (split_k num (length p) t) [x] (usc x) (ufc x); Ok (Pu y)).
  assert (P : forall t, t < num -> exists y w', mk t = Ok (Pu y) /\ known f sc y w' /\ dims w' = p ++ m :: q /\
    forall ip j iq, valid p ip -> j < m -> valid q iq -> value w' (ip ++ j :: iq) = value w (ip ++ t * m + j :: iq)).
  { intros t T. destruct (split_k_ok p q num m t N) as (src & E & Hs). pose proof (split_good p q num m t src T Hs) as G.
    assert (SH : map dims [w] = [p ++ num * m :: q]) by (cbn; rewrite D; reflexivity). rewrite <- SH in E, G.
    destruct (copies_ok _ f sc [x] [w] _ src (Forall2_cons _ _ S (Forall2_nil _)) E) as (y & Ey & Sy).
    exists y, (Raw (p ++ m :: q) (moved [w] (p ++ m :: q) src)). destruct (S) as (_ & F1 & F2 & _).
    unfold mk. rewrite F1, F2, Ey. cbn [bind]. do 3 (split; [reflexivity||exact Sy|]).
    intros ip j iq V1 J V2. rewrite moved_value; [|exact G|apply valid_mid_mk; assumption].
    rewrite Hs by exact (valid_len _ _ V1). reflexivity. }
  destruct (parts_ok mk num) as (ys & E & L & H).
  { intros t T. destruct (P t T) as (y & _ & Ey & _). exists (Pu y). exact Ey. }
  exists ys. split; [exact E|]. split; [exact L|].
  intros t T. destruct (H t T) as (z & A & B). destruct (P t T) as (y & w' & C & R).
  rewrite C in B. injection B as <-. exists y, w'. split; [exact A|exact R].
Qed.
Print Assumptions C114_split_public.

Lemma index_one is_ a ds : Forall (fun v => 0 <= v)%Z is_ -> index_k is_ a ds = one (Gather (map Z.to_nat is_) a) ds.
Proof.
  intros H. unfold index_k. replace (forallb (fun v => 0 <=? v)%Z is_) with true; [reflexivity|].
  symmetry. apply forallb_forall. intros v Hv. apply Z.leb_le. rewrite Forall_forall in H. exact (H v Hv).
Qed.
Lemma gather_same f sc i wi x a : known f sc i wi -> Forall (fun v => 0 <= v)%Z (data wi) ->
  gather_by x i a = move (Gather (map Z.to_nat (data wi)) a) x.
Proof.
  intros (_ & _ & _ & _ & E0 & E1 & E2) H.
  assert (A : forall ts, apply (index_k (data wi) a) ts = apply (one (Gather (map Z.to_nat (data wi)) a)) ts).
  { intros ts. unfold apply. rewrite index_one by exact H. reflexivity. }
  destruct x as [x|x]; unfold gather_by, move, on_shares, on_copies; rewrite E0, E1, E2; cbn [map]; rewrite !A.
  - repeat (match goal with |- context [bind (apply ?k ?t) _] => destruct (apply k t) end; cbn [bind]; [|reflexivity]).
    destruct (forallb _ _); reflexivity.
  - repeat (match goal with |- context [bind (apply ?k ?t) _] => destruct (apply k t) end; cbn [bind]; [|reflexivity]).
    destruct (forallb _ _); reflexivity.
Qed.
Lemma mid_eq {A} (p p' q q' : list A) n n' : length p = length p' -> p ++ n :: q = p' ++ n' :: q' -> p = p' /\ n = n' /\ q = q'.
Proof.
  revert p'. induction p as [|h p IH]; intros [|h' p'] L E; try discriminate; cbn in E.
  - injection E as -> ->. auto.
  - injection E as -> E. cbn in L. destruct (IH p' ltac:(lia) E) as (-> & -> & ->). auto.
Qed.
Lemma from_gather idx d ip j iq jx : from (Gather idx (length ip)) d (ip ++ j :: iq) jx -> jx = ip ++ nth j idx 0 :: iq.
Proof.
  intros F. remember (Gather idx (length ip)) as o eqn:Eo. remember (ip ++ j :: iq) as ix eqn:Ei.
  destruct F; try discriminate. injection Eo as -> L. destruct (mid_eq _ _ _ _ _ _ L Ei) as (-> & -> & ->). reflexivity.
Qed.
(** Gathering by a public tensor of unscaled integers takes the entries at these integers. *)
Theorem C114_gather_public k sc x w p n q f i wi : secret k sc x w -> dims w = p ++ n :: q -> known f false i wi ->
  Forall (fun v => 0 <= v < Z.of_nat n)%Z (data wi) ->
  exists y w', gather_by (Pr x) i (length p) = Ok (Pr y) /\ secret k sc y w' /\ dims w' = p ++ length (data wi) :: q /\
  forall ip j iq, valid p ip -> j < length (data wi) -> valid q iq ->
    value w' (ip ++ j :: iq) = value w (ip ++ Z.to_nat (nth j (data wi) 0%Z) :: iq).
Proof.
  intros S D K H. rewrite (gather_same f false i wi (Pr x) (length p) K).
  2:{ eapply Forall_impl; [|exact H]. cbn. intros; lia. }
  destruct (C114_move k sc x w (Gather (map Z.to_nat (data wi)) (length p)) (p ++ length (data wi) :: q) S) as (y & w' & E & Sy & Dy & V).
  { rewrite D. rewrite <- (map_length Z.to_nat (data wi)). constructor. apply Forall_map.
    eapply Forall_impl; [|exact H]. cbn. intros; lia. }
  exists y, w'. split; [exact E|]. split; [exact Sy|]. split; [exact Dy|].
  intros ip j iq V1 J V2. destruct (V (ip ++ j :: iq)) as (jx & _ & F & Q); [apply valid_mid_mk; assumption|]. rewrite Q. f_equal.
  rewrite <- (valid_len _ _ V1) in F. rewrite (from_gather _ _ _ _ _ _ F).
  change 0 with (Z.to_nat 0%Z) at 1. rewrite map_nth. reflexivity.
Qed.
Print Assumptions C114_gather_public.

(** Public constants are scaled unless told otherwise, and the words themselves are the indices: with [k] fractional bits a
    scaled index other than 0 is refused whenever the axis has no more than 2^k entries. *)
Theorem C114_scaled_index_refuted kd sc x w p n q f i wi k v : secret kd sc x w -> dims w = p ++ n :: q ->
  known f true i wi -> (0 <= k)%Z -> (Z.of_nat n <= 2 ^ k)%Z -> In v (map (fun z => z / 2 ^ k)%Z (data wi)) -> (0 < v)%Z ->
  gather_by (Pr x) i (length p) = Err InvalidArgument.
Proof.
  intros S D (_ & _ & _ & _ & E0 & _ & _) Hk N I P. unfold gather_by. rewrite E0.
  destruct (S) as (Dx & _). rewrite Dx, D.
  assert (A : apply (index_k (data wi) (length p)) [Raw (p ++ n :: q) (t00 x)] = Err InvalidArgument).
  { unfold apply, index_k. destruct (forallb (fun v0 => 0 <=? v0)%Z (data wi)); [|reflexivity].
    cbn [map dims]. unfold one. cbn [nth kernel_of]. rewrite mid_lt, nth_middle.
    replace (forallb (fun i0 => i0 <? n) (map Z.to_nat (data wi))) with false; [reflexivity|].
    symmetry. apply Bool.not_true_iff_false. intros H. rewrite forallb_forall in H.
    apply in_map_iff in I as (z & <- & Hz). specialize (H _ (in_map Z.to_nat _ _ Hz)). apply Nat.ltb_lt in H.
    assert (2 ^ k <= z)%Z.
    { pose proof (Z.pow_pos_nonneg 2 k ltac:(lia) Hk). pose proof (Z.mul_div_le z (2 ^ k) ltac:(lia)). nia. }
    lia. }
  rewrite A. reflexivity.
Qed.
Print Assumptions C114_scaled_index_refuted.

(** Padding surrounds the entries with zeros. *)
Theorem C114_pad k sc ps x w : sensible k -> secret k sc x w -> length ps <= length (dims w) ->
  exists y w', pad (Pr x) ps = Ok (Pr y) /\ secret k sc y w' /\ dims w' = padded ps (dims w) /\
  forall ix, valid (padded ps (dims w)) ix ->
    value w' ix = match inside ps (dims w) ix with Some jx => value w jx | None => 0%Z end.
Proof.
  intros K S L. destruct (pad_from_ok k sc K ps [] (dims w) x w S eq_refl L) as (y & w' & E & Sy & D & V).
  exists y, w'. split; [exact E|]. split; [exact Sy|]. split; [exact D|].
  intros ix Vx. exact (V [] ix (Forall2_nil _) Vx).
Qed.
Print Assumptions C114_pad.

(** An arithmetic sharing of [5; 7] and a boolean one of [5; 2], in 64-bit words. *)
Definition ex_x : tens := Tens [2] true Arith (FI 64) [1; 2]%Z [2; 2]%Z [2; 2]%Z [2; 3]%Z [2; 3]%Z [1; 2]%Z.
Definition ex_y : tens := Tens [2] true Bool_ (FI 64) [1; 2]%Z [3; 0]%Z [3; 0]%Z [7; 0]%Z [7; 0]%Z [1; 2]%Z.
Lemma ex_x_ok : secret (KArith 64) true ex_x (Raw [2] [5; 7]%Z).
Proof.
  unfold secret. cbn -[shares entry]. do 5 (split; [reflexivity|]). split; [repeat constructor|].
  intros [|[|e]] He; [| |lia]; vm_compute; repeat split; discriminate.
Qed.
Lemma ex_y_ok : secret (KBool (FI 64)) true ex_y (Raw [2] [5; 2]%Z).
Proof.
  unfold secret. cbn -[shares entry]. do 5 (split; [reflexivity|]). split; [repeat constructor|].
  intros [|[|e]] He; [| |lia]; vm_compute; repeat split; discriminate.
Qed.

(** Concatenating an arithmetic with a boolean sharing is not refused: the result counts as an arithmetic sharing, and the
    entries of the second tensor come out wrong. *)
Theorem C114_mixed_refuted : exists x y z u v w,
  secret (KArith 64) true x u /\ secret (KBool (FI 64)) true y v /\ dims u = [2] /\ dims v = [2] /\
  concat_ [Pr x; Pr y] 0 = Ok (Pr z) /\ secret (KArith 64) true z w /\ value w [2] <> value v [0].
Proof.
  exists ex_x, ex_y, (Tens [4] true Arith (FI 64) [1; 2; 1; 2]%Z [2; 2; 3; 0]%Z [2; 2; 3; 0]%Z [2; 3; 7; 0]%Z [2; 3; 7; 0]%Z [1; 2; 1; 2]%Z),
    (Raw [2] [5; 7]%Z), (Raw [2] [5; 2]%Z), (Raw [4] [5; 7; 11; 2]%Z).
  split; [exact ex_x_ok|]. split; [exact ex_y_ok|]. do 2 (split; [reflexivity|]). split; [vm_compute; reflexivity|]. split.
  - unfold secret. cbn -[shares entry]. do 5 (split; [reflexivity|]). split; [repeat constructor|].
    intros [|[|[|[|e]]]] He; [| | | |lia]; vm_compute; repeat split; discriminate.
  - vm_compute. discriminate.
Qed.
Print Assumptions C114_mixed_refuted.

(** What is refused: public tensors can be neither padded nor reversed, public and private tensors cannot be joined, nor can
    fixed-point numbers and integers. *)
Theorem C114_raises :
  (forall x b a ps, (b, a) <> (0, 0) -> pad (Pu x) ((b, a) :: ps) = Err TypeError) /\
  (forall x a, move (Reverse a) (Pu x) = Err TypeError) /\
  (forall xs x y a, In (Pr x) xs -> In (Pu y) xs -> concat_ xs a = Err TypeError /\ stack_ xs a = Err TypeError) /\
  (forall xs x y a, In x xs -> In y xs -> tsc x = true -> tsc y = false ->
    concat_ (map Pr xs) a = Err AssertionError /\ stack_ (map Pr xs) a = Err AssertionError).
Proof.
  split; [|split; [|split]].
  - intros x b a ps N. unfold pad. cbn [pad_from]. unfold append_zeros, prepend_zeros.
    destruct (Nat.eqb_spec a 0) as [->|A]; [|reflexivity]. cbn [bind].
    destruct (Nat.eqb_spec b 0) as [->|B]; [congruence|reflexivity].
  - reflexivity.
  - intros xs x y a Hx Hy. assert (P : publics xs = None).
    { clear Hy. induction xs as [|[z|z] xs IH]; [destruct Hx|reflexivity|]. cbn. rewrite IH; [reflexivity|].
      destruct Hx as [Hx|Hx]; [discriminate|exact Hx]. }
    assert (Q : privates xs = None).
    { clear Hx P. induction xs as [|[z|z] xs IH]; [destruct Hy| |reflexivity]. cbn. rewrite IH; [reflexivity|].
      destruct Hy as [Hy|Hy]; [discriminate|exact Hy]. }
    unfold concat_, stack_, join. rewrite P, Q. split; reflexivity.
  - intros xs x y a Hx Hy Tx Ty.
    assert (A : all_or_none (map tsc xs) = false).
    { unfold all_or_none. apply Bool.orb_false_iff. split; apply Bool.not_true_iff_false; intros H; rewrite forallb_forall in H.
      - specialize (H _ (in_map tsc _ _ Hy)). congruence.
      - specialize (H _ (in_map tsc _ _ Hx)). rewrite Tx in H. discriminate. }
    assert (J : forall kr, join kr (map Pr xs) = Err AssertionError).
    { intros kr. unfold join. rewrite privates_map. destruct xs as [|z xs]; [destruct Hx|].
      change (publics (map Pr (z :: xs))) with (@None (list ptens)). cbv iota. unfold join_private. rewrite A. reflexivity. }
    split; apply J.
Qed.
Print Assumptions C114_raises.

(** The hypotheses can be met. *)
Example C114_move_ex : exists y w', move (Gather [1; 0; 1] 0) (Pr ex_x) = Ok (Pr y) /\ secret (KArith 64) true y w' /\
  value w' [0] = 7%Z /\ value w' [1] = 5%Z.
Proof.
  destruct (C114_move (KArith 64) true ex_x (Raw [2] [5; 7]%Z) (Gather [1; 0; 1] 0) [3] ex_x_ok) as (y & w' & E & S & D & V).
  { apply (l_gather [] 2 [] [1; 0; 1]). repeat constructor. }
  exists y, w'. split; [exact E|]. split; [exact S|].
  assert (K : forall i, i < 3 -> value w' [i] = value (Raw [2] [5; 7]%Z) [nth i [1; 0; 1] 0]).
  { intros i Hi. destruct (V [i]) as (jx & _ & F & Q); [constructor; [exact Hi|constructor]|]. rewrite Q.
    inversion F as [| | | |d idx ip j iq A B C E'| | |]; subst. destruct ip; [|discriminate]. injection C as -> ->. reflexivity. }
  rewrite !K by lia. split; reflexivity.
Qed.
Example C114_transpose_ex : legal (Transpose [1; 0]) [2; 3] [3; 2] /\ from (Transpose [1; 0]) [2; 3] [2; 1] [1; 2].
Proof. split; [apply (l_transpose [2; 3] [1; 0]); cbn; constructor|exact (f_transpose [2; 3] [1; 0] [1; 2])]. Qed.
Example C114_public_ex : known (FI 64) true (PTens [2] true (FI 64) [5; 7]%Z [5; 7]%Z [5; 7]%Z) (Raw [2] [5; 7]%Z) /\
  legal (Tile [2]) [2] [4].
Proof. split; [repeat split|]. constructor; [repeat constructor|reflexivity]. Qed.
Lemma ex_two : Forall2 (secret (KArith 64) true) [ex_x; ex_x] [Raw [2] [5; 7]%Z; Raw [2] [5; 7]%Z].
Proof. constructor; [exact ex_x_ok|]. constructor; [exact ex_x_ok|constructor]. Qed.
Definition ex_p : ptens := PTens [2] true (FI 64) [5; 7]%Z [5; 7]%Z [5; 7]%Z.
Lemma ex_p_ok : known (FI 64) true ex_p (Raw [2] [5; 7]%Z).
Proof. repeat split. Qed.
Lemma ex_p_two : Forall2 (known (FI 64) true) [ex_p; ex_p] [Raw [2] [5; 7]%Z; Raw [2] [5; 7]%Z].
Proof. constructor; [exact ex_p_ok|]. constructor; [exact ex_p_ok|constructor]. Qed.
Example C114_concat_public_ex : exists y w, concat_ (map Pu [ex_p; ex_p]) 0 = Ok (Pu y) /\ known (FI 64) true y w /\ value w [3] = 7%Z.
Proof.
  destruct (C114_concat_public (FI 64) true [] [] [ex_p; ex_p] [Raw [2] [5; 7]%Z; Raw [2] [5; 7]%Z] [2; 2] ex_p_two
    ltac:(repeat constructor) ltac:(discriminate)) as (y & w & E & S & _ & V).
  exists y, w. split; [exact E|]. split; [exact S|]. exact (V 1 [] 1 [] ltac:(cbn; lia) (Forall2_nil _) ltac:(cbn; lia) (Forall2_nil _)).
Qed.
Example C114_stack_public_ex : exists y w, stack_ (map Pu [ex_p; ex_p]) 1 = Ok (Pu y) /\ known (FI 64) true y w /\ value w [0; 1] = 5%Z.
Proof.
  destruct (C114_stack_public (FI 64) true [2] [] [ex_p; ex_p] [Raw [2] [5; 7]%Z; Raw [2] [5; 7]%Z] ex_p_two
    ltac:(repeat constructor) ltac:(discriminate)) as (y & w & E & S & _ & V).
  exists y, w. split; [exact E|]. split; [exact S|]. refine (V 1 [0] [] ltac:(cbn; lia) _ (Forall2_nil _)). repeat constructor.
Qed.
Example C114_split_public_ex : exists ys, split_ (Pu ex_p) 2 0 = Ok ys /\ length ys = 2.
Proof.
  destruct (C114_split_public (FI 64) true [] [] 2 1 ex_p _ ex_p_ok eq_refl ltac:(lia)) as (ys & E & L & _). exists ys. split; assumption.
Qed.
Example C114_concat_ex : exists y w, concat_ (map Pr [ex_x; ex_x]) 0 = Ok (Pr y) /\ secret (KArith 64) true y w /\ value w [3] = 7%Z.
Proof.
  destruct (C114_concat (KArith 64) true [] [] [ex_x; ex_x] [Raw [2] [5; 7]%Z; Raw [2] [5; 7]%Z] [2; 2] ex_two
    ltac:(repeat constructor) ltac:(discriminate)) as (y & w & E & S & _ & V).
  exists y, w. split; [exact E|]. split; [exact S|]. exact (V 1 [] 1 [] ltac:(cbn; lia) (Forall2_nil _) ltac:(cbn; lia) (Forall2_nil _)).
Qed.
Example C114_stack_ex : exists y w, stack_ (map Pr [ex_x; ex_x]) 0 = Ok (Pr y) /\ secret (KArith 64) true y w /\ value w [1; 0] = 5%Z.
Proof.
  destruct (C114_stack (KArith 64) true [] [2] [ex_x; ex_x] [Raw [2] [5; 7]%Z; Raw [2] [5; 7]%Z] ex_two
    ltac:(repeat constructor) ltac:(discriminate)) as (y & w & E & S & _ & V).
  exists y, w. split; [exact E|]. split; [exact S|]. refine (V 1 [] [0] ltac:(cbn; lia) (Forall2_nil _) _). repeat constructor.
Qed.
Definition ex_i (sc : bool) (v : Z) : ptens := PTens [1] sc (FI 64) [v] [v] [v].
Lemma ex_i_ok sc v : known (FI 64) sc (ex_i sc v) (Raw [1] [v]).
Proof. repeat split. Qed.
Example C114_gather_public_ex : exists y w', gather_by (Pr ex_x) (ex_i false 1) 0 = Ok (Pr y) /\ secret (KArith 64) true y w' /\ value w' [0] = 7%Z.
Proof.
  destruct (C114_gather_public (KArith 64) true ex_x _ [] 2 [] (FI 64) _ _ ex_x_ok eq_refl (ex_i_ok false 1)) as (y & w' & E & S & _ & V);
    [repeat constructor; cbn; lia|].
  exists y, w'. split; [exact E|]. split; [exact S|]. exact (V [] 0 [] (Forall2_nil _) ltac:(cbn; lia) (Forall2_nil _)).
Qed.
Example C114_scaled_index_ex : gather_by (Pr ex_x) (ex_i true 65536) 0 = Err InvalidArgument.
Proof.
  apply (C114_scaled_index_refuted (KArith 64) true ex_x _ [] 2 [] (FI 64) _ _ 16 1 ex_x_ok eq_refl (ex_i_ok true 65536));
    try lia. left. reflexivity.
Qed.
Example C114_split_ex : exists a b, split_ (Pr ex_x) 2 0 = Ok [a; b].
Proof. eexists. eexists. vm_compute. reflexivity. Qed.
Example C114_split_met : dims (Raw [2] [5; 7]%Z) = [] ++ 2 * 1 :: [] /\ secret (KArith 64) true ex_x (Raw [2] [5; 7]%Z).
Proof. split; [reflexivity|exact ex_x_ok]. Qed.
Example C114_pad_ex : exists y w', pad (Pr ex_x) [(1, 2)] = Ok (Pr y) /\ secret (KArith 64) true y w' /\ dims w' = [5] /\
  value w' [0] = 0%Z /\ value w' [1] = 5%Z /\ value w' [2] = 7%Z /\ value w' [3] = 0%Z.
Proof.
  destruct (C114_pad (KArith 64) true [(1, 2)] ex_x _ eq_refl ex_x_ok ltac:(cbn; lia)) as (y & w' & E & S & D & V).
  exists y, w'. split; [exact E|]. split; [exact S|]. split; [exact D|].
  assert (K : forall i, i < 5 -> value w' [i] = match inside [(1, 2)] [2] [i] with Some jx => value (Raw [2] [5; 7]%Z) jx | None => 0%Z end).
  { intros i Hi. apply V. constructor; [exact Hi|constructor]. }
  rewrite !K by lia. repeat split.
Qed.
