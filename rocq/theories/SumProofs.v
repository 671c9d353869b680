(** Lemmas about adding up entries. *)
From Coq Require Import Lia.
From Verif Require Import Base TensorModel Aby3Model Aby3Spec StoreModel StoreSpec MoveModel MoveSpec MoveProofs SumModel.
From Verif Require Aby3Bits.
Local Open Scope nat_scope.

Definition sources (d : list nat) (src : list nat -> list (list nat)) (d' : list nat) (e : nat) : list nat :=
  map (ravel d) (src (unravel d' e)).
Definition added (add : list Z -> Z) (t : list Z) (d : list nat) (src : list nat -> list (list nat)) (d' : list nat) : list Z :=
  map (fun e => add (map (fun i => nth i t 0%Z) (sources d src d' e))) (seq 0 (volume d')).
Lemma run_ok (k : adder) add d t d' src : k d = Ok (d', src) -> run k add (Raw d t) = Ok (Raw d' (added add t d src d')).
Proof.
  intros H. unfold run. cbn [dims data]. rewrite H. cbn [bind]. do 2 f_equal. unfold added. apply map_ext. intros e.
  f_equal. unfold sources. rewrite map_map. reflexivity.
Qed.
Lemma added_len add t d src d' : length (added add t d src d') = volume d'.
Proof. unfold added. rewrite map_length, seq_length. reflexivity. Qed.
Lemma added_nth add t d src d' e : e < volume d' ->
  nth e (added add t d src d') 0%Z = add (map (fun i => nth i t 0%Z) (sources d src d' e)).
Proof.
  intros H. unfold added. set (F := fun e : nat => add (map (fun i => nth i t 0%Z) (sources d src d' e))).
  rewrite (nth_indep _ 0%Z (F 0)) by (rewrite map_length, seq_length; exact H).
  rewrite map_nth, seq_nth by exact H. reflexivity.
Qed.
Lemma added_value add t d src d' ix : valid d' ix -> (forall jx, In jx (src ix) -> valid d jx) ->
  value (Raw d' (added add t d src d')) ix = add (map (value (Raw d t)) (src ix)).
Proof.
  intros V G. unfold value. cbn [dims data]. rewrite (pos_ravel _ _ V).
  rewrite added_nth by (apply ravel_lt; exact V). unfold sources. rewrite unravel_ravel by exact V. f_equal.
  rewrite map_map. apply map_ext_in. intros jx Hj. rewrite pos_ravel by exact (G jx Hj). reflexivity.
Qed.

(** The sharing whose shares are the sums of shares of the entries [es]. *)
Definition summed (add : list Z -> Z) (x : tens) (es : list nat) : priv :=
  let g (l : list Z) := add (map (fun e => nth e l 0%Z) es) in
  MkPr (MkV S0 (g (t00 x))) (MkV S0 (g (t01 x))) (MkV S1 (g (t10 x))) (MkV S1 (g (t11 x))) (MkV S2 (g (t20 x))) (MkV S2 (g (t21 x)))
       (tsc x) (tty x) (tfc x).
Lemma sums_ok (kr : adder) add k sc x w d' src : secret k sc x w -> kr (dims w) = Ok (d', src) ->
  (forall ix jx, valid d' ix -> In jx (src ix) -> valid (dims w) jx) ->
  (forall ix, valid d' ix -> let es := map (ravel (dims w)) (src ix) in
     Forall (fun e => e < length (data w)) es -> shares k (summed add x es) (add (map (fun e => nth e (data w) 0%Z) es))) ->
  exists y, on_shares kr add x = Ok y /\ secret k sc y (Raw d' (added add (data w) (dims w) src d')).
Proof.
  intros (D & F1 & F2 & F3 & Len & LF & P) HK G HG. unfold on_shares. rewrite D.
  rewrite !(run_ok kr add (dims w) _ d' src HK). cbn [bind dims data forallb]. rewrite same_refl. cbn [andb].
  eexists. split; [reflexivity|]. unfold secret. cbn [tdims tsc tty tfc t00 t01 t10 t11 t20 t21 dims data].
  rewrite added_len. split; [reflexivity|]. split; [exact F1|]. split; [exact F2|]. split; [exact F3|]. split; [reflexivity|]. split.
  { repeat constructor; apply added_len. }
  intros e He. unfold entry. cbn [t00 t01 t10 t11 t20 t21 tsc tty tfc]. rewrite !added_nth by exact He.
  apply (HG (unravel d' e) (unravel_valid d' e He)). rewrite Forall_forall. intros i Hi. apply in_map_iff in Hi as (jx & <- & Hj).
  rewrite Len. apply ravel_lt. exact (G _ jx (unravel_valid d' e He) Hj).
Qed.

Lemma swrap3 n a b c : (0 < n)%Z -> ((swrap n a + swrap n b + swrap n c) mod 2 ^ n = (a + b + c) mod 2 ^ n)%Z.
Proof.
  intros H. rewrite (Zplus_mod (swrap n a + swrap n b)), (Zplus_mod (swrap n a)), !swrap_mod by exact H.
  rewrite <- (Zplus_mod a b), <- (Zplus_mod (a + b) c). reflexivity.
Qed.
Lemma sum_words_arith n sc x w es : (0 < n)%Z -> secret (KArith n) sc x w -> Forall (fun e => e < length (data w)) es ->
  shares (KArith n) (summed (sum_words n) x es) (sum_words n (map (fun e => nth e (data w) 0%Z) es)).
Proof.
  intros Hn (_ & _ & F2 & F3 & _ & _ & P) H. cbn [shares]. split; [repeat split|].
  assert (Q : forall e, In e es -> arith_vals n (entry x e) (nth e (data w) 0%Z)).
  { intros e He. rewrite Forall_forall in H. exact (proj2 (P e (H e He))). }
  unfold arith_vals, summed, replicated. cbn [pty pfc p00 p01 p10 p11 p20 p21 vz].
  split; [exact F2|]. split; [exact F3|]. split.
  - repeat split; f_equal; apply map_ext_in; intros e He; destruct (Q e He) as (_ & _ & R & _); apply R.
  - unfold word, sum_words. repeat (split; [apply (swrap_range n _ Hn)|]).
    assert (K : ((fold_right Z.add 0 (map (fun e => nth e (t00 x) 0) es) + fold_right Z.add 0 (map (fun e => nth e (t10 x) 0) es)
               + fold_right Z.add 0 (map (fun e => nth e (t20 x) 0) es)) mod 2 ^ n
               = fold_right Z.add 0 (map (fun e => nth e (data w) 0) es) mod 2 ^ n)%Z).
    { clear H P. induction es as [|e es IH]; [reflexivity|]. cbn [map fold_right].
      destruct (Q e ltac:(left; reflexivity)) as (_ & _ & _ & _ & _ & _ & _ & E). cbn [entry p00 p10 p20 vz] in E.
      specialize (IH (fun e' He' => Q e' (or_intror He'))).
      rewrite (Zplus_mod (nth e (data w) 0%Z)), <- E, <- IH, <- Zplus_mod. f_equal. ring. }
    rewrite swrap3, swrap_mod by exact Hn. exact K.
Qed.

(** At most one entry: nothing is added. *)
Lemma scatter_none n : scatter_words n [] = 0%Z.
Proof.
  unfold scatter_words, sum_words. cbn [map fold_right].
  destruct (Z.eqb_spec n 128) as [->|_]; [reflexivity|]. unfold swrap.
  destruct (Z.lt_trichotomy n 1) as [H|[->|H]]; [|reflexivity|].
  - rewrite (Z.pow_neg_r 2 (n - 1)) by lia. rewrite Z.add_0_l, Zmod_0_l. reflexivity.
  - assert (0 < 2 ^ (n - 1))%Z by (apply Z.pow_pos_nonneg; lia).
    assert (2 ^ n = 2 * 2 ^ (n - 1))%Z by (rewrite <- Z.pow_succ_r by lia; f_equal; lia).
    rewrite Z.mod_small by lia. lia.
Qed.
Lemma scatter_single n v : (0 < n)%Z -> word (FI n) v -> scatter_words n [v] = v.
Proof.
  intros Hn W. unfold scatter_words, sum_words. cbn [map fold_right]. rewrite !Z.add_0_r.
  destruct (Z.eqb_spec n 128) as [->|_]; [|apply swrap_id; assumption].
  cbn [limbs nth]. cbn [word] in W. rewrite !swrap_mod by lia. 
  assert (I : in_s 64 (v / 2 ^ 64)).
  { unfold in_s. change (2 ^ (64 - 1))%Z with 9223372036854775808%Z. change (2 ^ (128 - 1))%Z with (9223372036854775808 * 2 ^ 64)%Z in W.
    split; [apply Z.div_le_lower_bound; lia|apply Z.div_lt_upper_bound; lia]. }
  rewrite (swrap_id 64 (v / 2 ^ 64) ltac:(lia) I).
  pose proof (Z.div_mod v (2 ^ 64) ltac:(lia)). lia.
Qed.
Lemma few_ok n k sc x w es : kfc k = FI n -> sensible k -> secret k sc x w -> Forall (fun e => e < length (data w)) es ->
  length es <= 1 -> shares k (summed (scatter_words n) x es) (scatter_words n (map (fun e => nth e (data w) 0%Z) es)).
Proof.
  intros Ek Hk (_ & F1 & F2 & F3 & _ & _ & P) H L.
  assert (Hn : (0 < n)%Z) by (destruct k as [m|[|m]]; cbn in *; congruence).
  pose proof (word_zero k Hk) as W0.
  destruct es as [|e [|e' es]]; [| |cbn in L; lia]; unfold summed; cbn [map].
  - rewrite scatter_none. rewrite F2, F3. destruct k as [m|f]; cbn [shares kty kfc] in *;
      (split; [repeat split|]); unfold arith_vals, bool_vals, replicated; cbn [pty pfc p00 p01 p10 p11 p20 p21 vz];
      repeat split; try reflexivity; apply W0.
  - inversion H as [|? ? He _]; subst. specialize (P e He).
    assert (A : forall v, word (kfc k) v -> scatter_words n [v] = v) by (rewrite Ek; intros v; apply scatter_single; exact Hn).
    assert (B : replicated (entry x e) /\ word (kfc k) (vz (p00 (entry x e))) /\ word (kfc k) (vz (p10 (entry x e))) /\
                word (kfc k) (vz (p20 (entry x e))) /\ word (kfc k) (nth e (data w) 0%Z)).
    { destruct k as [m|f]; cbn [shares kfc] in *.
      - destruct P as (_ & _ & _ & R & W1 & W2 & W3 & W4 & _). tauto.
      - destruct P as (_ & _ & _ & R & W1 & W2 & W3 & E). rewrite <- E. subst f. cbn [word] in *.
        repeat (split; [assumption|]). apply (Aby3Bits.in_s_lxor n); try assumption. apply Aby3Bits.in_s_lxor; assumption. }
    destruct B as ((R1 & R2 & R3) & W1 & W2 & W3 & W4). cbn [entry p00 p01 p10 p11 p20 p21 vz] in *.
    rewrite (A _ W4), (A _ W1), (A _ W2), (A _ W3), R1, R2, R3, (A _ W1), (A _ W2), (A _ W3).
    unfold entry in P. rewrite R1, R2, R3 in P. exact P.
Qed.

(** The kernels. *)
Lemma reduce_axis p m q keep : exists d' src, reduce_k (Some (length p)) keep (p ++ m :: q) = Ok (d', src) /\
  d' = p ++ (if keep then [1] else []) ++ q /\
  (forall ix jx, valid d' ix -> In jx (src ix) -> valid (p ++ m :: q) jx) /\
  forall ip iq, length ip = length p ->
    src (ip ++ (if keep then [0] else []) ++ iq) = map (fun j => ip ++ j :: iq) (seq 0 m).
Proof.
  unfold reduce_k. rewrite mid_lt, nth_middle. eexists. eexists. split; [reflexivity|].
  destruct keep; cbn [app].
  - rewrite at_axis_mid. split; [reflexivity|]. split.
    + intros ix jx V Hj. apply valid_mid in V as (ip & i & iq & -> & L & V1 & Hi & V2).
      apply in_map_iff in Hj as (j & <- & Hj). apply in_seq in Hj. rewrite <- L, firstn_mid, skipn_mid1.
      apply valid_mid_mk; [assumption|lia|assumption].
    + intros ip iq L. rewrite <- L, firstn_mid, skipn_mid1. reflexivity.
  - rewrite firstn_mid, skipn_mid1. split; [reflexivity|]. split.
    + intros ix jx V Hj. apply valid_app in V as (ip & iq & -> & L & V1 & V2).
      apply in_map_iff in Hj as (j & <- & Hj). apply in_seq in Hj. rewrite <- L, firstn_mid, skipn_mid.
      apply valid_mid_mk; [assumption|lia|assumption].
    + intros ip iq L. rewrite <- L, firstn_mid, skipn_mid. reflexivity.
Qed.
Lemma scatter_axis idx n q : Forall (fun i => i < n) idx -> exists src, scatter_k idx n (length idx :: q) = Ok (n :: q, src) /\
  (forall ix jx, valid (n :: q) ix -> In jx (src ix) -> valid (length idx :: q) jx) /\
  forall r iq, src (r :: iq) = map (fun i => i :: iq) (filter (fun i => nth i idx 0 =? r) (seq 0 (length idx))).
Proof.
  intros H. unfold scatter_k. rewrite Nat.eqb_refl.
  replace (forallb (fun i => i <? n) idx) with true
    by (symmetry; apply forallb_forall; intros i Hi; apply Nat.ltb_lt; rewrite Forall_forall in H; exact (H i Hi)).
  cbn [andb]. eexists. split; [reflexivity|]. split.
  - intros ix jx V Hj. apply valid_cons in V as (r & iq & -> & Hr & V). apply in_map_iff in Hj as (i & <- & Hi).
    apply filter_In in Hi as (Hi & _). apply in_seq in Hi. constructor; [lia|exact V].
  - reflexivity.
Qed.
Lemma filter_unique idx i : NoDup idx -> i < length idx ->
  filter (fun j => nth j idx 0 =? nth i idx 0) (seq 0 (length idx)) = [i].
Proof.
  intros N L. replace (length idx) with (i + (1 + (length idx - i - 1))) by lia. rewrite !seq_app, !filter_app. cbn [seq filter].
  rewrite Nat.add_0_l, Nat.eqb_refl.
  assert (E : forall l, (forall j, In j l -> j < length idx /\ j <> i) -> filter (fun j => nth j idx 0 =? nth i idx 0) l = []).
  { induction l as [|j l IH]; intros Hl; [reflexivity|]. cbn [filter]. destruct (Nat.eqb_spec (nth j idx 0) (nth i idx 0)) as [Q|_].
    - destruct (Hl j ltac:(left; reflexivity)) as [A B]. destruct B. exact (proj1 (NoDup_nth idx 0) N _ _ A L Q).
    - apply IH. intros j' Hj'. apply Hl. right. exact Hj'. }
  rewrite !E; [reflexivity| |]; intros j Hj; apply in_seq in Hj; lia.
Qed.
Lemma filter_none idx r : ~ In r idx -> filter (fun j => nth j idx 0 =? r) (seq 0 (length idx)) = [].
Proof.
  intros N. assert (E : forall l, (forall j, In j l -> j < length idx) -> filter (fun j => nth j idx 0 =? r) l = []).
  { induction l as [|j l IH]; intros Hl; [reflexivity|]. cbn [filter]. destruct (Nat.eqb_spec (nth j idx 0) r) as [<-|_].
    - destruct N. apply nth_In. apply Hl. left. reflexivity.
    - apply IH. intros j' Hj'. apply Hl. right. exact Hj'. }
  apply E. intros j Hj. apply in_seq in Hj. lia.
Qed.
