(** C115: sums and scatters in ABY3. *)
From Coq Require Import Lia.
From Verif Require Import Base TensorModel Aby3Model Aby3Spec StoreModel StoreSpec MoveModel MoveSpec MoveProofs SumModel SumProofs MoveProps.
Local Open Scope nat_scope.

(** The sum of an arithmetic sharing along an axis, with or without keeping the axis, is a sharing of the sums in the ring. *)
Theorem C115_reduce_sum n sc x w p m q (keep : bool) : (0 < n)%Z -> secret (KArith n) sc x w -> dims w = p ++ m :: q ->
  exists y w', reduce_sum x (Some (length p)) keep = Ok y /\ secret (KArith n) sc y w' /\
  dims w' = p ++ (if keep then [1] else []) ++ q /\
  forall ip iq, valid p ip -> valid q iq ->
    value w' (ip ++ (if keep then [0] else []) ++ iq) =
    swrap n (fold_right Z.add 0%Z (map (fun j => value w (ip ++ j :: iq)) (seq 0 m))).
Proof.
  intros Hn S D. destruct (reduce_axis p m q keep) as (d' & src & E & Ed & G & Hs). rewrite <- D in E, G.
  destruct (sums_ok _ (sum_words n) (KArith n) sc x w d' src S E G) as (y & Ey & Sy).
  { intros ix V es F. exact (sum_words_arith n sc x w es Hn S F). }
  exists y, (Raw d' (added (sum_words n) (data w) (dims w) src d')).
  destruct (S) as (_ & _ & _ & F3 & _). unfold reduce_sum. rewrite F3. cbn [kfc]. split; [exact Ey|]. split; [exact Sy|]. split; [exact Ed|].
  intros ip iq V1 V2.
  assert (V : valid d' (ip ++ (if keep then [0] else []) ++ iq)).
  { rewrite Ed. apply valid_mk; [exact V1|]. destruct keep; cbn [app]; [constructor; [lia|exact V2]|exact V2]. }
  rewrite added_value; [|exact V|intros jx; apply G; exact V].
  rewrite Hs by exact (valid_len _ _ V1). rewrite map_map. destruct w; reflexivity.
Qed.
Print Assumptions C115_reduce_sum.

(** Without an axis everything is added up. *)
Theorem C115_reduce_all n sc x w (keep : bool) : (0 < n)%Z -> secret (KArith n) sc x w ->
  let ones := if keep then repeat 1 (length (dims w)) else [] in
  exists y w', reduce_sum x None keep = Ok y /\ secret (KArith n) sc y w' /\ dims w' = ones /\
  value w' (map (fun _ => 0) ones) = swrap n (fold_right Z.add 0%Z (data w)).
Proof.
  intros Hn S ones. set (src := fun _ : list nat => map (unravel (dims w)) (seq 0 (volume (dims w)))).
  assert (E : reduce_k None keep (dims w) = Ok (ones, src)) by reflexivity.
  assert (G : forall ix jx, valid ones ix -> In jx (src ix) -> valid (dims w) jx).
  { intros ix jx _ Hj. apply in_map_iff in Hj as (e & <- & He). apply in_seq in He. apply unravel_valid. lia. }
  destruct (sums_ok _ (sum_words n) (KArith n) sc x w ones src S E G) as (y & Ey & Sy).
  { intros ix V es F. exact (sum_words_arith n sc x w es Hn S F). }
  exists y, (Raw ones (added (sum_words n) (data w) (dims w) src ones)).
  destruct (S) as (_ & _ & _ & F3 & Len & _). unfold reduce_sum. rewrite F3. cbn [kfc].
  split; [exact Ey|]. split; [exact Sy|]. split; [reflexivity|].
  assert (V : valid ones (map (fun _ => 0) ones)).
  { unfold ones. destruct keep; [|constructor]. clear. induction (length (dims w)) as [|l IH]; cbn; [constructor|constructor; [lia|exact IH]]. }
  rewrite added_value; [|exact V|intros jx; apply G; exact V].
  unfold sum_words, src. f_equal. f_equal. rewrite map_map.
  apply (nth_ext _ _ 0%Z 0%Z); [rewrite map_length, seq_length; symmetry; exact Len|].
  rewrite map_length, seq_length. intros e He.
  set (F := fun e : nat => value (Raw (dims w) (data w)) (unravel (dims w) e)).
  rewrite (nth_indep _ 0%Z (F 0)) by (rewrite map_length, seq_length; exact He). rewrite map_nth, seq_nth by exact He.
  unfold F, value. cbn [dims data]. rewrite pos_ravel by (apply unravel_valid; exact He). rewrite ravel_unravel by exact He. reflexivity.
Qed.
Print Assumptions C115_reduce_all.

(** Public tensors are added up in the same way. *)
Theorem C115_reduce_sum_public n sc x w p m q (keep : bool) : known (FI n) sc x w -> dims w = p ++ m :: q ->
  exists y w', reduce_sum_public x (Some (length p)) keep = Ok y /\ known (FI n) sc y w' /\
  dims w' = p ++ (if keep then [1] else []) ++ q /\
  forall ip iq, valid p ip -> valid q iq ->
    value w' (ip ++ (if keep then [0] else []) ++ iq) =
    swrap n (fold_right Z.add 0%Z (map (fun j => value w (ip ++ j :: iq)) (seq 0 m))).
Proof.
  intros (K1 & K2 & K3 & Len & K4 & K5 & K6) D. destruct (reduce_axis p m q keep) as (d' & src & E & Ed & G & Hs). rewrite <- D in E, G.
  exists (PTens d' sc (FI n) (added (sum_words n) (data w) (dims w) src d') (added (sum_words n) (data w) (dims w) src d')
            (added (sum_words n) (data w) (dims w) src d')), (Raw d' (added (sum_words n) (data w) (dims w) src d')).
  split.
  { unfold reduce_sum_public. rewrite K3, K1, K2, K4, K5, K6, !(run_ok _ (sum_words n) _ _ d' src E).
    cbn [bind dims data forallb]. rewrite same_refl. reflexivity. }
  split; [repeat split; apply added_len|]. split; [exact Ed|].
  intros ip iq V1 V2.
  assert (V : valid d' (ip ++ (if keep then [0] else []) ++ iq)).
  { rewrite Ed. apply valid_mk; [exact V1|]. destruct keep; cbn [app]; [constructor; [lia|exact V2]|exact V2]. }
  rewrite added_value; [|exact V|intros jx; apply G; exact V].
  rewrite Hs by exact (valid_len _ _ V1). rewrite map_map. destruct w; reflexivity.
Qed.
Print Assumptions C115_reduce_sum_public.

(** scatter_nd adds up the entries with the same index, for words of any size but 128 bits. *)
Theorem C115_scatter n sc x w idx m q : (0 < n)%Z -> n <> 128%Z -> secret (KArith n) sc x w -> dims w = length idx :: q ->
  Forall (fun i => i < m) idx ->
  exists y w', scatter_nd idx x m = Ok y /\ secret (KArith n) sc y w' /\ dims w' = m :: q /\
  forall r iq, r < m -> valid q iq ->
    value w' (r :: iq) =
    swrap n (fold_right Z.add 0%Z (map (fun i => value w (i :: iq)) (filter (fun i => nth i idx 0 =? r) (seq 0 (length idx))))).
Proof.
  intros Hn N S D H. destruct (scatter_axis idx m q H) as (src & E & G & Hs). rewrite <- D in E, G.
  assert (A : forall l, scatter_words n l = sum_words n l).
  { intros l. unfold scatter_words. destruct (Z.eqb_spec n 128); [contradiction|reflexivity]. }
  destruct (sums_ok _ (scatter_words n) (KArith n) sc x w (m :: q) src S E G) as (y & Ey & Sy).
  { intros ix V es F. unfold summed. rewrite !A. exact (sum_words_arith n sc x w es Hn S F). }
  exists y, (Raw (m :: q) (added (scatter_words n) (data w) (dims w) src (m :: q))).
  destruct (S) as (_ & _ & _ & F3 & _). unfold scatter_nd. rewrite F3. cbn [kfc]. split; [exact Ey|]. split; [exact Sy|]. split; [reflexivity|].
  intros r iq Hr V2. assert (V : valid (m :: q) (r :: iq)) by (constructor; assumption).
  rewrite added_value; [|exact V|intros jx; apply G; exact V]. rewrite A, Hs, map_map. destruct w; reflexivity.
Qed.
Print Assumptions C115_scatter.

(** The same with public 64-bit indices, whose words are used as they are, scaled or not. *)
Theorem C115_scatter_public sc si x w idx wi m q : secret (KArith 64) sc x w -> known (FI 64) si idx wi ->
  dims wi = [length (data wi); 1] -> dims w = length (data wi) :: q -> Forall (fun v => 0 <= v < Z.of_nat m)%Z (data wi) ->
  exists y w', scatter_by idx x m = Ok y /\ secret (KArith 64) sc y w' /\ dims w' = m :: q /\
  forall r iq, r < m -> valid q iq ->
    value w' (r :: iq) =
    swrap 64 (fold_right Z.add 0%Z (map (fun i => value w (i :: iq))
      (filter (fun i => nth i (data wi) 0 =? Z.of_nat r)%Z (seq 0 (length (data wi)))))).
Proof.
  intros S (K1 & _ & K3 & _ & K4 & K5 & K6) Di D H.
  assert (H' : Forall (fun i => i < m) (map Z.to_nat (data wi))).
  { apply Forall_map. eapply Forall_impl; [|exact H]. cbn. intros v Hv. lia. }
  destruct (C115_scatter 64 sc x w (map Z.to_nat (data wi)) m q ltac:(lia) ltac:(lia) S ltac:(rewrite map_length; exact D) H')
    as (y & w' & E & Sy & Dy & V).
  exists y, w'. split.
  { rewrite <- E. destruct (S) as (_ & _ & _ & F3 & _). cbn [kfc] in F3.
    unfold scatter_by, scatter_nd, on_shares. rewrite K3, F3, K1, K4, K5, K6, Di.
    unfold run, words_k.
    replace (forallb (fun v => (0 <=? v)%Z) (data wi)) with true
      by (symmetry; apply forallb_forall; intros v Hv; rewrite Forall_forall in H; specialize (H v Hv); apply Z.leb_le; lia).
    reflexivity. }
  split; [exact Sy|]. split; [exact Dy|]. intros r iq Hr Vq. rewrite (V r iq Hr Vq). rewrite map_length. do 3 f_equal.
  apply filter_ext_in. intros i Hi. apply in_seq in Hi. change 0 with (Z.to_nat 0) at 1. rewrite map_nth.
  rewrite Forall_forall in H. assert (I : In (nth i (data wi) 0%Z) (data wi)) by (apply nth_In; lia). specialize (H _ I).
  destruct (Nat.eqb_spec (Z.to_nat (nth i (data wi) 0%Z)) r), (Z.eqb_spec (nth i (data wi) 0%Z) (Z.of_nat r)); try reflexivity; lia.
Qed.
Print Assumptions C115_scatter_public.

(** With distinct indices scatter_nd moves the entries to them and fills up with zeros, for words of every size and both kinds of sharing. *)
Theorem C115_scatter_distinct k n sc x w idx m q : kfc k = FI n -> sensible k -> secret k sc x w -> dims w = length idx :: q ->
  Forall (fun i => i < m) idx -> NoDup idx ->
  exists y w', scatter_nd idx x m = Ok y /\ secret k sc y w' /\ dims w' = m :: q /\
  (forall i iq, i < length idx -> valid q iq -> value w' (nth i idx 0 :: iq) = value w (i :: iq)) /\
  (forall r iq, r < m -> ~ In r idx -> valid q iq -> value w' (r :: iq) = 0%Z).
Proof.
  intros Ek Hk S D H N. destruct (scatter_axis idx m q H) as (src & E & G & Hs). rewrite <- D in E, G.
  assert (C : forall r iq, length (src (r :: iq)) <= 1).
  { intros r iq. rewrite Hs, map_length. destruct (in_dec Nat.eq_dec r idx) as [I|I].
    - apply (In_nth _ _ 0) in I as (i & Hi & <-). rewrite filter_unique by assumption. cbn. lia.
    - rewrite filter_none by exact I. cbn. lia. }
  destruct (sums_ok _ (scatter_words n) k sc x w (m :: q) src S E G) as (y & Ey & Sy).
  { intros ix V es F. apply (few_ok n k sc x w es Ek Hk S F). unfold es. rewrite map_length.
    apply valid_cons in V as (r & iq & -> & _ & _). apply C. }
  exists y, (Raw (m :: q) (added (scatter_words n) (data w) (dims w) src (m :: q))).
  destruct (S) as (_ & _ & _ & F3 & Len & _ & P). unfold scatter_nd. rewrite F3, Ek.
  split; [exact Ey|]. split; [exact Sy|]. split; [reflexivity|].
  assert (Hn : (0 < n)%Z) by (destruct k as [?|[|?]]; cbn in *; congruence).
  split.
  - intros i iq Hi V2. assert (V : valid (m :: q) (nth i idx 0 :: iq)).
    { constructor; [|exact V2]. rewrite Forall_forall in H. apply H, nth_In, Hi. }
    rewrite added_value; [|exact V|intros jx; apply G; exact V]. rewrite Hs, filter_unique by assumption. cbn [map].
    replace (Raw (dims w) (data w)) with w by (destruct w; reflexivity). apply scatter_single; [exact Hn|].
    assert (Vi : valid (dims w) (i :: iq)) by (rewrite D; constructor; assumption).
    unfold value. rewrite pos_ravel by exact Vi. specialize (P (ravel (dims w) (i :: iq))). rewrite Len in P.
    specialize (P (ravel_lt _ _ Vi)). destruct k as [m0|f]; cbn [shares kfc] in *.
    + injection Ek as ->. destruct P as (_ & _ & _ & _ & _ & _ & _ & W & _). exact W.
    + destruct P as (_ & _ & _ & _ & W1 & W2 & W3 & Ev). rewrite <- Ev. subst f. cbn [word] in *.
      apply (Aby3Bits.in_s_lxor n); try assumption. apply Aby3Bits.in_s_lxor; assumption.
  - intros r iq Hr I V2. assert (V : valid (m :: q) (r :: iq)) by (constructor; assumption).
    rewrite added_value; [|exact V|intros jx; apply G; exact V]. rewrite Hs, filter_none by exact I. apply scatter_none.
Qed.
Print Assumptions C115_scatter_distinct.

(** Sums of boolean sharings are not refused, but the shares are added although the result is a boolean sharing. *)
Theorem C115_boolean_refuted : exists x w y w', secret (KBool (FI 64)) true x w /\ dims w = [2] /\
  reduce_sum x (Some 0) false = Ok y /\ secret (KBool (FI 64)) true y w' /\
  value w' [] <> (value w [0%nat] + value w [1%nat])%Z /\ value w' [] <> Z.lxor (value w [0]) (value w [1]).
Proof.
  exists (Tens [2] true Bool_ (FI 64) [1; 1]%Z [1; 2]%Z [1; 2]%Z [1; 4]%Z [1; 4]%Z [1; 1]%Z), (Raw [2] [1; 7]%Z),
    (Tens [] true Bool_ (FI 64) [2]%Z [3]%Z [3]%Z [5]%Z [5]%Z [2]%Z), (Raw [] [4]%Z).
  split; [|split; [reflexivity|split; [vm_compute; reflexivity|split; [|split; vm_compute; discriminate]]]];
    (unfold secret; cbn -[shares entry]; do 5 (split; [reflexivity|]); split; [repeat constructor|]).
  - intros [|[|e]] He; [| |lia]; vm_compute; repeat split; discriminate.
  - intros [|e] He; [|lia]; vm_compute; repeat split; discriminate.
Qed.
Print Assumptions C115_boolean_refuted.

(** 128-bit words with the same index are added limb by limb, without the carry. *)
Theorem C115_wide_refuted : exists x w y w', secret (KArith 128) true x w /\ dims w = [2] /\
  scatter_nd [0; 0] x 1 = Ok y /\ secret (KArith 128) true y w' /\
  value w' [0] <> swrap 128 (value w [0%nat] + value w [1%nat]).
Proof.
  set (h := (2 ^ 63)%Z).
  exists (Tens [2] true Arith (FI 128) [h; h]%Z [0; 0]%Z [0; 0]%Z [0; 0]%Z [0; 0]%Z [h; h]%Z), (Raw [2] [h; h]%Z),
    (Tens [1] true Arith (FI 128) [0]%Z [0]%Z [0]%Z [0]%Z [0]%Z [0]%Z), (Raw [1] [0]%Z).
  split; [|split; [reflexivity|split; [vm_compute; reflexivity|split; [|vm_compute; discriminate]]]];
    (unfold secret; cbn -[shares entry h]; do 5 (split; [reflexivity|]); split; [repeat constructor|]).
  - intros [|[|e]] He; [| |lia]; vm_compute; repeat split; discriminate.
  - intros [|e] He; [|lia]; vm_compute; repeat split; discriminate.
Qed.
Print Assumptions C115_wide_refuted.

(** The hypotheses can be met. *)
Example C115_reduce_sum_ex : exists y w', reduce_sum ex_x (Some 0) true = Ok y /\ secret (KArith 64) true y w' /\ value w' [0] = 12%Z.
Proof.
  destruct (C115_reduce_sum 64 true ex_x (Raw [2] [5; 7]%Z) [] 2 [] true ltac:(lia) ex_x_ok eq_refl) as (y & w' & E & S & _ & V).
  exists y, w'. split; [exact E|]. split; [exact S|]. exact (V [] [] (Forall2_nil _) (Forall2_nil _)).
Qed.
Example C115_reduce_sum_public_ex : let x := PTens [2; 2] true (FI 8) [100; 1; 100; 2]%Z [100; 1; 100; 2]%Z [100; 1; 100; 2]%Z in
  exists y w', reduce_sum_public x (Some 0) false = Ok y /\ known (FI 8) true y w' /\ value w' [0] = (-56)%Z /\ value w' [1] = 3%Z.
Proof.
  intros x. destruct (C115_reduce_sum_public 8 true x (Raw [2; 2] [100; 1; 100; 2]%Z) [] 2 [2] false ltac:(repeat split) eq_refl)
    as (y & w' & E & S & _ & V).
  exists y, w'. split; [exact E|]. split; [exact S|].
  split; [apply (V [] [0] (Forall2_nil _))|apply (V [] [1] (Forall2_nil _))]; repeat constructor.
Qed.
Example C115_reduce_all_ex : exists y w', reduce_sum ex_x None false = Ok y /\ secret (KArith 64) true y w' /\ value w' [] = 12%Z.
Proof.
  destruct (C115_reduce_all 64 true ex_x (Raw [2] [5; 7]%Z) false ltac:(lia) ex_x_ok) as (y & w' & E & S & _ & V).
  exists y, w'. split; [exact E|]. split; [exact S|]. exact V.
Qed.
Example C115_scatter_ex : exists y w', scatter_nd [1; 1] ex_x 3 = Ok y /\ secret (KArith 64) true y w' /\ value w' [1] = 12%Z.
Proof.
  destruct (C115_scatter 64 true ex_x (Raw [2] [5; 7]%Z) [1; 1] 3 [] ltac:(lia) ltac:(lia) ex_x_ok eq_refl
    ltac:(repeat constructor)) as (y & w' & E & S & _ & V).
  exists y, w'. split; [exact E|]. split; [exact S|]. exact (V 1 [] ltac:(lia) (Forall2_nil _)).
Qed.
Example C115_scatter_public_ex : let idx := PTens [2; 1] false (FI 64) [1; 1]%Z [1; 1]%Z [1; 1]%Z in
  exists y w', scatter_by idx ex_x 3 = Ok y /\ secret (KArith 64) true y w' /\ value w' [1] = 12%Z.
Proof.
  intros idx. destruct (C115_scatter_public true false ex_x (Raw [2] [5; 7]%Z) idx (Raw [2; 1] [1; 1]%Z) 3 [] ex_x_ok
    ltac:(repeat split) eq_refl eq_refl ltac:(cbn; repeat constructor; lia)) as (y & w' & E & S & _ & V).
  exists y, w'. split; [exact E|]. split; [exact S|]. exact (V 1 [] ltac:(lia) (Forall2_nil _)).
Qed.
Example C115_scatter_distinct_ex : exists y w', scatter_nd [2; 0] ex_y 3 = Ok y /\ secret (KBool (FI 64)) true y w' /\
  value w' [2] = 5%Z /\ value w' [0] = 2%Z /\ value w' [1] = 0%Z.
Proof.
  destruct (C115_scatter_distinct (KBool (FI 64)) 64 true ex_y (Raw [2] [5; 2]%Z) [2; 0] 3 [] eq_refl eq_refl ex_y_ok eq_refl)
    as (y & w' & E & S & _ & V & Z0).
  { repeat constructor. }
  { repeat constructor; cbn; lia. }
  exists y, w'. split; [exact E|]. split; [exact S|]. split; [exact (V 0 [] ltac:(cbn; lia) (Forall2_nil _))|].
  split; [exact (V 1 [] ltac:(cbn; lia) (Forall2_nil _))|]. apply (Z0 1 []); [lia|cbn; lia|constructor].
Qed.
