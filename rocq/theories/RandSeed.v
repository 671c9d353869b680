(** Lemmas about the seeded generator: keystream positions, dependence, completion. *)
From Verif Require Import Base RandModel RandSpec RandProofs.

(** Word sizes in bytes of the element types (int8 ... int64, int128). *)
Definition word_bytes (bytes : Z) : Prop :=
  bytes = 1 \/ bytes = 2 \/ bytes = 4 \/ bytes = 8 \/ bytes = 16.

Lemma per_block_ok bytes : word_bytes bytes -> 4 <= per_block bytes <= 64 /\ bytes * per_block bytes = 64.
Proof. intros [->|[->|[->|[->| ->]]]]; vm_compute; split; try split; congruence. Qed.

Section Seed.
  Variable bytes : Z.
  Hypothesis Hb : word_bytes bytes.
  Let E := per_block bytes.

  Lemma E_bounds : 4 <= E <= 64. Proof. apply per_block_ok, Hb. Qed.
  Lemma E_mul : bytes * E = 64. Proof. apply per_block_ok, Hb. Qed.

  Lemma main_position_inj i j : main_position bytes i = main_position bytes j -> i = j.
  Proof.
    unfold main_position. fold E. pose proof E_bounds. intros [= H1 H2].
    pose proof (Z.div_mod (Z.of_nat i) E). pose proof (Z.div_mod (Z.of_nat j) E).
    rewrite H1, H2 in *. lia.
  Qed.

  Lemma main_NoDup count : NoDup (map (main_position bytes) (seq 0 count)).
  Proof.
    apply NoDup_map_inj; [|apply seq_NoDup]. intros; apply main_position_inj; assumption.
  Qed.

  (** Every logged position lies before the next one to be drawn. *)
  Definition before (b i : Z) (p : Z * Z) : Prop := fst p < b \/ (fst p = b /\ snd p < i).

  Definition inv (first count : Z) (s : seeded) : Prop :=
    0 <= block_counter s <= first + (Z.of_nat (length (used s)) - count) /\
    0 <= inner_index s < E /\
    Forall (before (block_counter s) (inner_index s)) (used s) /\
    NoDup (used s).

  Lemma next_used ks s : exists p, used (snd (next_seeded ks bytes s)) = p :: used s /\
    fst (next_seeded ks bytes s) = ks (fst p) (snd p).
  Proof.
    unfold next_seeded.
    destruct (uwrap 32 (inner_index s + 1) =? per_block bytes); cbn [fst snd used];
      eexists; split; reflexivity.
  Qed.

  Lemma inv_next ks first count s :
    inv first count s ->
    first + (Z.of_nat (length (used s)) + 1 - count) < 2 ^ 32 ->
    inv first count (snd (next_seeded ks bytes s)).
  Proof.
    intros (Hc & Hi & Hf & Hn) Hlim. pose proof E_bounds.
    unfold next_seeded, inv. fold E.
    rewrite (uwrap_id 32 (inner_index s + 1)) by lia.
    destruct (Z.eqb_spec (inner_index s + 1) E) as [Ee|Ee];
      cbn [fst snd used block_counter inner_index length].
    - rewrite (uwrap_id 32 (block_counter s + 1)) by lia.
      change (uwrap 32 (0 + 1)) with 1.
      split; [lia|]. split; [lia|]. split; [|constructor; [|exact Hn]].
      + constructor; [right; cbn; lia|].
        revert Hf. apply Forall_impl. intros p [H1|H1]; left; lia.
      + intros Hin. rewrite Forall_forall in Hf. apply Hf in Hin.
        destruct Hin as [H1|H1]; cbn [fst snd] in H1; lia.
    - rewrite (uwrap_id 32 (inner_index s + 1)) by lia.
      split; [lia|]. split; [lia|]. split; [|constructor; [|exact Hn]].
      + constructor; [right; cbn; lia|].
        revert Hf. apply Forall_impl. intros p [H1|H1]; [left|right]; lia.
      + intros Hin. rewrite Forall_forall in Hf. apply Hf in Hin.
        destruct Hin as [H1|H1]; cbn [fst snd] in H1; lia.
  Qed.

  Lemma inv_start count :
    Z.of_nat count / E + 1 < 2 ^ 32 ->
    inv (Z.of_nat count / E + 1) (Z.of_nat count) (start_seeded bytes count).
  Proof.
    intros Hlim. pose proof E_bounds. unfold inv, start_seeded.
    assert (Eq : Z.of_nat count * bytes / block_bytes = Z.of_nat count / E).
    { unfold block_bytes. rewrite <- E_mul. rewrite Z.mul_comm.
      apply Z.div_mul_cancel_l; [lia|]. pose proof E_mul. nia. }
    assert (0 <= Z.of_nat count / E) by (apply Z.div_pos; lia).
    cbn [block_counter inner_index used]. rewrite Eq, uwrap_id by lia.
    rewrite rev_length, map_length, seq_length.
    split; [lia|]. split; [lia|]. split.
    - apply Forall_rev, Forall_forall. intros p Hp. apply in_map_iff in Hp.
      destruct Hp as (i & <- & Hi). apply in_seq in Hi.
      left. unfold main_position. fold E. cbn [fst].
      enough (Z.of_nat i / E <= Z.of_nat count / E) by lia.
      apply Z.div_le_mono; lia.
    - apply NoDup_rev, main_NoDup.
  Qed.

  (** The log only grows. *)
  Lemma redraw_used ks f w r word s word' s' :
    redraw (next_seeded ks bytes) f w r word s = Done (word', s') ->
    (word' = word /\ s' = s) \/
    exists p new, used s' = p :: new ++ used s /\ word' = ks (fst p) (snd p).
  Proof.
    revert word s. induction f as [|f IH]; intros word s; cbn [redraw];
      destruct (rejected w r word) eqn:R; try discriminate.
    - intros [= <- <-]. left. split; reflexivity.
    - destruct (next_seeded ks bytes s) as [w1 s1] eqn:N. intros H.
      pose proof (next_used ks s) as (p & Hp & Hw). rewrite N in Hp, Hw. cbn [fst snd] in Hp, Hw.
      right. destruct (IH _ _ H) as [[-> ->]|(q & new & Hq & Hv)].
      + exists p, []. split; [exact Hp|exact Hw].
      + exists q, (new ++ [p]). rewrite Hq, Hp, <- app_assoc. split; [reflexivity|exact Hv].
    - intros [= <- <-]. left. split; reflexivity.
  Qed.

  Lemma redraw_suffix ks f w r word s word' s' :
    redraw (next_seeded ks bytes) f w r word s = Done (word', s') ->
    exists new, used s' = new ++ used s.
  Proof.
    intros H. destruct (redraw_used _ _ _ _ _ _ _ _ H) as [[_ ->]|(p & new & Hn & _)].
    - exists []. reflexivity.
    - exists (p :: new). exact Hn.
  Qed.

  Lemma fill_suffix ks f w low r buf s out s' :
    fill (next_seeded ks bytes) f w low r buf s = Done (out, s') ->
    exists new, used s' = new ++ used s.
  Proof.
    revert s out. induction buf as [|word buf IH]; intros s out; cbn [fill].
    - intros [= <- <-]. exists []. reflexivity.
    - destruct (redraw _ f w r word s) as [[w1 s1]| | |] eqn:E1; try discriminate.
      destruct (fill _ f w low r buf s1) as [[o1 t1]| | |] eqn:F1; try discriminate.
      intros [= <- <-]. apply redraw_suffix in E1. apply IH in F1.
      destruct E1 as [n1 E1], F1 as [n2 F1]. exists (n2 ++ n1).
      rewrite F1, E1, app_assoc. reflexivity.
  Qed.

  Lemma inv_redraw ks first count f w r word s word' s' :
    redraw (next_seeded ks bytes) f w r word s = Done (word', s') ->
    first + (Z.of_nat (length (used s')) - count) < 2 ^ 32 ->
    inv first count s -> inv first count s'.
  Proof.
    intros H Hlim. revert word s H. induction f as [|f IH]; intros word s; cbn [redraw];
      destruct (rejected w r word) eqn:R; try discriminate; try congruence.
    destruct (next_seeded ks bytes s) as [w1 s1] eqn:N. intros H Hi.
    apply (IH w1 s1 H).
    pose proof (next_used ks s) as (p & Hp & _). rewrite N in Hp. cbn [snd] in Hp.
    apply redraw_suffix in H. destruct H as [new H].
    replace s1 with (snd (next_seeded ks bytes s)) by (rewrite N; reflexivity).
    apply inv_next; [exact Hi|]. rewrite H, Hp, app_length in Hlim. cbn [length] in Hlim. lia.
  Qed.

  Lemma inv_fill ks first count f w low r buf s out s' :
    fill (next_seeded ks bytes) f w low r buf s = Done (out, s') ->
    first + (Z.of_nat (length (used s')) - count) < 2 ^ 32 ->
    inv first count s -> inv first count s'.
  Proof.
    intros H Hlim. revert s out H. induction buf as [|word buf IH]; intros s out; cbn [fill].
    - intros [= <- <-]. tauto.
    - destruct (redraw _ f w r word s) as [[w1 s1]| | |] eqn:E1; try discriminate.
      destruct (fill _ f w low r buf s1) as [[o1 t1]| | |] eqn:F1; try discriminate.
      intros [= <- <-] Hi. apply (IH _ _ F1). apply (inv_redraw _ _ _ _ _ _ _ _ _ _ E1); [|exact Hi].
      apply fill_suffix in F1. destruct F1 as [new F1]. rewrite F1, app_length in Hlim. lia.
  Qed.

  (** Each output comes from its own position. *)
  Lemma fill_sources ks f w low r poss s out s' :
    NoDup poss -> incl poss (used s) -> NoDup (used s') ->
    fill (next_seeded ks bytes) f w low r (map (fun p => ks (fst p) (snd p)) poss) s = Done (out, s') ->
    exists ps new,
      used s' = new ++ used s /\ NoDup ps /\
      (forall p, In p ps -> In p poss \/ In p new) /\
      out = map (fun p => place w low r (ks (fst p) (snd p))) ps.
  Proof.
    revert s out. induction poss as [|p0 poss IH]; intros s out Hp Hi Hn; cbn [fill map].
    - intros [= <- <-]. exists [], []. split; [reflexivity|]. split; [constructor|].
      split; [intros p []|reflexivity].
    - destruct (redraw _ f w r (ks (fst p0) (snd p0)) s) as [[w1 s1]| | |] eqn:E1; try discriminate.
      destruct (fill _ f w low r _ s1) as [[o1 t1]| | |] eqn:F1; try discriminate.
      intros [= <- <-].
      inversion Hp as [|? ? Hp0 Hp']; subst.
      pose proof (redraw_suffix _ _ _ _ _ _ _ _ E1) as [n1 S1].
      assert (Hi1 : incl poss (used s1)).
      { intros q Hq. rewrite S1. apply in_or_app. right. apply Hi. right. exact Hq. }
      destruct (IH s1 o1 Hp' Hi1 Hn F1) as (ps & n2 & S2 & Hps & Hin & ->).
      rewrite S1 in S2.
      assert (Hd1 : forall q, In q n2 -> In q (used s1) -> False).
      { rewrite S1. intros q Hq Hq'. rewrite S2 in Hn. clear - Hn Hq Hq'.
        induction n2 as [|a n2 IH]; [destruct Hq|].
        cbn [app] in Hn. inversion Hn; subst. destruct Hq as [->|Hq].
        - apply H1. apply in_or_app. right. exact Hq'.
        - apply IH; assumption. }
      destruct (redraw_used _ _ _ _ _ _ _ _ E1) as [[-> Es]|(q & nw & Hu & ->)].
      + exists (p0 :: ps), (n2 ++ n1). split; [rewrite S2, app_assoc; reflexivity|].
        assert (n1 = []).
        { rewrite Es in S1. apply (f_equal (@length _)) in S1. rewrite app_length in S1.
          destruct n1; [reflexivity|cbn in S1; lia]. }
        subst n1. split.
        * constructor; [|exact Hps]. intros Hq. destruct (Hin _ Hq) as [Hq'|Hq'];
            [exact (Hp0 Hq')|]. apply (Hd1 p0 Hq'). rewrite S1. apply in_or_app. right.
          apply Hi. left. reflexivity.
        * split; [|reflexivity]. intros x [<-|Hx]; [left; left; reflexivity|].
          destruct (Hin _ Hx) as [Hx'|Hx']; [left; right; exact Hx'|right].
          apply in_or_app. left. exact Hx'.
      + exists (q :: ps), (n2 ++ n1). split; [rewrite S2, app_assoc; reflexivity|].
        assert (Hqn : In q n1).
        { rewrite S1 in Hu. rewrite app_comm_cons in Hu. apply app_inv_tail in Hu. rewrite Hu. left. reflexivity. }
        assert (Hq1 : In q (used s1)) by (rewrite S1; apply in_or_app; left; exact Hqn).
        split.
        * constructor; [|exact Hps]. intros Hq. destruct (Hin _ Hq) as [Hq'|Hq'].
          -- assert (Hqs : In q (used s)) by (apply Hi; right; exact Hq').
             assert (Hns : NoDup (n1 ++ used s)).
             { rewrite S2 in Hn. clear - Hn. induction n2 as [|a n2 IH2]; [exact Hn|].
               cbn [app] in Hn. inversion Hn; subst. apply IH2; assumption. }
             clear - Hns Hqn Hqs. induction n1 as [|a n1 IH]; [destruct Hqn|].
             cbn [app] in Hns. inversion Hns; subst. destruct Hqn as [->|Hqn].
             ++ apply H1. apply in_or_app. right. exact Hqs.
             ++ apply IH; assumption.
          -- exact (Hd1 q Hq' Hq1).
        * split; [|reflexivity]. intros x [<-|Hx].
          -- right. apply in_or_app. right. exact Hqn.
          -- destruct (Hin _ Hx) as [Hx'|Hx']; [left; right; exact Hx'|right].
             apply in_or_app. left. exact Hx'.
  Qed.

  (** Only the logged positions matter. *)
  Lemma next_depends ks ks' s :
    (forall p, In p (used (snd (next_seeded ks bytes s))) -> ks' (fst p) (snd p) = ks (fst p) (snd p)) ->
    next_seeded ks' bytes s = next_seeded ks bytes s.
  Proof.
    unfold next_seeded.
    destruct (uwrap 32 (inner_index s + 1) =? per_block bytes); cbn [fst snd used];
      intros H; f_equal; match goal with |- ks' ?b ?i = _ => apply (H (b, i)); left; reflexivity end.
  Qed.

  Lemma redraw_depends ks ks' f w r word s word' s' :
    redraw (next_seeded ks bytes) f w r word s = Done (word', s') ->
    (forall p, In p (used s') -> ks' (fst p) (snd p) = ks (fst p) (snd p)) ->
    redraw (next_seeded ks' bytes) f w r word s = Done (word', s').
  Proof.
    revert word s. induction f as [|f IH]; intros word s; cbn [redraw];
      destruct (rejected w r word) eqn:R; try discriminate; try congruence.
    intros H Ha. rewrite (next_depends ks ks').
    - destruct (next_seeded ks bytes s) as [w1 s1] eqn:N. apply IH; assumption.
    - intros p Hp. apply Ha. destruct (next_seeded ks bytes s) as [w1 s1] eqn:N.
      cbn [snd] in Hp. apply redraw_suffix in H. destruct H as [new ->].
      apply in_or_app. right. exact Hp.
  Qed.

  Lemma fill_depends ks ks' f w low r buf s out s' :
    fill (next_seeded ks bytes) f w low r buf s = Done (out, s') ->
    (forall p, In p (used s') -> ks' (fst p) (snd p) = ks (fst p) (snd p)) ->
    fill (next_seeded ks' bytes) f w low r buf s = Done (out, s').
  Proof.
    revert s out. induction buf as [|word buf IH]; intros s out; cbn [fill]; [tauto|].
    destruct (redraw (next_seeded ks bytes) f w r word s) as [[w1 s1]| | |] eqn:E1; try discriminate.
    destruct (fill (next_seeded ks bytes) f w low r buf s1) as [[o1 t1]| | |] eqn:F1; try discriminate.
    intros [= <- <-] Ha.
    pose proof (fill_suffix _ _ _ _ _ _ _ _ _ F1) as [new S1].
    rewrite (redraw_depends ks ks' _ _ _ _ _ _ _ E1).
    - rewrite (IH _ _ F1 Ha). reflexivity.
    - intros p Hp. apply Ha. rewrite S1. apply in_or_app. right. exact Hp.
  Qed.

  Lemma main_buffer_map ks count :
    main_buffer ks bytes count =
    map (fun p => ks (fst p) (snd p)) (map (main_position bytes) (seq 0 count)).
  Proof. unfold main_buffer. rewrite map_map. reflexivity. Qed.

  (** Completion. *)
  Fixpoint after (ks : Z -> Z -> Z) (k : nat) (s : seeded) : seeded :=
    match k with O => s | S k => after ks k (snd (next_seeded ks bytes s)) end.

  Lemma after_S ks k s : after ks (S k) s = snd (next_seeded ks bytes (after ks k s)).
  Proof. revert s. induction k as [|k IH]; intros s; [reflexivity|]. cbn [after] in *. apply IH. Qed.

  Lemma after_add ks a b s : after ks (a + b) s = after ks b (after ks a s).
  Proof. revert s. induction a as [|a IH]; intros s; [reflexivity|]. apply IH. Qed.

  Lemma redraw_completes ks w r j word s :
    rejected w r (fst (next_seeded ks bytes (after ks j s))) = false ->
    exists f word' k, redraw (next_seeded ks bytes) f w r word s = Done (word', after ks k s).
  Proof.
    revert word s. induction j as [|j IH]; intros word s Hj.
    - destruct (rejected w r word) eqn:R.
      + exists 1%nat. cbn [redraw after] in *. rewrite R.
        destruct (next_seeded ks bytes s) as [w1 s1] eqn:N. cbn [fst] in Hj.
        exists w1, 1%nat. cbn [redraw after]. rewrite Hj, N. reflexivity.
      + exists 0%nat, word, 0%nat. cbn [redraw after]. rewrite R. reflexivity.
    - destruct (rejected w r word) eqn:R.
      + cbn [after] in Hj.
        destruct (IH (fst (next_seeded ks bytes s)) _ Hj) as (f & w2 & k & H).
        exists (S f), w2, (S k). cbn [redraw after]. rewrite R.
        destruct (next_seeded ks bytes s) as [w1 s1] eqn:N. exact H.
      + exists 0%nat, word, 0%nat. cbn [redraw after]. rewrite R. reflexivity.
  Qed.

  Lemma fill_completes ks w low r buf s :
    (forall n, exists k, (n <= k)%nat /\
       rejected w r (fst (next_seeded ks bytes (after ks k s))) = false) ->
    exists f out k, fill (next_seeded ks bytes) f w low r buf s = Done (out, after ks k s).
  Proof.
    revert s. induction buf as [|word buf IH]; intros s Hs.
    - exists 0%nat, [], 0%nat. reflexivity.
    - destruct (Hs 0%nat) as (j & _ & Hj).
      destruct (redraw_completes ks w r j word s Hj) as (f1 & w1 & k1 & R1).
      destruct (IH (after ks k1 s)) as (f2 & o2 & k2 & F2).
      { intros n. destruct (Hs (k1 + n)%nat) as (k & Hk & Hr).
        exists (k - k1)%nat. split; [lia|]. rewrite <- after_add.
        replace (k1 + (k - k1))%nat with k by lia. exact Hr. }
      exists (Nat.max f1 f2), (place w low r w1 :: o2), (k1 + k2)%nat.
      cbn [fill].
      rewrite (redraw_more _ f1 (Nat.max f1 f2) _ _ _ _ _ ltac:(lia) R1).
      rewrite (fill_more _ f2 (Nat.max f1 f2) _ _ _ _ _ _ ltac:(lia) F2).
      rewrite after_add. reflexivity.
  Qed.
End Seed.

(** Which single values a draw can give. *)
Lemma draw_image w lo hi v :
  2 <= w -> in_s w lo -> in_s w hi -> lo < hi -> word_bytes (w / 8) ->
  (exists ks fuel s, seeded_uniform ks (w / 8) fuel w lo hi 1 = Done ([v], s)) <-> lo <= v < hi.
Proof.
  intros Hw Hl Hh Hlt Hb. pose proof (pow2_half w ltac:(lia)). unfold in_s in *. split.
  - intros (ks & fuel & s & H1). unfold seeded_uniform in H1.
    rewrite kernel_fill in H1 by (unfold in_s; try lia; discriminate).
    assert (F : Forall (fun x => lo <= x < hi) [v]).
    { eapply fill_Forall, H1. intros word _.
      pose proof (Z.mod_pos_bound (uwrap w word) (hi - lo)).
      rewrite place_ok by (unfold in_s; lia). lia. }
    inversion F; assumption.
  - intros Hv. exists (fun _ _ => swrap w (v - lo)), 0%nat, (start_seeded (w / 8) 1).
    unfold seeded_uniform. rewrite kernel_fill by (unfold in_s; try lia; discriminate).
    unfold main_buffer. cbn [seq map fill redraw].
    assert (E : uwrap w (swrap w (v - lo)) = v - lo) by (rewrite uwrap_swrap, uwrap_id; lia).
    assert (Hz : v - lo <= zone w (hi - lo)).
    { pose proof (zone_ok w (hi - lo) ltac:(lia) ltac:(lia)).
      assert (1 <= 2 ^ w / (hi - lo)) by (apply Z.div_le_lower_bound; lia). nia. }
    unfold rejected. rewrite E. destruct (Z.ltb_spec (zone w (hi - lo)) (v - lo)); [lia|].
    rewrite place_ok by (unfold in_s; lia). rewrite E, Z.mod_small by lia.
    repeat f_equal. lia.
Qed.

Lemma draw_Forall ks fuel w lo hi count out s :
  2 <= w -> in_s w lo -> in_s w hi ->
  seeded_uniform ks (w / 8) fuel w lo hi count = Done (out, s) ->
  Forall (fun v => lo <= v < hi) out.
Proof.
  intros Hw Hl Hh H. unfold seeded_uniform, kernel in H.
  destruct (Z.ltb_spec lo hi) as [Hlt|]; [|discriminate]. cbn [negb] in H.
  destruct (main_buffer ks (w / 8) count) as [|b l] eqn:Eb; [discriminate|].
  assert (K : kernel (next_seeded ks (w / 8)) fuel w lo hi (b :: l) (start_seeded (w / 8) count)
              = Done (out, s)).
  { unfold kernel. destruct (Z.ltb_spec lo hi); [exact H|lia]. }
  rewrite kernel_fill in K by (try assumption; discriminate).
  eapply fill_Forall, K. intros word _.
  pose proof (Z.mod_pos_bound (uwrap w word) (hi - lo)). unfold in_s in *.
  rewrite place_ok by (unfold in_s; lia). lia.
Qed.

Lemma shipped_draw f :
  shipped f -> 2 <= draw_width f /\ word_bytes (draw_width f / 8) /\
  in_s (draw_width f) (default_min f) /\ in_s (draw_width f) (default_max f) /\
  default_min f < default_max f.
Proof.
  unfold word_bytes, in_s. destruct f as [w|w p| |]; cbn [shipped draw_width default_min default_max].
  - intros [->|[->|[->| ->]]]; vm_compute; intuition congruence.
  - intros [Hw Hp].
    assert (H : 2 <= w /\ (w / 8 = 1 \/ w / 8 = 2 \/ w / 8 = 4 \/ w / 8 = 8 \/ w / 8 = 16))
      by (destruct Hw as [->|[->|[->| ->]]]; vm_compute; intuition congruence).
    destruct H as [H1 H2]. split; [exact H1|]. split; [exact H2|]. lia.
  - intros _. vm_compute. intuition congruence.
  - intros _. vm_compute. intuition congruence.
Qed.

(** ** int128's bounded sampling *)
Definition short (b v : Z) : Z := if v =? 2 ^ (b - 1) - 1 then 1 else 0.

Lemma bound_arith v K h j :
  0 < K -> 0 <= j < K - (if v =? h - 1 then 1 else 0) -> v * K + j <> h * K - 1.
Proof.
  intros HK Hj E. destruct (Z.eqb_spec v (h - 1)) as [->|Ev]; [lia|].
  destruct (Z.lt_total (h - v) 1) as [L|[L|L]]; [|lia|].
  - assert ((h - v) * K <= 0 * K) by (apply Z.mul_le_mono_nonneg_r; lia). lia.
  - assert (2 * K <= (h - v) * K) by (apply Z.mul_le_mono_nonneg_r; lia). lia.
Qed.

Lemma div_arith z K v : 0 < K -> (z / K = v <-> v * K <= z < v * K + K).
Proof.
  intros HK. split.
  - intros <-. pose proof (Z.div_mod z K). pose proof (Z.mod_pos_bound z K). lia.
  - intros Hr. symmetry. apply Z.div_unique with (z - v * K); lia.
Qed.

Lemma one_word bytes w lo hi word : lo < hi ->
  match seeded_uniform (fun _ _ => word) bytes 0 w lo hi 1, uniform (S := unit) (fun s => (0, s)) 0 w lo (swrap w (hi - 1)) [word] tt with
  | Done ([x], _), Done ([y], _) => x = y
  | Undefined, Undefined | Invalid, Invalid | Diverged, Diverged => True
  | _, _ => False
  end.
Proof.
  intros H. unfold seeded_uniform, kernel. rewrite (proj2 (Z.ltb_lt _ _) H). cbn [negb main_buffer seq map].
  unfold generate, uniform. destruct (_ =? 0); [exact I|]. cbn [fill redraw].
  destruct (rejected _ _ _); [exact I|]. cbn [fill]. reflexivity.
Qed.

Lemma bounded_one b v word : b <= 128 ->
  bounded_turns_into b v word =
  match uniform (S := unit) (fun s => (0, s)) 0 128 (- 2 ^ 127) (2 ^ 127 - 2) [word] tt with
  | Done ([x], _) => lrshift128 x (128 - b) =? v
  | _ => false
  end.
Proof.
  intros Hb. unfold bounded_turns_into, sample_bounded_128. rewrite (proj2 (Z.leb_le _ _) Hb).
  unfold sample_uniform. pose proof (one_word (draw_width FInt128 / 8) 128 (- 2 ^ 127) (2 ^ 127 - 1) word eq_refl) as E.
  change (swrap 128 (2 ^ 127 - 1 - 1)) with (2 ^ 127 - 2) in E.
  change (draw_width FInt128) with 128 in *. change (default_min FInt128) with (- 2 ^ 127). change (default_max FInt128) with (2 ^ 127 - 1).
  destruct (seeded_uniform _ _ _ _ _ _ _) as [[[|x [|? ?]] ?]| | |], (uniform _ _ _ _ _ _ _) as [[[|y [|? ?]] ?]| | |]; cbn [map]; try reflexivity; try contradiction.
  rewrite E. reflexivity.
Qed.

Lemma native_bounded_one w b v word : 2 <= w -> 0 <= b -> 2 ^ b <= 2 ^ (w - 1) - 1 ->
  native_bounded_turns_into w b v word = turns_into w 0 (2 ^ b - 1) v word.
Proof.
  intros Hw Hb H. unfold native_bounded_turns_into, turns_into, sample_bounded_native. rewrite (proj2 (Z.leb_le _ _) H).
  pose proof (pow2_pos b Hb) as P. pose proof (one_word (w / 8) w 0 (2 ^ b) word P) as E.
  rewrite swrap_id in E by (unfold in_s; lia).
  destruct (seeded_uniform _ _ _ _ _ _ _) as [[[|x [|? ?]] ?]| | |], (uniform _ _ _ _ _ _ _) as [[[|y [|? ?]] ?]| | |]; try reflexivity; try contradiction.
  rewrite E. reflexivity.
Qed.
Lemma lrshift128_bounds b v : 1 <= b <= 127 -> 0 <= lrshift128 v (128 - b) < 2 ^ b.
Proof.
  intros Hb. unfold lrshift128. destruct (Z.leb_spec (128 - b) 0); [lia|]. destruct (Z.leb_spec 128 (128 - b)); [lia|].
  pose proof (uwrap_range 128 v ltac:(lia)) as U. rewrite Z.shiftr_div_pow2 by lia.
  assert (D : 0 <= uwrap 128 v / 2 ^ (128 - b) < 2 ^ b).
  { split; [apply Z.div_pos; [lia|apply pow2_pos; lia]|]. apply Z.div_lt_upper_bound; [apply pow2_pos; lia|].
    rewrite <- pow2_split by lia. replace (128 - b + b) with 128 by lia. lia. }
  rewrite swrap_id; [exact D|lia|]. unfold in_s. pose proof (Z.pow_le_mono_r 2 b 127 ltac:(lia) ltac:(lia)). lia.
Qed.

Lemma bounded_eq b v word :
  1 <= b <= 127 -> 0 <= v < 2 ^ b -> in_s 128 word ->
  bounded_turns_into b v word = true <->
  exists j, 0 <= j < 2 ^ (128 - b) - short b v /\
            word = swrap 128 (v * 2 ^ (128 - b) + j - 2 ^ 127).
Proof.
  intros Hb Hv Hx. rewrite bounded_one by lia. unfold uniform.
  change (u_range 128 (- 2 ^ 127) (2 ^ 127 - 2)) with (2 ^ 128 - 1).
  change (2 ^ 128 - 1 =? 0) with false. cbn iota. cbn [fill redraw]. unfold rejected.
  change (zone 128 (2 ^ 128 - 1)) with (2 ^ 128 - 2).
  pose proof (Z.mod_pos_bound word (2 ^ 128) ltac:(reflexivity)) as Hu.
  fold (uwrap 128 word) in Hu. set (u := uwrap 128 word) in *.
  set (K := 2 ^ (128 - b)). set (B := 2 ^ b).
  assert (HK : 0 < K) by (apply pow2_pos; lia).
  assert (HBK : B * K = 2 ^ 128).
  { unfold B, K. rewrite <- Z.pow_add_r by lia. f_equal. lia. }
  assert (HB2 : B = 2 * 2 ^ (b - 1)) by (apply pow2_half; lia).
  assert (HhK : 2 ^ (b - 1) * K = 2 ^ 127).
  { unfold K. rewrite <- Z.pow_add_r by lia. f_equal. lia. }
  assert (Hs : 0 <= short b v <= 1) by (unfold short; destruct (_ =? _); lia).
  (* the word in terms of t *)
  set (t := uwrap 128 (u + 2 ^ 127)).
  assert (Ht : 0 <= t < 2 ^ 128) by (apply Z.mod_pos_bound; reflexivity).
  assert (Hut : (u < 2 ^ 127 /\ t = u + 2 ^ 127) \/ (2 ^ 127 <= u /\ t = u - 2 ^ 127)).
  { unfold t, uwrap. change (2 ^ 128) with (2 ^ 127 + 2 ^ 127) in *.
    destruct (Z.lt_ge_cases u (2 ^ 127)); [left|right]; (split; [assumption|]).
    - apply Z.mod_small. lia.
    - replace (u + 2 ^ 127) with (u - 2 ^ 127 + 1 * (2 ^ 127 + 2 ^ 127)) by ring.
      rewrite Z.mod_add by lia. apply Z.mod_small. lia. }
  assert (Hword : forall z, 0 <= z < 2 ^ 128 -> (word = swrap 128 (z - 2 ^ 127) <-> t = z)).
  { intros z Hz. split.
    - intros Ew. unfold t, u. rewrite Ew. rewrite uwrap_swrap by lia.
      unfold uwrap. rewrite Zplus_mod_idemp_l. replace (z - 2 ^ 127 + 2 ^ 127) with z by ring.
      apply Z.mod_small. exact Hz.
    - intros <-. apply in_s_eqm_eq with (w := 128); [lia|exact Hx|apply swrap_range; lia|].
      rewrite swrap_eqm by lia.
      destruct Hut as [[_ ->]|[_ ->]].
      + replace (u + 2 ^ 127 - 2 ^ 127) with u by ring. symmetry. apply eqm_mod_l.
      + transitivity u; [symmetry; apply eqm_mod_l|].
        unfold eqm. replace (u - 2 ^ 127 - 2 ^ 127) with (u + (-1) * 2 ^ 128) by
          (change (2 ^ 128) with (2 ^ 127 + 2 ^ 127); ring).
        symmetry. apply Z.mod_add. discriminate. }
  assert (Hacc : (2 ^ 128 - 2 <? u) = true <-> t = 2 ^ 127 - 1).
  { rewrite Z.ltb_lt. change (2 ^ 128) with (2 ^ 127 + 2 ^ 127) in *. lia. }
  assert (Hplace : place 128 (- 2 ^ 127) (2 ^ 128 - 1) word = - 2 ^ 127 + u mod (2 ^ 128 - 1))
    by (apply place_ok; unfold in_s; vm_compute; intuition congruence).
  assert (Et : uwrap 128 (- 2 ^ 127 + u) = t).
  { unfold t, uwrap. replace (u + 2 ^ 127) with (- 2 ^ 127 + u + 1 * 2 ^ 128) by
      (change (2 ^ 128) with (2 ^ 127 + 2 ^ 127); ring).
    symmetry. apply Z.mod_add. discriminate. }
  assert (Hid : forall z, 0 <= z < 2 ^ 127 -> swrap 128 z = z).
  { intros z Hz. apply swrap_id; [lia|]. unfold in_s. change (128 - 1) with 127. lia. }
  assert (HK2 : 2 <= K) by (unfold K; change 2 with (2 ^ 1) at 1; apply Z.pow_le_mono_r; lia).
  assert (Hsh : lrshift128 (- 2 ^ 127 + u) (128 - b) = swrap 128 (t / K)).
  { unfold lrshift128. destruct (Z.leb_spec (128 - b) 0); [lia|].
    destruct (Z.leb_spec 128 (128 - b)); [lia|].
    rewrite Et, Z.shiftr_div_pow2 by lia. reflexivity. }
  match goal with |- ?x = true <-> _ =>
    replace x with (if 2 ^ 128 - 2 <? u then false
                    else lrshift128 (- 2 ^ 127 + u mod (2 ^ 128 - 1)) (128 - b) =? v)
      by (rewrite <- Hplace; destruct (2 ^ 128 - 2 <? u); reflexivity) end.
  fold B in Hv.
  assert (HM : 2 ^ 128 = 2 ^ 127 + 2 ^ 127) by reflexivity.
  assert (HH : 0 < 2 ^ 127) by reflexivity.
  unfold short in *. set (h := 2 ^ (b - 1)) in *.
  clear Hplace Et Hx.
  clearbody K B h u t.
  set (M := 2 ^ 128) in *. set (H := 2 ^ 127) in *. clearbody M H.
  assert (Hv127 : v * K + K <= M).
  { rewrite <- HBK. replace (v * K + K) with ((v + 1) * K) by ring.
    apply Z.mul_le_mono_nonneg_r; clear - Hv HK; lia. }
  assert (HvK : 0 <= v * K) by (apply Z.mul_nonneg_nonneg; clear - Hv HK; lia).
  assert (Htk : 0 <= t / K < H).
  { split; [apply Z.div_pos; [apply Ht|exact HK]|]. apply Z.div_lt_upper_bound; [exact HK|].
    assert (2 * H <= K * H) by (apply Z.mul_le_mono_nonneg_r; clear - HK2 HH; lia).
    clear - H0 HM Ht. lia. }
  destruct (M - 2 <? u) eqn:Ea.
  - assert (Ett : t = H - 1) by (apply Hacc; reflexivity).
    split; [discriminate|]. intros (j & Hj & Ew). exfalso.
    apply (bound_arith v K h j HK Hj). rewrite HhK, <- Ett. symmetry. apply Hword; [|exact Ew].
    clear - HvK Hv127 Hj HK. destruct (v =? h - 1); lia.
  - assert (Hne : t <> H - 1) by (intros E; apply Hacc in E; discriminate).
    assert (Hu2 : u <= M - 2) by (apply Z.ltb_ge in Ea; exact Ea).
    rewrite Z.mod_small by (clear - Hu2 Hu; lia). rewrite Hsh, Hid by exact Htk.
    rewrite Z.eqb_eq. split.
    + intros E. apply (div_arith t K v HK) in E.
      exists (t - v * K). split.
      * clear - E Hne HhK. destruct (Z.eqb_spec v (h - 1)) as [->|]; lia.
      * replace (v * K + (t - v * K)) with t by ring. apply Hword; [exact Ht|reflexivity].
    + intros (j & Hj & Ew).
      assert (Hj0 : 0 <= j < K) by (clear - Hj; destruct (v =? h - 1); lia).
      apply (div_arith t K v HK).
      assert (Etj : t = v * K + j) by (apply (Hword (v * K + j)); [clear - HvK Hv127 Hj0; lia|exact Ew]).
      clear - Etj Hj0. lia.
Qed.

Lemma bounded_count b v :
  1 <= b <= 127 -> 0 <= v < 2 ^ b ->
  how_many 128 (bounded_turns_into b v) = 2 ^ (128 - b) - short b v.
Proof.
  intros Hb Hv. unfold how_many.
  assert (HK : 2 <= 2 ^ (128 - b)) by (change 2 with (2 ^ 1) at 1; apply Z.pow_le_mono_r; lia).
  assert (Hs : 0 <= short b v <= 1) by (unfold short; destruct (_ =? _); lia).
  assert (HBK : 2 ^ b * 2 ^ (128 - b) = 2 ^ 128).
  { rewrite <- Z.pow_add_r by lia. f_equal. lia. }
  rewrite (count_by _ _
    (map (fun j => swrap 128 (v * 2 ^ (128 - b) + Z.of_nat j - 2 ^ 127))
         (seq 0 (Z.to_nat (2 ^ (128 - b) - short b v))))).
  - rewrite map_length, seq_length. lia.
  - apply all_words_NoDup. lia.
  - apply NoDup_map_inj; [|apply seq_NoDup].
    intros x y Hx Hy E. rewrite in_seq in Hx, Hy.
    assert (E2 : swrap 128 (v * 2 ^ (128 - b) + Z.of_nat x) = swrap 128 (v * 2 ^ (128 - b) + Z.of_nat y)).
    { apply in_s_eqm_eq with (w := 128); [lia|apply swrap_range; lia|apply swrap_range; lia|].
      rewrite !swrap_eqm by lia.
      assert (E3 : eqm (2 ^ 128) (v * 2 ^ (128 - b) + Z.of_nat x - 2 ^ 127) (v * 2 ^ (128 - b) + Z.of_nat y - 2 ^ 127)).
      { rewrite <- (swrap_eqm 128 (v * 2 ^ (128 - b) + Z.of_nat x - 2 ^ 127)) by lia.
        rewrite E. apply swrap_eqm. lia. }
      replace (v * 2 ^ (128 - b) + Z.of_nat x) with (v * 2 ^ (128 - b) + Z.of_nat x - 2 ^ 127 + 2 ^ 127) by ring.
      rewrite E3. apply eqm_eq. ring. }
    apply swrap_inj in E2; [lia|lia|nia|nia].
  - intros x. rewrite all_words_In by lia. rewrite in_map_iff. split.
    + intros (j & <- & Hj). rewrite in_seq in Hj. split; [apply swrap_range; lia|].
      apply bounded_eq; [assumption..|apply swrap_range; lia|].
      exists (Z.of_nat j). split; [lia|reflexivity].
    + intros (Hx & Ht). apply bounded_eq in Ht; [|assumption..].
      destruct Ht as (j & Hj & ->). exists (Z.to_nat j).
      rewrite Z2Nat.id by lia. split; [reflexivity|]. apply in_seq. lia.
Qed.
