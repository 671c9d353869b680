(** SecureNN: the properties C35 to C42 and C72 over the model of SnnModel.v. *)
From Coq Require Import ZArith Lia List Bool Znumtheory.
From Verif Require Import Base Factory TensorModel TensorProofs PondModel PondSpec PondProofs SnnModel SnnSpec SnnProofs SnnLift SnnCmp SnnLsb SnnTop.
Import ListNotations.

(** ** C35 *)
Theorem C35_odd_add : forall w x y, 1 < w -> odd_wf w x -> odd_wf w y ->
  odd_wf w (odd_add w x y) /\ odd_add w x y mod 2 ^ w = (x mod 2 ^ w + y mod 2 ^ w) mod (2 ^ w - 1).
Proof. intros. apply odd_add_ok; assumption. Qed.
Print Assumptions C35_odd_add.
Theorem C35_odd_sub : forall w x y, 1 < w -> odd_wf w x -> odd_wf w y ->
  odd_wf w (odd_sub w x y) /\ odd_sub w x y mod 2 ^ w = (x mod 2 ^ w - y mod 2 ^ w) mod (2 ^ w - 1).
Proof. intros. apply odd_sub_ok; assumption. Qed.
Print Assumptions C35_odd_sub.
Example C35_hyps : odd_wf 64 (-2) /\ odd_wf 64 (-5) /\ odd_add 64 (-2) (-5) = -6 /\ odd_sub 64 (-5) (-2) = -4 /\ odd_sub 64 3 9 = -7.
Proof. unfold odd_wf, in_s. vm_compute. repeat split; try congruence; reflexivity. Qed.

(** ** C36 *)
(** The sampler returns the forbidden word, returns 0 for two draws, and never returns the two
    smallest words. *)
Theorem C36_odd_sampler_refuted : forall w, 2 < w ->
  (exists u, odd_draw w u /\ ~ odd_wf w (odd_sample w u)) /\
  (exists u v, odd_draw w u /\ odd_draw w v /\ u <> v /\ odd_sample w u = odd_sample w v) /\
  (forall z, odd_wf w z -> ((exists u, odd_draw w u /\ odd_sample w u = z) <-> z <> - 2 ^ (w - 1) /\ z <> - 2 ^ (w - 1) + 1 /\ z <> 2 ^ (w - 1) - 1)).
Proof.
  intros w Hw. pose proof (Z.pow_le_mono_r 2 2 (w - 1) ltac:(lia) ltac:(lia)) as HP. change (2 ^ 2) with 4 in HP.
  assert (HS : forall u, odd_draw w u -> odd_sample w u = if u <? 0 then u + 1 else u).
  { intros u Hu. unfold odd_draw in Hu. unfold odd_sample. destruct (Z.ltb_spec u 0); [|reflexivity]. apply swrap_id; [lia|]. unfold in_s. lia. }
  split; [|split].
  - exists (-2). assert (D : odd_draw w (-2)) by (unfold odd_draw; lia). split; [exact D|]. rewrite HS by exact D. intros [_ H]. apply H. reflexivity.
  - exists (-1), 0. assert (D : odd_draw w (-1)) by (unfold odd_draw; lia). assert (D' : odd_draw w 0) by (unfold odd_draw; lia).
    split; [exact D|]. split; [exact D'|]. split; [lia|]. rewrite !HS by assumption. reflexivity.
  - intros z [Hz N]. unfold in_s in Hz. split.
    + intros (u & Hu & E). rewrite HS in E by exact Hu. unfold odd_draw in Hu. destruct (Z.ltb_spec u 0); lia.
    + intros (A & B & C). destruct (Z.ltb_spec z 0).
      * exists (z - 1). assert (D : odd_draw w (z - 1)) by (unfold odd_draw; lia). split; [exact D|]. rewrite HS by exact D.
        destruct (Z.ltb_spec (z - 1) 0); lia.
      * exists z. assert (D : odd_draw w z) by (unfold odd_draw; lia). split; [exact D|]. rewrite HS by exact D.
        destruct (Z.ltb_spec z 0); lia.
Qed.
Print Assumptions C36_odd_sampler_refuted.

(** A small instance used by the examples: 8-bit words and the prime 11. *)
Lemma prime_11 : prime 11.
Proof.
  apply prime_intro; [lia|]. intros n Hn.
  assert (H : n = 1 \/ n = 2 \/ n = 3 \/ n = 4 \/ n = 5 \/ n = 6 \/ n = 7 \/ n = 8 \/ n = 9 \/ n = 10) by lia.
  repeat (destruct H as [->|H]; [apply Zgcd_1_rel_prime; reflexivity|]). subst. apply Zgcd_1_rel_prime; reflexivity.
Qed.
Example params_8_11 : params 8 11.
Proof. split; [lia|]. split; [apply prime_11|]. vm_compute. split; [reflexivity|congruence]. Qed.
(** The parameters of the library: 64-bit words and the prime 107. *)
Lemma prime_107 : prime 107.
Proof.
  apply prime_intro; [lia|]. intros n Hn. apply Zgcd_1_rel_prime.
  assert (forallb (fun k => Z.gcd (Z.of_nat k) 107 =? 1) (seq 1 106) = true) as H by (vm_compute; reflexivity).
  rewrite forallb_forall in H. specialize (H (Z.to_nat n)). rewrite Z2Nat.id in H by lia. apply Z.eqb_eq, H, in_seq. lia.
Qed.
Example params_64_107 : params 64 107.
Proof. split; [lia|]. split; [apply prime_107|]. vm_compute. split; [reflexivity|congruence]. Qed.

Definition mul8 : mulrnd (native (MkN 8 None)) := @MkRnd (native (MkN 8 None)) [3; -100] [7; 7] [1; -1] [0; 99] [-128; 127] true [0; 0].
Definition rd8 (b1 b2 : Z) : lsbrnd (Z.of_nat 8) :=
  @MkLsb (Z.of_nat 8) [5; -7] [100; 101] [0; 1; 2; 3; 4; 5; 6; 7; 8; 9; 10; 0; 1; 2; 3; 4] true [77; -12] false [b1; b2]
    [9; 8; 7; 6; 5; 4; 3; 2] true [1; 2; 3; 4; 5; 6; 7; 8; 9; 10; 1; 2; 3; 4; 5; 6] [-128; 5] false mul8.
Ltac all_entries := repeat (apply Forall_cons; [vm_compute; repeat split; congruence|]); apply Forall_nil.
Lemma rd8_ok b1 b2 : bit b1 -> bit b2 -> lsbrnd_ok 8 11 2 (rd8 b1 b2).
Proof.
  intros H1 H2. unfold lsbrnd_ok, rnd_ok, okT. cbn [rd8 mul8 l_r0 l_r1 l_bits l_lsb l_beta l_edge l_mask l_res l_mul rx0 rx1 ry0 ry1 rrho rtr].
  repeat match goal with |- _ /\ _ => split end; 
    lazymatch goal with |- Forall bit _ => constructor; [assumption|constructor; [assumption|constructor]] | |- Forall _ _ => all_entries | _ => reflexivity end.
Qed.
Definition cmp8 (b1 b2 : Z) : cmprnd 8 := MkCmp 8 (rd8 b1 b2) mul8 mul8.
Lemma cmp8_ok b1 b2 : bit b1 -> bit b2 -> cmprnd_ok 8 11 2 (cmp8 b1 b2).
Proof.
  intros H1 H2. split; [apply rd8_ok; assumption|]. unfold rnd_ok, okT. cbn [cmp8 c_sel c_sel2 mul8 rx0 rx1 ry0 ry1 rrho rtr].
  repeat match goal with |- _ /\ _ => split end; try reflexivity; all_entries.
Qed.
Definition cfg8 : fpconfig := MkFp 2 7 2 2 1024 1 false.
Definition priv8 (a b : list Z) : ptensor (native (MkN (Z.of_nat 8) None)) :=
  Priv (@MkPv (native (MkN (Z.of_nat 8) None)) Srv0 a) (@MkPv (native (MkN (Z.of_nat 8) None)) Srv1 b) false.

Lemma stands8 a b : length a = length b -> Forall (in_s 8) a -> Forall (in_s 8) b ->
  stands (length a) (priv8 a b) false false (fun i => nth i a 0 + nth i b 0).
Proof.
  intros HL Ha Hb. split; [|reflexivity]. cbn [denotes priv8 pdev pval].
  split; [reflexivity|]. split; [reflexivity|]. split; [reflexivity|]. split; [split; [reflexivity|exact Ha]|]. split; [split; [symmetry; exact HL|exact Hb]|].
  intros i _. rewrite !(tval_native 8) by (lia || apply (n_okR 8); lia).
  apply eqm_add; apply eqm_mod_l.
Qed.

(** ** C37 *)
Theorem C37_private_compare : forall wn p cfg rd n xb r bl X R, params wn p -> lsbrnd_ok wn p n rd ->
  length bl = n -> Forall bit bl ->
  (forall i, (i < n)%nat -> 0 <= X i < 2 ^ Z.of_nat wn) -> (forall i, (i < n)%nat -> 0 <= R i < 2 ^ Z.of_nat wn) ->
  (* [xb] is a sharing, modulo the prime, of the bits of [X] *)
  stands (n * wn) xb false false (fun k => Z.b2z (Z.testbit (X (k / wn)%nat) (Z.of_nat (k mod wn)))) ->
  stands n r true false R ->
  ryields (private_compare wn p cfg rd n xb r
     (@Pub (native (MkN (Z.of_nat wn) (Some p))) (@MkPv (native (MkN (Z.of_nat wn) (Some p))) Srv0 bl) (@MkPv (native (MkN (Z.of_nat wn) (Some p))) Srv1 bl) false))
    (fun q => stands n (snd q) false false (fun i => Z.b2z (xorb (R i <? X i) (nth i bl 0 =? 1)))).
Proof.
  intros wn p cfg rd n xb r bl X R (Hw & Hp & Hpw & Hps) (_ & _ & _ & _ & _ & He & Hm & Hr & _) Hl Hb HX HR Hxb Hst.
  eapply ryields_imp; [|apply (private_compare_ok wn p cfg Hw Hp Hpw Hps rd n xb r bl X R); try assumption; split; assumption].
  intros q [H _]. exact H.
Qed.
Print Assumptions C37_private_compare.

(** ** C38 *)
Theorem C38_lsb_private : forall wn p cfg rd n x sx V, params wn p -> lsbrnd_ok wn p n rd -> stands n x false sx V ->
  (forall i, (i < n)%nat -> 0 <= V i < 2 ^ Z.of_nat wn - 1) ->
  ryields (lsb wn p cfg rd x) (fun z => stands n z false false (fun i => V i mod 2)).
Proof.
  intros wn p cfg rd n x sx V (Hw & Hp & Hpw & Hps) Hrd Hx HV.
  pose proof (lsb_private_ok wn p cfg Hw Hp Hpw Hps rd n x sx V Hrd Hx HV) as Q.
  destruct Hx as [_ K]. destruct x; cbn in K; try discriminate. cbn [lsb].
  eapply rbind_ok; [exact Q|]. intros q [H _]. eexists. split; [reflexivity|exact H].
Qed.
Print Assumptions C38_lsb_private.

(** ** C39 *)
Lemma carry_wraps wn x i : (1 < wn)%nat -> (carry wn x i = 0 \/ carry wn x i = 1) -> (carry wn x i = 1 <-> wraps wn x i).
Proof.
  intros Hw Hc. destruct x as [| [d0 a] [d1 b] s|]; cbn [carry wraps pval] in *; [split; [lia|intros []]| |split; [lia|intros []]].
  pose proof (pow2_pos (Z.of_nat wn) ltac:(lia)) as HP. set (P := 2 ^ Z.of_nat wn) in *.
  change (nth i (a : list Z) 0 mod P + nth i (b : list Z) 0 mod P) with (nth i (a : list Z) 0 mod P + nth i (b : list Z) 0 mod P) in *.
  revert Hc. generalize (nth i (a : list Z) 0 mod P + nth i (b : list Z) 0 mod P). intros z Hc.
  split; intros H.
  - assert (z / P * P <= z) by (rewrite Z.mul_comm; apply Z.mul_div_le; lia). rewrite H in H0. lia.
  - destruct Hc as [E|E]; [|exact E]. exfalso. apply Z.div_small_iff in E; lia.
Qed.
Lemma misread_eq wn v x i : (1 < wn)%nat -> (carry wn x i = 0 \/ carry wn x i = 1) ->
  (misread wn v (carry wn x i) <-> misread_value wn v (wraps wn x i)).
Proof. intros Hw Hc. unfold misread, misread_value. rewrite (carry_wraps wn x i Hw Hc). tauto. Qed.

Theorem C39_is_negative : forall wn p cfg rd n x b sc v, params wn p -> (b = false -> lsbrnd_ok wn p n rd) -> stands n x b sc v ->
  (forall i, (i < n)%nat -> in_s (Z.of_nat wn) (v i)) ->
  ryields (is_negative wn p cfg rd x) (fun z => exists g, stands n z b false g /\
    forall i, (i < n)%nat -> bit (g i) /\ (g i = Z.b2z (v i <? 0) <-> ~ misread_value wn (v i) (wraps wn x i))).
Proof.
  intros wn p cfg rd n x b sc v (Hw & Hp & Hpw & Hps) Hrd Hx Hv.
  eapply ryields_imp; [|exact (msb_ok wn p cfg Hw Hp Hpw Hps rd n x b sc v Hrd Hx)].
  intros z Hz. eexists. split; [exact Hz|]. intros i Hi. cbn beta.
  destruct (carry_bit wn Hw n x b sc v i Hx Hi) as [Hc _].
  destruct (msb_val_exact wn Hw (v i) (carry wn x i) (Hv i Hi) Hc) as [E B]. split; [exact B|].
  rewrite E. rewrite (misread_eq wn (v i) x i Hw Hc). tauto.
Qed.
Print Assumptions C39_is_negative.

(** The sharing of -2 that wraps is unique. *)
Theorem C39_minus_two : forall wn (a b : Z), (1 < wn)%nat -> in_s (Z.of_nat wn) a -> in_s (Z.of_nat wn) b ->
  eqm (2 ^ Z.of_nat wn) (a + b) (-2) ->
  (2 ^ Z.of_nat wn <= a mod 2 ^ Z.of_nat wn + b mod 2 ^ Z.of_nat wn <-> a = -1 /\ b = -1).
Proof.
  intros wn a b Hw Ha Hb H. pose proof (pow2_half (Z.of_nat wn) ltac:(lia)) as Hh.
  rewrite !unsigned_cases by (assumption || lia). apply eqm_exists in H; [|pose proof (pow2_pos (Z.of_nat wn) ltac:(lia)); lia]. destruct H as [k Hk].
  unfold in_s in *. pose proof (Z.pow_le_mono_r 2 1 (Z.of_nat wn - 1) ltac:(lia) ltac:(lia)) as H1. change (2 ^ 1) with 2 in H1.
  assert (k = 0 \/ k = 1 \/ k = -1 \/ 2 <= k \/ k <= -2) as [-> |[-> |[-> |[?|?]]]] by lia;
  destruct (Z.ltb_spec a 0), (Z.ltb_spec b 0); try nia; lia.
Qed.
Print Assumptions C39_minus_two.

(** Every other value is right, whatever the sharing. *)
Theorem C39_is_negative_right : forall wn p cfg rd n x b sc v, params wn p -> (b = false -> lsbrnd_ok wn p n rd) -> stands n x b sc v ->
  (forall i, (i < n)%nat -> - 2 ^ (Z.of_nat wn - 1) <= v i < 2 ^ (Z.of_nat wn - 1) - 1 /\ v i <> -1 /\ v i <> -2) ->
  ryields (is_negative wn p cfg rd x) (fun z => stands n z b false (fun i => Z.b2z (v i <? 0))).
Proof.
  intros wn p cfg rd n x b sc v HP Hrd Hx Hv.
  eapply ryields_imp; [|apply (C39_is_negative wn p cfg rd n x b sc v HP Hrd Hx); intros i Hi; specialize (Hv i Hi); unfold in_s; lia].
  intros z (g & Sg & Hg). eapply (stands_ext _); [|exact Sg]. intros i Hi. apply eqm_eq. apply (Hg i Hi).
  intros [M|[[M _]|[M _]]]; specialize (Hv i Hi); lia.
Qed.
Print Assumptions C39_is_negative_right.
(** ... and -1 is always taken for a non-negative number. *)
Theorem C39_minus_one_refuted : forall wn p cfg rd n x b sc, params wn p -> (b = false -> lsbrnd_ok wn p n rd) -> stands n x b sc (fun _ => -1) ->
  ryields (is_negative wn p cfg rd x) (fun z => stands n z b false (fun _ => 0)).
Proof.
  intros wn p cfg rd n x b sc HP Hrd Hx.
  eapply ryields_imp; [|apply (C39_is_negative wn p cfg rd n x b sc (fun _ => -1) HP Hrd Hx)].
  - intros z (g & Sg & Hg). eapply (stands_ext _); [|exact Sg]. intros i Hi. apply eqm_eq. destruct (Hg i Hi) as [[B|B] E]; [exact B|].
    exfalso. apply (proj1 E); [rewrite B; reflexivity|left; reflexivity].
  - intros i Hi. unfold in_s. destruct HP as [Hw _]. pose proof (pow2_pos (Z.of_nat wn - 1) ltac:(lia)). lia.
Qed.
Print Assumptions C39_minus_one_refuted.

(** The four comparisons of operands of moderate size. *)
Theorem C39_comparisons : forall wn p cfg rd n x y bx by_ sc u v, params wn p -> (bx && by_ = false -> lsbrnd_ok wn p n rd) ->
  stands n x bx sc u -> stands n y by_ sc v ->
  (forall i, (i < n)%nat -> quarter wn (u i) /\ quarter wn (v i) /\ Z.abs (u i - v i) <> 1 /\ Z.abs (u i - v i) <> 2) ->
  ryields (less wn p cfg rd x y) (fun z => stands n z (bx && by_) false (fun i => Z.b2z (u i <? v i))) /\
  ryields (greater wn p cfg rd x y) (fun z => stands n z (bx && by_) false (fun i => Z.b2z (v i <? u i))) /\
  ryields (less_equal wn p cfg rd x y) (fun z => stands n z (bx && by_) false (fun i => Z.b2z (u i <=? v i))) /\
  ryields (greater_equal wn p cfg rd x y) (fun z => stands n z (bx && by_) false (fun i => Z.b2z (v i <=? u i))).
Proof.
  intros wn p cfg rd n x y bx by_ sc u v (Hw & Hp & Hpw & Hps) Hrd Hx Hy Huv.
  assert (Q : forall x y bx by_ u v, (bx && by_ = false -> lsbrnd_ok wn p n rd) -> stands n x bx sc u -> stands n y by_ sc v ->
    (forall i, (i < n)%nat -> quarter wn (u i) /\ quarter wn (v i) /\ Z.abs (u i - v i) <> 1 /\ Z.abs (u i - v i) <> 2) ->
    ryields (less wn p cfg rd x y) (fun z => stands n z (bx && by_) false (fun i => Z.b2z (u i <? v i)))).
  { clear - Hw Hp Hpw Hps. intros x y bx by_ u v Hrd Hx Hy Huv.
    eapply ryields_imp; [|exact (less_ok wn p cfg Hw Hp Hpw Hps rd n x y bx by_ sc u v Hrd Hx Hy)].
    intros z (k & Hk & _ & Hz). eapply (stands_ext _); [|exact Hz]. intros i Hi. apply eqm_eq. cbn beta.
    destruct (Huv i Hi) as (A & B & C & D). destruct (small_diff wn Hw (u i) (v i) A B) as [S S'].
    destruct (msb_diff wn Hw (u i - v i) (k i) S (Hk i)) as (c & -> & [-> |M]).
    - f_equal. destruct (Z.ltb_spec (u i - v i) 0), (Z.ltb_spec (u i) (v i)); lia || reflexivity.
    - exfalso. clear - M S' C D. destruct M as [M|[[M _]|[M _]]]; lia. }
  assert (Hyx : forall i, (i < n)%nat -> quarter wn (v i) /\ quarter wn (u i) /\ Z.abs (v i - u i) <> 1 /\ Z.abs (v i - u i) <> 2).
  { intros i Hi. destruct (Huv i Hi) as (A & B & C & D). split; [exact B|]. split; [exact A|]. clear - C D. lia. }
  assert (Hrd' : by_ && bx = false -> lsbrnd_ok wn p n rd) by (rewrite andb_comm; exact Hrd).
  assert (G : ryields (greater wn p cfg rd x y) (fun z => stands n z (bx && by_) false (fun i => Z.b2z (v i <? u i)))).
  { rewrite greater_less, andb_comm. exact (Q y x by_ bx v u Hrd' Hy Hx Hyx). }
  split; [exact (Q x y bx by_ u v Hrd Hx Hy Huv)|]. split; [exact G|]. split.
  - unfold less_equal. eapply rbind_ok; [exact G|]. intros g Hg.
    eapply ryields_imp; [|exact (bitwise_not_st _ (LR wn Hw) n g _ _ Hg)]. intros z Hz. eapply (stands_ext _); [|exact Hz].
    intros i Hi. apply eqm_eq. cbn beta. rewrite Z.leb_antisym. destruct (v i <? u i); reflexivity.
  - unfold greater_equal. eapply rbind_ok; [exact (Q x y bx by_ u v Hrd Hx Hy Huv)|]. intros g Hg.
    eapply ryields_imp; [|exact (bitwise_not_st _ (LR wn Hw) n g _ _ Hg)]. intros z Hz. eapply (stands_ext _); [|exact Hz].
    intros i Hi. apply eqm_eq. cbn beta. rewrite Z.leb_antisym. destruct (u i <? v i); reflexivity.
Qed.
Print Assumptions C39_comparisons.
(** Operands one unit apart are never seen as ordered: [less x (x + 1)] is always 0. *)
Theorem C39_less_adjacent_refuted : forall wn p cfg rd n x y b sc u, params wn p -> (b = false -> lsbrnd_ok wn p n rd) ->
  stands n x b sc u -> stands n y b sc (fun i => u i + 1) ->
  ryields (less wn p cfg rd x y) (fun z => stands n z b false (fun _ => 0)).
Proof.
  intros wn p cfg rd n x y b sc u (Hw & Hp & Hpw & Hps) Hrd Hx Hy.
  assert (Hrd' : b && b = false -> lsbrnd_ok wn p n rd) by (rewrite andb_diag; exact Hrd).
  eapply ryields_imp; [|exact (less_ok wn p cfg Hw Hp Hpw Hps rd n x y b b sc _ _ Hrd' Hx Hy)].
  rewrite andb_diag. intros z (k & Hk & _ & Hz). eapply (stands_ext _); [|exact Hz]. intros i Hi. apply eqm_eq. cbn beta.
  replace (u i - (u i + 1)) with (-1) by ring.
  assert (S : in_s (Z.of_nat wn) (-1)) by (unfold in_s; pose proof (pow2_pos (Z.of_nat wn - 1) ltac:(lia)); lia).
  destruct (msb_val_exact wn Hw (-1) (k i) S (Hk i)) as [E [B|B]]; [exact B|].
  exfalso. apply (proj1 E); [rewrite B; reflexivity|left; reflexivity].
Qed.
Print Assumptions C39_less_adjacent_refuted.

(** ** C40 *)
Theorem C40_bitwise : forall F n r x y bx by_ (a b : nat -> bool), lawful F ->
  stands n x bx false (fun i => Z.b2z (a i)) -> stands n y by_ false (fun i => Z.b2z (b i)) -> bx || by_ = true \/ rnd_ok F r n n n ->
  ryields (bitwise_not F x) (fun z => stands n z bx false (fun i => Z.b2z (negb (a i)))) /\
  ryields (bitwise_and F r x y) (fun z => stands n z (bx && by_) false (fun i => Z.b2z (a i && b i))) /\
  ryields (bitwise_or F r x y) (fun z => stands n z (bx && by_) false (fun i => Z.b2z (a i || b i))) /\
  ryields (bitwise_xor F r x y) (fun z => stands n z (bx && by_) false (fun i => Z.b2z (xorb (a i) (b i)))).
Proof.
  intros F n r x y bx by_ a b L Hx Hy Hr. split; [|split; [|split]].
  - eapply ryields_imp; [|exact (bitwise_not_st F L n x bx _ Hx)]. intros z Hz. eapply (stands_ext F); [|exact Hz].
    intros i Hi. apply eqm_eq. cbn beta. destruct (a i); reflexivity.
  - eapply ryields_imp; [|exact (bitwise_and_st F L n r x y bx by_ _ _ Hx Hy Hr)]. intros z Hz. eapply (stands_ext F); [|exact Hz].
    intros i Hi. apply eqm_eq. cbn beta. destruct (a i), (b i); reflexivity.
  - eapply ryields_imp; [|exact (bitwise_or_st F L n r x y bx by_ _ _ Hx Hy Hr)]. intros z Hz. eapply (stands_ext F); [|exact Hz].
    intros i Hi. apply eqm_eq. cbn beta. destruct (a i), (b i); reflexivity.
  - eapply ryields_imp; [|exact (bitwise_xor_st F L n r x y bx by_ _ _ Hx Hy Hr)]. intros z Hz. eapply (stands_ext F); [|exact Hz].
    intros i Hi. apply eqm_eq. cbn beta. destruct (a i), (b i); reflexivity.
Qed.
Print Assumptions C40_bitwise.
Theorem C40_select : forall F X cfg n r c x y bc bx by_ sc (k : nat -> bool) u v, lawful F ->
  stands n c bc false (fun i => Z.b2z (k i)) -> stands n x bx sc u -> stands n y by_ sc v ->
  bc || (bx && by_) = true \/ rnd_ok F r n n n ->
  ryields (select F X cfg r c x y) (fun z => stands n z (bc && bx && by_) sc (fun i => if k i then v i else u i)).
Proof.
  intros F X cfg n r c x y bc bx by_ sc k u v L Hc Hx Hy Hr.
  eapply ryields_imp; [|exact (select_st F L X cfg n r c x y bc bx by_ sc _ u v Hc Hx Hy Hr)]. intros z Hz. eapply (stands_ext F); [|exact Hz].
  intros i Hi. apply eqm_eq. cbn beta. destruct (k i); cbn [Z.b2z]; ring.
Qed.
Print Assumptions C40_select.

(** ** C41, SecureNN part *)
(** [maximum] of two tensors, [reduce_max] of [N] slices: the result is one of the entries; it is
    at most [2 * ceil (log2 N)] units below the largest; and it is the largest when no two entries
    are one or two units apart. *)
Theorem C41_snn_reduce_max : forall wn p cfg rd n ts b sc (V : nat -> nat -> Z), params wn p ->
  (b = false -> forall k, cmprnd_ok wn p n (rd k)) -> (0 < length ts)%nat ->
  (forall j t0, (j < length ts)%nat -> stands n (nth j ts t0) b sc (V j)) ->
  (forall j i, (j < length ts)%nat -> (i < n)%nat -> quarter wn (V j i)) ->
  ryields (reduce_max wn p cfg rd ts) (fun z => exists M, stands n z b sc M /\ forall i, (i < n)%nat ->
    (exists j, (j < length ts)%nat /\ M i = V j i) /\
    (forall j, (j < length ts)%nat -> V j i <= M i + 2 * Z.of_nat (Nat.log2_up (length ts))) /\
    ((forall j j', (j < length ts)%nat -> (j' < length ts)%nat -> V j i - V j' i <> 1 /\ V j i - V j' i <> 2) ->
       forall j, (j < length ts)%nat -> V j i <= M i)).
Proof.
  intros wn p cfg rd n ts b sc V (Hw & Hp & Hpw & Hps) Hrd H0 Hts HV. unfold reduce_max.
  assert (HD : (length ts <= 2 ^ Nat.log2_up (length ts))%nat) by (apply Nat.log2_log2_up_spec; exact H0).
  eapply ryields_imp; [|apply (max_tree_ok wn p cfg Hw Hp Hpw Hps rd n b sc V (length ts) Hrd HV (length ts) ts 1 0 (Nat.log2_up (length ts)) ltac:(lia) H0 ltac:(lia) HD)].
  - intros z (M & S & B). exists M. split; [exact S|]. intros i Hi. destruct (B i Hi) as (j & R & E & L & X). split; [|split].
    + exists j. split; [lia|exact E].
    + intros j' Hj'. apply L. lia.
    + intros G j' Hj'. apply (X G j'). lia.
  - intros j Hj t0. apply Hts. exact Hj.
Qed.
Print Assumptions C41_snn_reduce_max.

Theorem C41_snn_argmax : forall wn p cfg rd n ts b sc (V : nat -> nat -> Z), params wn p ->
  (b = false -> forall k, cmprnd_ok wn p n (rd k)) -> (0 < length ts)%nat ->
  (forall j t0, (j < length ts)%nat -> stands n (nth j ts t0) b sc (V j)) ->
  (forall j i, (j < length ts)%nat -> (i < n)%nat -> quarter wn (V j i)) ->
  ryields (reduce_max_with_argmax wn p cfg rd ts) (fun z => exists M A ba, stands n (fst z) b sc M /\ stands n (snd z) ba true A /\ forall i, (i < n)%nat ->
    exists j, (j < length ts)%nat /\ M i = V j i /\ A i = Z.of_nat j * scaling_factor cfg /\
    (forall j', (j' < length ts)%nat -> V j' i <= M i + 2 * Z.of_nat (Nat.log2_up (length ts))) /\
    ((forall j j', (j < length ts)%nat -> (j' < length ts)%nat -> V j i - V j' i <> 1 /\ V j i - V j' i <> 2) ->
       forall j', (j' < length ts)%nat -> V j' i <= M i /\ (V j' i = M i -> (j' <= j)%nat))).
Proof.
  intros wn p cfg rd n ts b sc V (Hw & Hp & Hpw & Hps) Hrd H0 Hts HV. unfold reduce_max_with_argmax.
  assert (HD : (length ts <= 2 ^ Nat.log2_up (length ts))%nat) by (apply Nat.log2_log2_up_spec; exact H0).
  assert (En : (match ts with t :: _ => entries t | [] => O end) = n).
  { destruct ts as [|t ts]; [cbn in H0; lia|]. exact (stands_entries _ n t b sc (V O) (Hts O t H0)). }
  rewrite En. set (cs := map _ (seq 0 (length ts))).
  assert (Lc : length cs = length ts) by (unfold cs; rewrite map_length; apply seq_length).
  assert (LC : length (combine ts cs) = length ts) by (rewrite combine_length, Lc; lia).
  rewrite <- LC in HD at 1.
  eapply ryields_imp; [|apply (argmax_tree_ok wn p cfg Hw Hp Hpw Hps rd n b sc (scaling_factor cfg) V (length ts) Hrd HV (length ts) (combine ts cs) 1 0 (Nat.log2_up (length ts)) ltac:(lia) ltac:(lia) ltac:(lia) HD)].
  - intros z (M & A & ba & S & T & _ & B). exists M, A, ba. split; [exact S|]. split; [exact T|]. intros i Hi.
    destruct (B i Hi) as (j & EA & R & E & L & X). rewrite LC in R, L, X. exists j. split; [lia|]. split; [exact E|]. split; [exact EA|]. split.
    + intros j' Hj'. apply L. lia.
    + intros G j' Hj'. apply (X G j'). lia.
  - intros j Hj [t0 c0]. rewrite LC in Hj. rewrite combine_nth by (symmetry; exact Lc). cbn [fst snd Nat.add]. split; [apply Hts; exact Hj|].
    unfold cs. set (g := fun i : nat => _).
    rewrite (nth_indep _ c0 (g O)) by (rewrite map_length, seq_length; exact Hj). rewrite map_nth, seq_nth by exact Hj. unfold g. cbn [Nat.add].
    exact (pconst_ok _ (LR wn Hw) n (Z.of_nat j * scaling_factor cfg) true).
Qed.
Print Assumptions C41_snn_argmax.

(** [maximum (u + 1, u)] is [u]. *)
Theorem C41_snn_maximum_refuted : forall wn p cfg rd n x y b sc u, params wn p -> (b = false -> cmprnd_ok wn p n rd) ->
  stands n x b sc (fun i => u i + 1) -> stands n y b sc u ->
  ryields (maximum wn p cfg rd x y) (fun z => stands n z b sc u).
Proof.
  intros wn p cfg rd n x y b sc u HP Hrd Hx Hy. unfold maximum. rewrite greater_less.
  eapply rbind_ok; [exact (C39_less_adjacent_refuted wn p cfg (c_lsb wn rd) n y x b sc u HP (fun E => proj1 (Hrd E)) Hy Hx)|]. intros g Hg.
  destruct HP as [Hw _].
  eapply ryields_imp; [|apply (select_st _ (LR wn Hw) (ncfg_fix (MkN (Z.of_nat wn) None)) cfg n (c_sel wn rd) g y x b b b sc _ _ _ Hg Hy Hx)].
  - intros z Hz. replace (b && b && b) with b in Hz by (destruct b; reflexivity). eapply (stands_ext _); [|exact Hz].
    intros i Hi. apply eqm_eq. ring.
  - destruct b; [left; reflexivity|right; apply (Hrd eq_refl)].
Qed.
Print Assumptions C41_snn_maximum_refuted.

(** ** C42 *)
(** Values whose sign is read correctly whatever the sharing. *)
Definition clear_sign (wn : nat) (v : Z) : Prop :=
  - 2 ^ (Z.of_nat wn - 1) <= v < 2 ^ (Z.of_nat wn - 1) - 1 /\ v <> -1 /\ v <> -2.
Lemma clear_msb wn v k : (1 < wn)%nat -> clear_sign wn v -> (k = 0 \/ k = 1) -> 1 - msb_val wn (v mod 2 ^ Z.of_nat wn) k = Z.b2z (0 <=? v).
Proof.
  intros Hw (H & N1 & N2) Hk. destruct (msb_val_exact wn Hw v k ltac:(unfold in_s; lia) Hk) as [E _].
  rewrite (proj2 E) by (intros [M|[[M _]|[M _]]]; lia). rewrite Z.leb_antisym. destruct (v <? 0); reflexivity.
Qed.
(** Up to the threshold (or with the splitting disabled) relu is the positive part. *)
Theorem C42_relu_small : forall wn p cfg rd M m L x b sc v, params wn p -> (M = 0%nat \/ (m * L <= M)%nat) -> stands (m * L) x b sc v ->
  (b = false -> cmprnd_ok wn p (m * L) (rd O)) -> (forall i, (i < m * L)%nat -> clear_sign wn (v i)) ->
  ryields (relu wn p cfg rd M m L x) (fun z => stands (m * L) z b sc (fun i => Z.max 0 (v i))).
Proof.
  intros wn p cfg rd M m L x b sc v (Hw & Hp & Hpw & Hps) HM Hx Hrd Hv. unfold relu.
  eapply rbind_ok; [exact (relu_small_ok wn p cfg Hw Hp Hpw Hps rd M m L x b sc v HM Hx Hrd)|]. intros q [_ Hq].
  eexists. split; [reflexivity|]. eapply (stands_ext _); [|exact Hq]. intros i Hi. apply eqm_eq. cbn beta.
  rewrite clear_msb by (auto; apply (carry_bit wn Hw (m * L) x b sc v i Hx Hi)).
  destruct (Z.leb_spec 0 (v i)); cbn [Z.b2z]; lia.
Qed.
Print Assumptions C42_relu_small.
(** Above the threshold relu returns the unscaled bit [0 <= v] instead. *)
Theorem C42_relu_large_refuted : forall wn p cfg rd M m L x b sc v, params wn p -> (0 < M)%nat -> (M < m * L)%nat -> stands (m * L) x b sc v ->
  (b = false -> forall j, (j < length (split_vector M m L))%nat -> cmprnd_ok wn p (m * nth j (split_vector M m L) O) (rd j)) ->
  (forall i, (i < m * L)%nat -> clear_sign wn (v i)) ->
  ryields (relu wn p cfg rd M m L x) (fun z => stands (m * L) z b false (fun i => Z.b2z (0 <=? v i))).
Proof.
  intros wn p cfg rd M m L x b sc v (Hw & Hp & Hpw & Hps) HM HL Hx Hrd Hv. unfold relu.
  eapply rbind_ok; [exact (relu_split_ok wn p cfg Hw Hp Hpw Hps rd M m L x b sc v HM HL Hx Hrd)|]. intros q [Hq _].
  eexists. split; [reflexivity|]. eapply (stands_ext _); [|exact Hq]. intros i Hi. apply eqm_eq. cbn beta.
  apply clear_msb; auto; apply (carry_bit wn Hw (m * L) x b sc v i Hx Hi).
Qed.
Print Assumptions C42_relu_large_refuted.

(** ** C72 *)
Lemma cvec_zero_close sg xs : sg = 1 \/ sg = -1 -> forall ss j, length xs = length ss -> (j < length xs)%nat -> Forall bit xs -> Forall bit ss ->
  nth j (cvec sg xs ss) 0 = 0 -> Z.abs (bits_value xs - bits_value ss) < 2 ^ (Z.of_nat j + 1).
Proof.
  intros Hg. induction xs as [|x xs IH]; intros ss j Hl Hj Hx Hs E; [cbn in Hj; lia|]. destruct ss as [|s ss]; [discriminate|].
  inversion Hx; inversion Hs; subst. assert (Hl' : length xs = length ss) by (cbn in Hl; lia). cbn [bits_value].
  destruct j as [|j].
  - cbn [cvec nth] in E. pose proof (ham_bounds xs ss H2 H6) as HB.
    assert (H0 : ham xs ss = 0) by (destruct H1, H5, Hg; subst; lia). apply ham_zero in H0; try assumption. subst ss.
    change (2 ^ (Z.of_nat 0 + 1)) with 2. destruct H1, H5; subst; lia.
  - cbn [cvec nth] in E. specialize (IH ss j Hl' ltac:(cbn in Hj; lia) H2 H6 E).
    replace (Z.of_nat (S j) + 1) with (Z.succ (Z.of_nat j + 1)) by lia. rewrite Z.pow_succ_r by lia.
    destruct H1, H5; subst; lia.
Qed.
(** What server 2 reconstructs bounds the secret: a zero at bit [j] occurs only when the value
    (or its negative in the odd ring) is at most [2 ^ (j + 1)]. *)
Lemma helper_zero wn p cfg rd n x sx V : params wn p -> lsbrnd_ok wn p n rd -> stands n x false sx V ->
  (forall i, (i < n)%nat -> 0 <= V i < 2 ^ Z.of_nat wn - 1) ->
  exists view z, lsb_private_view wn p cfg rd x = Ok (view, z) /\
    forall i j, (i < n)%nat -> (j < wn)%nat -> nth (i * wn + j) view 0 = 0 ->
      V i < 2 ^ (Z.of_nat j + 1) \/ 2 ^ Z.of_nat wn - 1 - V i <= 2 ^ (Z.of_nat j + 1).
Proof.
  intros (Hw & Hp & Hpw & Hps) Hrd Hx HV.
  destruct (lsb_private_ok wn p cfg Hw Hp Hpw Hps rd n x sx V Hrd Hx HV) as ([view z] & E & _ & _ & Hd). cbn [fst] in Hd.
  exists view, z. split; [exact E|]. intros i j Hi Hj Hz.
  destruct Hrd as (_ & _ & _ & _ & [Lb Hb] & _ & [Lm Hm] & _).
  assert (Hk : (i * wn + j < n * wn)%nat) by nia. rewrite (Hd _ Hk) in Hz.
  assert (Bt : bit (nth i (l_beta rd) 0)) by (rewrite Forall_forall in Hb; apply Hb, nth_In; lia).
  assert (Mk : 0 < nth (i * wn + j) (l_mask rd) 0 < p) by (rewrite Forall_forall in Hm; apply Hm, nth_In; lia).
  rewrite cval_at in Hz by exact Hj.
  set (r := rval wn rd i) in *. set (c := (V i + r) mod (2 ^ Z.of_nat wn - 1)) in *. set (B := nth i (l_beta rd) 0) in *.
  pose proof (mo_pos wn Hw) as Hmo.
  assert (Hr : 0 <= r < 2 ^ Z.of_nat wn - 1) by (apply Z.mod_pos_bound; lia).
  assert (Hc : 0 <= c < 2 ^ Z.of_nat wn - 1) by (apply Z.mod_pos_bound; lia).
  assert (Z0 : nth j (crow wn r c B) 0 = 0).
  { pose proof (crow_bounds wn Hw r c B Bt) as CB. rewrite Forall_forall in CB.
    specialize (CB (nth j (crow wn r c B) 0) ltac:(apply nth_In; rewrite crow_length by exact Hw; exact Hj)).
    pose proof (n_equal_zero_scaled wn p Hw Hp Hpw (nth j (crow wn r c B) 0) _ CB Mk) as Q. rewrite Hz in Q.
    unfold n_equal_zero in Q. cbn [Z.eqb] in Q. destruct (Z.eqb_spec (nth j (crow wn r c B) 0) 0); [assumption|discriminate]. }
  unfold crow in Z0. replace ((B =? 1) && (c =? 2 ^ Z.of_nat wn - 1)) with false in Z0
    by (symmetry; apply andb_false_iff; right; apply Z.eqb_neq; lia).
  assert (Sg : 1 - 2 * B = 1 \/ 1 - 2 * B = -1) by (destruct Bt; lia).
  pose proof (cvec_zero_close (1 - 2 * B) (binarize wn r) Sg (binarize wn (c + B)) j ltac:(rewrite !binarize_length; reflexivity)
     ltac:(rewrite binarize_length; exact Hj) ltac:(apply binarize_bit) ltac:(apply binarize_bit) Z0) as Q.
  rewrite !binarize_value, !Z.mod_small in Q by (destruct Bt; lia).
  assert (Ec : c = V i + r \/ c = V i + r - (2 ^ Z.of_nat wn - 1)).
  { unfold c. specialize (HV i Hi). destruct (Z.lt_ge_cases (V i + r) (2 ^ Z.of_nat wn - 1)); [left; apply Z.mod_small; lia|right].
    symmetry. apply (Z.mod_unique_pos _ _ 1); lia. }
  clear - Q Ec Bt. destruct Bt, Ec; lia.
Qed.
(** Server 2's view therefore depends on the secret: a sharing of 0 shows it a zero at bit 1 for
    some draws, and no draw ever does for a value of 2 ^ (w - 2). *)
Theorem C72_helper_view_refuted :
  (exists cfg rd x view z, lsbrnd_ok 8 11 2 rd /\ stands 2 x false false (fun _ => 0) /\
     lsb_private_view 8 11 cfg rd x = Ok (view, z) /\ nth 1 view 0 = 0) /\
  (forall cfg rd n x sx V, lsbrnd_ok 8 11 n rd -> stands n x false sx V -> (forall i, (i < n)%nat -> 0 <= V i < 2 ^ 8 - 1) ->
     exists view z, lsb_private_view 8 11 cfg rd x = Ok (view, z) /\
       forall i, (i < n)%nat -> V i = 2 ^ 6 -> nth (i * 8 + 1) view 0 <> 0).
Proof.
  split.
  - set (x := @Priv (odd 8) (@MkPv (odd 8) Srv0 [5; 9]) (@MkPv (odd 8) Srv1 [-6; -10]) false).
    assert (Q : match lsb_private_view 8 11 cfg8 (rd8 1 1) x with Ok q => nth 1 (fst q) 0 =? 0 | Err _ => false end = true) by (vm_compute; reflexivity).
    destruct (lsb_private_view 8 11 cfg8 (rd8 1 1) x) as [[view z]|e] eqn:E; [|discriminate]. apply Z.eqb_eq in Q. cbn [fst] in Q.
    exists cfg8, (rd8 1 1), x, view, z. split; [apply rd8_ok; right; reflexivity|]. split; [|split; [exact E|exact Q]].
    split; [|reflexivity]. cbn [denotes pdev pval]. split; [reflexivity|]. split; [reflexivity|]. split; [reflexivity|].
    assert (O : okT (odd 8) 2 [5; 9] /\ okT (odd 8) 2 [-6; -10]) by (split; (split; [reflexivity|all_entries])). destruct O as [O1 O2].
    split; [exact O1|]. split; [exact O2|]. intros i Hi. destruct i as [|[|i]]; [reflexivity|reflexivity|lia].
  - intros cfg rd n x sx V Hrd Hx HV.
    destruct (helper_zero 8 11 cfg rd n x sx V params_8_11 Hrd Hx HV) as (view & z & E & H). exists view, z. split; [exact E|].
    intros i Hi EV Z0. specialize (H i 1%nat Hi ltac:(lia) Z0). rewrite EV in H. cbn in H. lia.
Qed.
Print Assumptions C72_helper_view_refuted.
(** For every word size, the view bounds the magnitude. *)
Theorem C72_helper_learns_magnitude_refuted : forall wn p cfg rd n x sx V, params wn p -> lsbrnd_ok wn p n rd -> stands n x false sx V ->
  (forall i, (i < n)%nat -> 0 <= V i < 2 ^ Z.of_nat wn - 1) ->
  exists view z, lsb_private_view wn p cfg rd x = Ok (view, z) /\
    forall i j, (i < n)%nat -> (j < wn)%nat -> nth (i * wn + j) view 0 = 0 ->
      V i < 2 ^ (Z.of_nat j + 1) \/ 2 ^ Z.of_nat wn - 1 - V i <= 2 ^ (Z.of_nat j + 1).
Proof. exact helper_zero. Qed.
Print Assumptions C72_helper_learns_magnitude_refuted.

(** ** Concrete runs *)
Definition opened (r : res (ptensor (native (MkN (Z.of_nat 8) None)))) : option (list Z * bool) :=
  match r with
  | Ok z => match snd (reveal _ z) with Ok (Pub a b sc) => if list_eq_dec Z.eq_dec (pval a) (pval b) then Some (pval a, sc) else None | _ => None end
  | Err _ => None
  end.
Example run_is_negative : opened (is_negative 8 11 cfg8 (rd8 0 1) (priv8 [100; -50] [-90; 20])) = Some ([0; 1], false).
Proof. vm_compute. reflexivity. Qed.
Example run_is_negative_minus_one : opened (is_negative 8 11 cfg8 (rd8 0 1) (priv8 [100; -50] [-101; 49])) = Some ([0; 0], false).
Proof. vm_compute. reflexivity. Qed.
Example run_is_negative_minus_two : opened (is_negative 8 11 cfg8 (rd8 0 1) (priv8 [-1; -50] [-1; 48])) = Some ([0; 1], false).
Proof. vm_compute. reflexivity. Qed.
Example run_maximum : opened (maximum 8 11 cfg8 (cmp8 1 0) (priv8 [100; -50] [-70; 30]) (priv8 [1; 2] [20; -50])) = Some ([30; -20], false).
Proof. vm_compute. reflexivity. Qed.
Example run_reduce_max_wrong : opened (reduce_max 8 11 cfg8 (fun _ => cmp8 1 0) [priv8 [100; -50] [-70; 30]; priv8 [9; -70] [20; 49]]) = Some ([29; -21], false).
Proof. vm_compute. reflexivity. Qed.
Example run_argmax :
  match reduce_max_with_argmax 8 11 cfg8 (fun _ => cmp8 1 0) [priv8 [10; -50] [-7; 30]; priv8 [9; -70] [20; 60]; priv8 [5; 5] [5; -15]] with
  | Ok (m, a) => (opened (Ok m), opened (Ok a)) = (Some ([29; -10], false), Some ([4; 8], true))
  | Err _ => False
  end.
Proof. vm_compute. reflexivity. Qed.
(** A 2 x 2 tensor with and without splitting. *)
Example run_relu_small : opened (relu 8 11 cfg8 (fun _ => cmp8 0 1) 2 1 2 (priv8 [3; -40] [17; -3])) = Some ([20; 0], false).
Proof. vm_compute. reflexivity. Qed.
Example run_relu_split : opened (relu 8 11 cfg8 (fun _ => cmp8 0 1) 2 2 2 (priv8 [3; -40; 9; 8] [17; -3; 5; -20])) = Some ([1; 0; 1; 0], false).
Proof. vm_compute. reflexivity. Qed.
Example hyps_met : stands 2 (priv8 [100; -50] [-90; 20]) false false (fun i => nth i [100; -50] 0 + nth i [-90; 20] 0) /\
  lsbrnd_ok 8 11 2 (rd8 0 1) /\ cmprnd_ok 8 11 2 (cmp8 1 0) /\
  (forall j, (j < length (split_vector 2 2 2))%nat -> cmprnd_ok 8 11 (2 * nth j (split_vector 2 2 2) O) (cmp8 0 1)) /\
  clear_sign 8 10 /\ quarter 8 (-30).
Proof.
  split; [apply (stands8 [100; -50] [-90; 20]); [reflexivity|all_entries|all_entries]|].
  split; [apply rd8_ok; [left|right]; reflexivity|]. split; [apply cmp8_ok; [right|left]; reflexivity|].
  split; [|vm_compute; repeat split; congruence].
  intros j Hj. change (split_vector 2 2 2) with [1; 1]%nat in *. destruct j as [|[|j]]; [apply cmp8_ok; [left|right]; reflexivity|apply cmp8_ok; [left|right]; reflexivity|cbn in Hj; lia].
Qed.

(** C36, consequence: one admissible draw of the sampler makes [lsb] wrong; the value 5 is
    reported as even. *)
Definition rd_bad : lsbrnd (Z.of_nat 8) :=
  @MkLsb (Z.of_nat 8) (map (odd_sample 8) [-2; -2]) [5; 5] [0; 1; 2; 3; 4; 5; 6; 7; 8; 9; 10; 0; 1; 2; 3; 4] true [77; -12] false [0; 1]
    [9; 8; 7; 6; 5; 4; 3; 2] true [1; 2; 3; 4; 5; 6; 7; 8; 9; 10; 1; 2; 3; 4; 5; 6] [-128; 5] false mul8.
Theorem C36_lsb_wrong_refuted : Forall (odd_draw 8) [-2; -2] /\ stands 2 (@Priv (odd 8) (@MkPv (odd 8) Srv0 [7; 7]) (@MkPv (odd 8) Srv1 [-3; -3]) false) false false (fun _ => 5) /\
  opened (lsb 8 11 cfg8 rd_bad (@Priv (odd 8) (@MkPv (odd 8) Srv0 [7; 7]) (@MkPv (odd 8) Srv1 [-3; -3]) false)) = Some ([0; 0], false).
Proof.
  split; [all_entries|]. split; [|vm_compute; reflexivity].
  split; [|reflexivity]. cbn [denotes pdev pval]. split; [reflexivity|]. split; [reflexivity|]. split; [reflexivity|].
  assert (O : okT (odd 8) 2 [7; 7] /\ okT (odd 8) 2 [-3; -3]) by (split; (split; [reflexivity|all_entries])). destruct O as [O1 O2].
  split; [exact O1|]. split; [exact O2|]. intros i Hi. destruct i as [|[|i]]; [reflexivity|reflexivity|lia].
Qed.
Print Assumptions C36_lsb_wrong_refuted.
