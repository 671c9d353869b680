(** Properties of the ABY3 circuits: adders, conversions, bit extraction, comparisons, selection.
    As in Aby3Props: for every pseudo-random function returning words, every protocol state, every
    sharing of the operands, co-located or distinct machines. *)
From Verif Require Import Base TensorModel Aby3Model Aby3Spec Aby3Bits Aby3Proofs Aby3Trunc Adder Aby3Circ Aby3Cmp Aby3Props.

(** Word sizes with a power of two number of bits, at least 8. *)
Definition pow2_bits (n : Z) : Prop := exists e : nat, n = 2 ^ Z.of_nat e /\ 8 <= n.
(** The bit of a truth value. *)
Definition bit_of (b : bool) : Z := if b then 1 else 0.
Lemma bit_of_b2z b : bit_of b = Z.b2z b. Proof. destruct b; reflexivity. Qed.

(** ** C50: adders *)

Theorem C50_kogge_stone : forall prf colo n x y u v, prf_words prf -> n = 64 \/ n = 128 ->
  boolean (FI n) x u -> boolean (FI n) y v -> psc y = psc x ->
  yields (ppa_ks prf colo x y None) (fun z => psc z = psc x /\ exists w, wrapped n (u + v) w /\ boolean (FI n) z w).
Proof.
  intros prf colo n x y u v Hp Ha Hx Hy Hs. assert (Hn : 0 < n) by lia.
  eapply y_weaken; [exact (ppa_ks_ok prf colo Hp n x y u v None n Ha Hx Hy Hs eq_refl ltac:(lia))|].
  intros z (Sz & Hz). rewrite Z.ltb_irrefl in Hz. split; [exact Sz|]. eexists. split; [|exact Hz]. split; [apply swrap_range, Hn|apply swrap_mod, Hn].
Qed.
Print Assumptions C50_kogge_stone.
Theorem C50_kogge_stone_bits : forall prf colo n x y u v k, prf_words prf -> n = 64 \/ n = 128 ->
  boolean (FI n) x u -> boolean (FI n) y v -> psc y = psc x -> 0 < k < n ->
  yields (ppa_ks prf colo x y (Some k)) (fun z => psc z = psc x /\ boolean (FI n) z ((u + v) mod 2 ^ k)).
Proof.
  intros prf colo n x y u v k Hp Ha Hx Hy Hs Hk.
  eapply y_weaken; [exact (ppa_ks_ok prf colo Hp n x y u v (Some k) k Ha Hx Hy Hs eq_refl ltac:(lia))|].
  intros z (Sz & Hz). destruct (Z.ltb_spec k n); [|lia]. auto.
Qed.
Print Assumptions C50_kogge_stone_bits.
Theorem C50_sklansky : forall prf colo n x y u v, prf_words prf -> n = 64 \/ n = 128 ->
  boolean (FI n) x u -> boolean (FI n) y v -> psc y = psc x ->
  yields (ppa_sk prf colo x y None) (fun z => psc z = psc x /\ exists w, wrapped n (u + v) w /\ boolean (FI n) z w).
Proof.
  intros prf colo n x y u v Hp Ha Hx Hy Hs. assert (Hn : 0 < n) by lia.
  eapply y_weaken; [exact (ppa_sk_ok prf colo Hp n x y u v None n Ha Hx Hy Hs eq_refl ltac:(lia))|].
  intros z (Sz & w & Hz & E). split; [exact Sz|]. exists w. split; [|exact Hz]. split; [|exact E]. exact (b_in_s n z w Hn Hz).
Qed.
Print Assumptions C50_sklansky.
(** With [n_bits = k] only the low [k] bits of the Sklansky result are those of the sum. *)
Theorem C50_sklansky_bits : forall prf colo n x y u v k, prf_words prf -> n = 64 \/ n = 128 ->
  boolean (FI n) x u -> boolean (FI n) y v -> psc y = psc x -> 0 < k <= n ->
  yields (ppa_sk prf colo x y (Some k)) (fun z => psc z = psc x /\ exists w, boolean (FI n) z w /\ w mod 2 ^ k = (u + v) mod 2 ^ k).
Proof. intros prf colo n x y u v k Hp Ha Hx Hy Hs Hk. exact (ppa_sk_ok prf colo Hp n x y u v (Some k) k Ha Hx Hy Hs eq_refl Hk). Qed.
Print Assumptions C50_sklansky_bits.
(** Other word sizes are refused. *)
Theorem C50_other_sizes : forall prf colo n x y u v nb, n <> 64 -> n <> 128 ->
  boolean (FI n) x u -> boolean (FI n) y v ->
  raises (ppa_ks prf colo x y nb) NotImplementedError /\ raises (ppa_sk prf colo x y nb) NotImplementedError.
Proof.
  intros prf colo n x y u v nb H1 H2 (_ & _ & Fx & _) (_ & _ & Fy & _).
  assert (E : is_i64 (FI n) = false) by (unfold is_i64, fac_eqb; destruct (Z.eqb_spec n 64), (Z.eqb_spec n 128); cbn [orb]; congruence).
  split; intros s; unfold ppa_ks, ppa_sk; rewrite Fx, Fy; cbn [fac_eqb]; rewrite Z.eqb_refl; cbv zeta; rewrite E; reflexivity.
Qed.
Print Assumptions C50_other_sizes.
Definition two64 (m : priv -> priv -> M priv) (a b : Z) :=
  ok_val (bind (share ex_prf false Bool_ (FI 64) a true) (fun x => bind (share ex_prf false Bool_ (FI 64) b true) (fun y => bind (m x y) (reveal false))) ex_st).
Example C50_nonvacuous :
  two64 (fun x y => ppa_ks ex_prf false x y None) (2 ^ 63 - 5) 77 = Some (- 2 ^ 63 + 72) /\
  two64 (fun x y => ppa_sk ex_prf false x y None) (- 2 ^ 63) (- 2 ^ 63 + 9) = Some 9 /\
  two64 (fun x y => ppa_ks ex_prf false x y (Some 10)) 1000 999 = Some 975 /\
  two64 (fun x y => ppa_sk ex_prf false x y (Some 8)) 511 1 = Some 0 /\
  two64 (fun x y => ppa_sk ex_prf false x y (Some 8)) 256 0 = Some 256.
Proof. repeat split; vm_compute; reflexivity. Qed.

(** ** C51: conversions *)

Theorem C51_a2b : forall prf colo n x v, prf_words prf -> n = 64 \/ n = 128 -> arith n x v ->
  yields (a2b prf colo None x) (fun z => boolean (FI n) z v /\ psc z = psc x).
Proof.
  intros prf colo n x v Hp Ha Hx. eapply y_weaken; [exact (a2b_ok prf colo Hp n x v None n Ha Hx eq_refl ltac:(lia))|].
  intros z (Sz & Hz). rewrite Z.ltb_irrefl in Hz. auto.
Qed.
Print Assumptions C51_a2b.
Theorem C51_a2b_bits : forall prf colo n x v k, prf_words prf -> n = 64 \/ n = 128 -> arith n x v -> 0 < k < n ->
  yields (a2b prf colo (Some k) x) (fun z => boolean (FI n) z (v mod 2 ^ k) /\ psc z = psc x).
Proof.
  intros prf colo n x v k Hp Ha Hx Hk. eapply y_weaken; [exact (a2b_ok prf colo Hp n x v (Some k) k Ha Hx eq_refl ltac:(lia))|].
  intros z (Sz & Hz). destruct (Z.ltb_spec k n); [|lia]. auto.
Qed.
Print Assumptions C51_a2b_bits.
Theorem C51_b2a : forall prf colo n x v, prf_words prf -> n = 64 \/ n = 128 -> boolean (FI n) x v ->
  yields (b2a_ppa prf colo x) (fun z => arith n z v /\ psc z = psc x).
Proof. intros prf colo n x v Hp Ha Hx. exact (b2a_ppa_ok prf colo Hp n x v Ha Hx). Qed.
Print Assumptions C51_b2a.
Theorem C51_round_trips : forall prf colo n x v, prf_words prf -> n = 64 \/ n = 128 ->
  (arith n x v -> yields (bind (a2b prf colo None x) (b2a_ppa prf colo)) (fun z => arith n z v /\ psc z = psc x)) /\
  (boolean (FI n) x v -> yields (bind (b2a_ppa prf colo x) (a2b prf colo None)) (fun z => boolean (FI n) z v /\ psc z = psc x)).
Proof.
  intros prf colo n x v Hp Ha. split; intros Hx.
  - apply (yb _ _ _ _ (C51_a2b prf colo n x v Hp Ha Hx)). intros b (Hb & Sb).
    eapply y_weaken; [exact (C51_b2a prf colo n b v Hp Ha Hb)|]. intros z (Hz & Sz). split; [exact Hz|congruence].
  - apply (yb _ _ _ _ (C51_b2a prf colo n x v Hp Ha Hx)). intros b (Hb & Sb).
    eapply y_weaken; [exact (C51_a2b prf colo n b v Hp Ha Hb)|]. intros z (Hz & Sz). split; [exact Hz|congruence].
Qed.
Print Assumptions C51_round_trips.
Definition one64 ty (m : priv -> M priv) (a : Z) :=
  ok_val (bind (share ex_prf false ty (FI 64) a true) (fun x => bind (m x) (reveal false)) ex_st).
Example C51_nonvacuous :
  one64 Arith (a2b ex_prf false None) (- 123456789) = Some (- 123456789) /\
  one64 Arith (a2b ex_prf false (Some 16)) (- 3) = Some 65533 /\
  one64 Bool_ (b2a_ppa ex_prf false) (- 2 ^ 63) = Some (- 2 ^ 63) /\
  one64 Arith (fun x => bind (a2b ex_prf false None x) (b2a_ppa ex_prf false)) (2 ^ 63 - 1) = Some (2 ^ 63 - 1).
Proof. repeat split; vm_compute; reflexivity. Qed.

(** ** C52: bits *)

(** The carry out of position [pos] when adding the low bits. *)
Theorem C52_carry : forall prf colo n x y u v pos, prf_words prf -> pow2_bits n ->
  boolean (FI n) x u -> boolean (FI n) y v -> psc y = psc x -> 0 <= pos < n ->
  yields (carry prf colo x y pos) (fun z => psc z = psc x /\ exists w, 8 <= w /\
    boolean (FI w) z ((u mod 2 ^ (pos + 1) + v mod 2 ^ (pos + 1)) / 2 ^ (pos + 1))).
Proof.
  intros prf colo n x y u v pos Hp Hsz Hx Hy Hs Hpos.
  eapply y_weaken; [exact (carry_ok prf colo Hp n x y u v pos Hsz Hx Hy Hs Hpos)|].
  intros z (Sz & _ & w & Hw & Hz). split; [exact Sz|]. exists w. split; [exact Hw|]. rewrite <- add_carry by lia. exact Hz.
Qed.
Print Assumptions C52_carry.
Theorem C52_bit_extract : forall prf colo n x v i, prf_words prf -> pow2_bits n -> arith n x v -> 0 < i < n ->
  yields (bit_extract prf colo x i) (fun z => boolean FB z (v / 2 ^ i mod 2)).
Proof.
  intros prf colo n x v i Hp Hsz Hx Hi. eapply y_weaken; [exact (bit_extract_ok prf colo Hp n x v i Hsz Hx Hi)|].
  intros z (Hz & _). rewrite <- Z.testbit_spec' by lia. exact Hz.
Qed.
Print Assumptions C52_bit_extract.
Theorem C52_bit_extract_boolean : forall prf colo n x v i, prf_words prf -> 1 < n -> boolean (FI n) x v -> 0 <= i ->
  yields (bit_extract prf colo x i) (fun z => boolean FB z (v / 2 ^ i mod 2)).
Proof.
  intros prf colo n x v i Hp Hn Hx Hi. eapply y_weaken; [exact (bit_extract_bool_ok prf colo n x v i Hn Hx Hi)|].
  intros z (Hz & _). rewrite <- Z.testbit_spec' by lia. exact Hz.
Qed.
Print Assumptions C52_bit_extract_boolean.
(** Bit 0 of an arithmetic sharing is not available: the carry into it is asked for position -1. *)
Theorem C52_bit_zero : forall prf colo n x v, prf_words prf -> 1 < n -> arith n x v ->
  raises (bit_extract prf colo x 0) TypeError.
Proof. intros prf colo n x v Hp Hn Hx. exact (bit_extract_zero prf colo Hp n x v Hn Hx). Qed.
Print Assumptions C52_bit_zero.
Theorem C52_msb : forall prf colo n x v, prf_words prf -> pow2_bits n -> arith n x v ->
  yields (msb prf colo x) (fun z => boolean FB z (bit_of (v <? 0)) /\ psc z = false).
Proof. intros prf colo n x v Hp Hsz Hx. rewrite bit_of_b2z. exact (msb_ok prf colo Hp n x v Hsz Hx). Qed.
Print Assumptions C52_msb.
Example C52_nonvacuous :
  pow2_bits 64 /\ pow2_bits 8 /\
  one64 Arith (fun x => bit_extract ex_prf false x 5) (- 32) = Some 1 /\
  one64 Arith (fun x => bit_extract ex_prf false x 4) (- 32) = Some 0 /\
  one64 Arith (msb ex_prf false) (- 1) = Some 1 /\
  one64 Arith (msb ex_prf false) (2 ^ 63 - 1) = Some 0 /\
  two64 (fun x y => carry ex_prf false x y 6) 127 1 = Some 1 /\
  two64 (fun x y => carry ex_prf false x y 6) 126 1 = Some 0.
Proof.
  split; [exists 6%nat; split; [reflexivity|lia]|]. split; [exists 3%nat; split; [reflexivity|lia]|].
  split; [|split; [|split; [|split; [|split]]]]; vm_compute; reflexivity.
Qed.

(** ** C53: comparisons *)

(** The comparison bit is the right one exactly when the difference is representable. *)
Theorem C53_less_than : forall prf colo n x y u v, prf_words prf -> pow2_bits n -> arith n x u -> arith n y v -> psc y = psc x ->
  yields (less_than prf colo x y) (fun z => exists b, boolean FB z (bit_of b) /\ (b = (u <? v) <-> word (FI n) (u - v))) /\
  yields (greater_than prf colo x y) (fun z => exists b, boolean FB z (bit_of b) /\ (b = (v <? u) <-> word (FI n) (v - u))).
Proof.
  intros prf colo n x y u v Hp Hsz Hx Hy Hs. assert (Hn : 0 < n) by (destruct Hsz as (e & _ & H); lia).
  assert (Hu : in_s n u) by apply Hx. assert (Hv : in_s n v) by apply Hy. split.
  - eapply y_weaken; [exact (less_than_ok prf colo Hp n x y u v Hsz Hx Hy Hs)|]. intros z (Hz & _).
    eexists. rewrite bit_of_b2z. split; [exact Hz|]. apply cmp_iff; assumption.
  - eapply y_weaken; [exact (less_than_ok prf colo Hp n y x v u Hsz Hy Hx (eq_sym Hs))|]. intros z (Hz & _).
    eexists. rewrite bit_of_b2z. split; [exact Hz|]. apply cmp_iff; assumption.
Qed.
Print Assumptions C53_less_than.
Theorem C53_less_equal : forall prf colo n x y u v, prf_words prf -> pow2_bits n -> arith n x u -> arith n y v -> psc y = psc x ->
  yields (less_equal prf colo x y) (fun z => exists b, boolean FB z (bit_of b) /\ (b = (u <=? v) <-> word (FI n) (v - u))) /\
  yields (greater_equal prf colo x y) (fun z => exists b, boolean FB z (bit_of b) /\ (b = (v <=? u) <-> word (FI n) (u - v))).
Proof.
  intros prf colo n x y u v Hp Hsz Hx Hy Hs. assert (Hn : 0 < n) by (destruct Hsz as (e & _ & H); lia).
  assert (Hu : in_s n u) by apply Hx. assert (Hv : in_s n v) by apply Hy. split.
  - eapply y_weaken; [exact (less_equal_ok prf colo Hp n x y u v Hsz Hx Hy Hs)|]. intros z (Hz & _).
    eexists. rewrite bit_of_b2z. split; [exact Hz|]. rewrite Z.leb_antisym.
    pose proof (cmp_iff n v u Hn Hv Hu) as H. destruct (swrap n (v - u) <? 0), (v <? u); cbn [negb]; intuition congruence.
  - eapply y_weaken; [exact (greater_equal_ok prf colo Hp n x y u v Hsz Hx Hy Hs)|]. intros z (Hz & _).
    eexists. rewrite bit_of_b2z. split; [exact Hz|]. rewrite Z.leb_antisym.
    pose proof (cmp_iff n u v Hn Hu Hv) as H. destruct (swrap n (u - v) <? 0), (u <? v); cbn [negb]; intuition congruence.
Qed.
Print Assumptions C53_less_equal.
(** Against public values. *)
Theorem C53_less_than_public : forall prf colo n x y u v, prf_words prf -> pow2_bits n -> arith n x u -> public (FI n) y v ->
  (qsc y = psc x -> yields (less_than_pq prf colo x y) (fun z => exists b, boolean FB z (bit_of b) /\ (b = (u <? v) <-> word (FI n) (u - v)))) /\
  yields (less_than_qp prf colo y x) (fun z => exists b, boolean FB z (bit_of b) /\ (b = (v <? u) <-> word (FI n) (v - u))).
Proof.
  intros prf colo n x y u v Hp Hsz Hx Hy. assert (Hn : 0 < n) by (destruct Hsz as (e & _ & H); lia).
  assert (Hu : in_s n u) by apply Hx. assert (Hv : in_s n v) by apply Hy. split.
  - intros Hs. eapply y_weaken; [exact (less_than_pq_ok prf colo Hp n x y u v Hsz Hx Hy Hs)|]. intros z (Hz & _).
    eexists. rewrite bit_of_b2z. split; [exact Hz|]. apply cmp_iff; assumption.
  - eapply y_weaken; [exact (less_than_qp_ok prf colo Hp n y x v u Hsz Hy Hx)|]. intros z (Hz & _).
    eexists. rewrite bit_of_b2z. split; [exact Hz|]. apply cmp_iff; assumption.
Qed.
Print Assumptions C53_less_than_public.
(** Values below a quarter of the ring always compare right. *)
Theorem C53_quarter : forall prf colo n x y u v, prf_words prf -> pow2_bits n -> arith n x u -> arith n y v -> psc y = psc x ->
  Z.abs u < 2 ^ (n - 2) -> Z.abs v < 2 ^ (n - 2) ->
  yields (less_than prf colo x y) (fun z => boolean FB z (bit_of (u <? v))) /\
  yields (greater_than prf colo x y) (fun z => boolean FB z (bit_of (v <? u))) /\
  yields (less_equal prf colo x y) (fun z => boolean FB z (bit_of (u <=? v))) /\
  yields (greater_equal prf colo x y) (fun z => boolean FB z (bit_of (v <=? u))).
Proof.
  intros prf colo n x y u v Hp Hsz Hx Hy Hs Hu Hv. assert (Hn : 8 <= n) by (destruct Hsz as (e & _ & H); exact H).
  assert (E : 2 ^ (n - 1) = 2 * 2 ^ (n - 2)) by (replace (n - 2) with (n - 1 - 1) by lia; apply pow2_half; lia).
  assert (A : word (FI n) (u - v)) by (cbn [word]; lia). assert (B : word (FI n) (v - u)) by (cbn [word]; lia).
  destruct (C53_less_than prf colo n x y u v Hp Hsz Hx Hy Hs) as [L G]. destruct (C53_less_equal prf colo n x y u v Hp Hsz Hx Hy Hs) as [LE GE].
  split; [|split; [|split]].
  - eapply y_weaken; [exact L|]. intros z (b & Hz & Hb). rewrite (proj2 Hb A) in Hz. exact Hz.
  - eapply y_weaken; [exact G|]. intros z (b & Hz & Hb). rewrite (proj2 Hb B) in Hz. exact Hz.
  - eapply y_weaken; [exact LE|]. intros z (b & Hz & Hb). rewrite (proj2 Hb B) in Hz. exact Hz.
  - eapply y_weaken; [exact GE|]. intros z (b & Hz & Hb). rewrite (proj2 Hb A) in Hz. exact Hz.
Qed.
Print Assumptions C53_quarter.
(** Equality is right for every pair of words. *)
Theorem C53_equal : forall prf colo n x y u v, prf_words prf -> pow2_bits n -> arith n x u ->
  yields (equal_zero prf colo x) (fun z => boolean FB z (bit_of (u =? 0)) /\ psc z = false) /\
  (arith n y v -> psc y = psc x -> yields (equal prf colo x y) (fun z => boolean FB z (bit_of (u =? v)) /\ psc z = false)).
Proof.
  intros prf colo n x y u v Hp Hsz Hx. rewrite !bit_of_b2z. split.
  - exact (equal_zero_ok prf colo Hp n x u Hsz Hx).
  - intros Hy Hs. exact (equal_ok prf colo Hp n x y u v Hsz Hx Hy Hs).
Qed.
Print Assumptions C53_equal.
Definition twoA64 (m : priv -> priv -> M priv) (a b : Z) :=
  ok_val (bind (share ex_prf false Arith (FI 64) a true) (fun x => bind (share ex_prf false Arith (FI 64) b true) (fun y => bind (m x y) (reveal false))) ex_st).
Example C53_nonvacuous :
  twoA64 (less_than ex_prf false) (- 5) 3 = Some 1 /\ twoA64 (less_than ex_prf false) 3 3 = Some 0 /\
  twoA64 (less_equal ex_prf false) 3 3 = Some 1 /\ twoA64 (greater_than ex_prf false) 4 3 = Some 1 /\
  twoA64 (less_than ex_prf false) (- 2 ^ 63) 1 = Some 0 /\
  twoA64 (equal ex_prf false) (- 2 ^ 63) (- 2 ^ 63) = Some 1 /\ one64 Arith (equal_zero ex_prf false) (- 2 ^ 63) = Some 0.
Proof. split; [|split; [|split; [|split; [|split; [|split]]]]]; vm_compute; reflexivity. Qed.

(** ** C54: selection *)

Theorem C54_select : forall prf colo n c x y (b : bool) u v, prf_words prf -> 0 < n ->
  boolean FB c (bit_of b) -> arith n x u -> arith n y v -> psc y = psc x ->
  yields (select prf colo c x y) (fun z => arith n z (if b then v else u) /\ psc z = psc x).
Proof. intros prf colo n c x y b u v Hp Hn Hc Hx Hy Hs. rewrite bit_of_b2z in Hc. exact (select_arith_ok prf colo Hp n c x y b u v Hn Hc Hx Hy Hs). Qed.
Print Assumptions C54_select.
(** On boolean operands the choice is a word of equal bits. *)
Theorem C54_select_boolean : forall prf colo f c x y (b : bool) u v, prf_words prf -> fok f ->
  boolean f c (if b then match f with FB => 1 | FI _ => -1 end else 0) -> boolean f x u -> boolean f y v -> psc y = psc x ->
  yields (select prf colo c x y) (fun z => boolean f z (if b then v else u)).
Proof. intros prf colo f c x y b u v Hp Hf Hc Hx Hy Hs. exact (select_bool_ok prf colo Hp f c x y b u v Hf Hc Hx Hy Hs). Qed.
Print Assumptions C54_select_boolean.
Theorem C54_maximum : forall prf colo n x y u v, prf_words prf -> pow2_bits n -> arith n x u -> arith n y v -> psc y = psc x ->
  word (FI n) (v - u) ->
  yields (maximum prf colo x y) (fun z => arith n z (Z.max u v) /\ psc z = psc x).
Proof. intros prf colo n x y u v Hp Hsz Hx Hy Hs Hd. exact (maximum_ok prf colo Hp n x y u v Hsz Hx Hy Hs Hd). Qed.
Print Assumptions C54_maximum.
Theorem C54_cmp_swap : forall prf colo n x y u v, prf_words prf -> pow2_bits n -> arith n x u -> arith n y v -> psc y = psc x ->
  word (FI n) (v - u) ->
  yields (cmp_swap prf colo x y) (fun p => arith n (fst p) (Z.min u v) /\ arith n (snd p) (Z.max u v) /\ psc (fst p) = psc x /\ psc (snd p) = psc x).
Proof. intros prf colo n x y u v Hp Hsz Hx Hy Hs Hd. exact (cmp_swap_ok prf colo Hp n x y u v Hsz Hx Hy Hs Hd). Qed.
Print Assumptions C54_cmp_swap.
(** relu is wrong for the most negative word only. *)
Theorem C54_relu : forall prf colo n x u, prf_words prf -> pow2_bits n -> arith n x u ->
  yields (relu prf colo x) (fun z => arith n z (if u =? - 2 ^ (n - 1) then u else Z.max u 0) /\ psc z = psc x).
Proof.
  intros prf colo n x u Hp Hsz Hx. destruct (Z.eqb_spec u (- 2 ^ (n - 1))) as [E|E].
  - rewrite E in *. exact (relu_min prf colo Hp n x Hsz Hx).
  - exact (relu_ok prf colo Hp n x u Hsz Hx E).
Qed.
Print Assumptions C54_relu.
Example C54_nonvacuous :
  twoA64 (maximum ex_prf false) (- 5) 3 = Some 3 /\ twoA64 (maximum ex_prf false) 9 3 = Some 9 /\
  one64 Arith (relu ex_prf false) (- 9) = Some 0 /\ one64 Arith (relu ex_prf false) 12 = Some 12 /\
  one64 Arith (relu ex_prf false) (- 2 ^ 63) = Some (- 2 ^ 63) /\
  twoA64 (fun x y => bind (share ex_prf false Bool_ FB 1 false) (fun c => select ex_prf false c x y)) 5 6 = Some 6.
Proof. split; [|split; [|split; [|split; [|split]]]]; vm_compute; reflexivity. Qed.
