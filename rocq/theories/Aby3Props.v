(** Properties of the ABY3 protocol: sharing, keyed randomness, linear operations, products, bit
    injection and truncation.  Statements are for every pseudo-random function [prf] returning
    words, every protocol state, and for co-located ([colo = true]) and distinct machines. *)
From Verif Require Import Base TensorModel Aby3Model Aby3Spec Aby3Bits Aby3Proofs Aby3Trunc.

(** A concrete pseudo-random function used in the examples. *)
Definition ex_prf (f : fac) (k : key) (c : Z) (l : nat) : Z :=
  let h := match k with KP i => 3 + i | KA i => 11 + i | KB i => 17 + i | KS i => 23 + 5 * i | KL _ i => 31 + 7 * i end in
  let v := (h * 6364136223846793005 + c * 1442695040888963407 + Z.of_nat l * 2862933555777941757) * (h + 2 ^ 40) in
  match f with FB => v / 2 ^ 17 mod 2 | FI n => swrap n (v / 2 ^ 5) end.
Lemma ex_prf_words : prf_words ex_prf.
Proof.
  intros [|n] k c l Hf; unfold ex_prf; cbv zeta.
  - cbn [word]. pose proof (Z.mod_pos_bound) as H. cbv beta.
    match goal with |- ?x mod 2 = 0 \/ _ => specialize (H x 2); lia end.
  - apply swrap_range, Hf.
Qed.
Definition ex_st : state := MkSt 0 0 0 0 0.
Definition ok_val (r : state * list ev * res pub) : option Z := match snd r with Ok q => Some (vz (q1 q)) | Err _ => None end.

Lemma wrapped_eq n v r : 0 < n -> wrapped n v r -> r = swrap n v.
Proof.
  intros Hn [Hr He]. apply (in_s_eqm_eq n); [exact Hn|exact Hr|apply swrap_range, Hn|].
  unfold eqm. rewrite swrap_mod by exact Hn. exact He.
Qed.

(** The two values a server holds of a sharing. *)
Definition held (d : dev) (x : priv) : Z * Z :=
  match d with S0 => (vz (p00 x), vz (p01 x)) | S1 => (vz (p10 x), vz (p11 x)) | _ => (vz (p20 x), vz (p21 x)) end.
Definition server (d : dev) : Prop := d = S0 \/ d = S1 \/ d = S2.

(** ** C43: sharing *)

Theorem C43_share_arithmetic : forall prf colo n secret sc, prf_words prf -> 0 < n -> word (FI n) secret ->
  yields (share prf colo Arith (FI n) secret sc) (fun x => arith n x secret /\ psc x = sc).
Proof. intros. apply share_arith_ok; assumption. Qed.
Print Assumptions C43_share_arithmetic.
Theorem C43_share_boolean : forall prf colo f secret sc, prf_words prf -> fok f -> word f secret ->
  yields (share prf colo Bool_ f secret sc) (fun x => boolean f x secret /\ psc x = sc).
Proof. intros. apply share_bool_ok; assumption. Qed.
Print Assumptions C43_share_boolean.
(** Every server, and every other player, rebuilds the value; a server uses its own two shares and
    one value of a neighbour. *)
Theorem C43_reconstruct : forall n f x v d,
  (0 < n -> arith n x v -> yields (reconstruct x d) (fun r => r = MkV d v)) /\
  (boolean f x v -> yields (reconstruct x d) (fun r => r = MkV d v)).
Proof.
  intros n f x v d. split.
  - intros Hn H. exact (reconstruct_arith n x v d Hn H).
  - intros H. exact (reconstruct_bool f x v d H).
Qed.
Print Assumptions C43_reconstruct.
Theorem C43_reveal : forall colo n f x v,
  (0 < n -> arith n x v -> yields (reveal colo x) (fun q => public (FI n) q v /\ qsc q = psc x)) /\
  (fok f -> boolean f x v -> yields (reveal colo x) (fun q => public f q v /\ qsc q = psc x)).
Proof.
  intros colo n f x v. split; intros Hn H.
  - apply reveal_ok; [intros d; exact (reconstruct_arith n x v d Hn H)|apply H|apply H].
  - apply reveal_ok; [intros d; exact (reconstruct_bool f x v d H)|apply H|].
    destruct H as (_ & _ & _ & _ & A & B & C & <-). apply word_lxor; auto using word_lxor.
Qed.
Print Assumptions C43_reveal.
(** Hiding: whatever the secret, each server's pair of shares takes any given pair of words for
    exactly one pair of random words, and the server reads nothing else. *)
Theorem C43_share_hiding : forall ty f secret sc s d u w,
  fok f -> (ty = Arith -> f <> FB) -> word f secret -> server d -> word f u -> word f w ->
  exists r0 r1, word f r0 /\ word f r1 /\ forall prf colo, prf_words prf ->
    exists s' l x, share prf colo ty f secret sc s = (s', l, Ok x) /\
      (held d x = (u, w) <-> prf f (KS (nl s)) 0 0%nat = r0 /\ prf f (KS (nl s + 1)) 0 0%nat = r1) /\
      (forall v, In (Saw d v) l -> v = fst (held d x) \/ v = snd (held d x)).
Proof.
  intros ty f secret sc s d u w Hf Hty Hs Hd Hu Hw.
  assert (G : exists g, (forall a b, word f a -> word f b -> word f (g a b)) /\
     (forall a b c, word f a -> word f b -> word f c -> (g (g secret a) b = c <-> a = g (g secret b) c)) /\
     (forall a b c, word f a -> word f b -> word f c -> (g (g secret a) b = c <-> b = g (g secret a) c)) /\ gsub ty f = g).
  { destruct ty.
    - destruct f as [|n]; [exfalso; apply Hty; reflexivity|]. cbn [fok] in Hf.
      exists (fun a b => swrap n (a - b)). split; [intros; apply swrap_range, Hf|].
      split; [|split; [|reflexivity]]; intros a b c Ha Hb Hc.
      + split; intros E.
        * apply (in_s_eqm_eq n); [exact Hf|exact Ha|apply swrap_range, Hf|]. unw n Hf. rewrite <- E. eqm_ring n Hf.
        * apply (in_s_eqm_eq n); [exact Hf|apply swrap_range, Hf|exact Hc|]. unw n Hf. rewrite E. eqm_ring n Hf.
      + split; intros E.
        * apply (in_s_eqm_eq n); [exact Hf|exact Hb|apply swrap_range, Hf|]. unw n Hf. rewrite <- E. eqm_ring n Hf.
        * apply (in_s_eqm_eq n); [exact Hf|apply swrap_range, Hf|exact Hc|]. unw n Hf. rewrite E. eqm_ring n Hf.
    - exists Z.lxor. split; [intros; apply word_lxor; assumption|].
      split; [|split; [|reflexivity]]; intros a b c Ha Hb Hc; split; intros E; subst; bitblast. }
  destruct G as (g & Wg & I1 & I2 & Eg).
  destruct Hd as [-> | [-> | ->]].
  - exists u, w. split; [exact Hu|]. split; [exact Hw|]. intros prf colo Hp.
    unfold share. rewrite Eg. do 3 eexists. split; [destruct colo; reflexivity|]. cbn [held p00 p01 vz fst snd nl].
    split; [split; [intros [= A B]; auto|intros [-> ->]; reflexivity]|].
    intros v H. cbn in H. intuition congruence.
  - exists (g (g secret u) w), u. split; [auto|]. split; [exact Hu|]. intros prf colo Hp.
    unfold share. rewrite Eg. do 3 eexists. split; [destruct colo; reflexivity|]. cbn [held p10 p11 vz fst snd nl].
    assert (W0 := Hp f (KS (nl s)) 0 0%nat Hf). assert (W1 := Hp f (KS (nl s + 1)) 0 0%nat Hf).
    split.
    + split.
      * intros [= A B]. split; [|exact A]. rewrite A in *. apply I1; auto.
      * intros [A B]. rewrite A, B. f_equal. apply I1; auto.
    + intros v H. cbn in H. intuition congruence.
  - exists w, (g (g secret w) u). split; [exact Hw|]. split; [auto|]. intros prf colo Hp.
    unfold share. rewrite Eg. do 3 eexists. split; [destruct colo; reflexivity|]. cbn [held p20 p21 vz fst snd nl].
    assert (W0 := Hp f (KS (nl s)) 0 0%nat Hf). assert (W1 := Hp f (KS (nl s + 1)) 0 0%nat Hf).
    split.
    + split.
      * intros [= A B]. split; [exact B|]. rewrite B in *. apply I2; auto.
      * intros [A B]. rewrite A, B. f_equal. apply I2; auto.
    + intros v H. cbn in H. intuition congruence.
Qed.
Print Assumptions C43_share_hiding.
Example C43_nonvacuous : ok_val (bind (share ex_prf false Arith (FI 64) (-12345) true) (reveal false) ex_st) = Some (-12345) /\
  ok_val (bind (share ex_prf false Bool_ (FI 128) (2 ^ 126 + 5) true) (reveal false) ex_st) = Some (2 ^ 126 + 5) /\
  ok_val (bind (share ex_prf false Bool_ FB 1 true) (reveal false) ex_st) = Some 1 /\
  word (FI 64) (-12345) /\ fok (FI 64).
Proof. repeat split; vm_compute; congruence. Qed.

(** ** C44: keyed randomness *)

Theorem C44_zero_sharing : forall prf n, prf_words prf -> 0 < n ->
  yields (zero_sharing prf Arith (FI n)) (fun t => exists a b c,
    t = (MkV S0 a, MkV S1 b, MkV S2 c) /\ word (FI n) a /\ word (FI n) b /\ word (FI n) c /\ (a + b + c) mod 2 ^ n = 0).
Proof.
  intros prf n Hp Hn. eapply y_weaken; [apply zero_sharing_ok; [exact Hp|exact Hn]|].
  intros t (u & v & w & Hu & Hv & Hw & ->). cbn [gsub]. do 3 eexists. split; [reflexivity|].
  split; [apply swrap_range, Hn|]. split; [apply swrap_range, Hn|]. split; [apply swrap_range, Hn|].
  transitivity (0 mod 2 ^ n); [|apply Z.mod_0_l; pose proof (pow2_pos n); lia].
  change (eqm (2 ^ n) (swrap n (u - v) + swrap n (v - w) + swrap n (w - u)) 0). eqm_ring n Hn.
Qed.
Print Assumptions C44_zero_sharing.
Theorem C44_zero_sharing_boolean : forall prf f, prf_words prf -> fok f ->
  yields (zero_sharing prf Bool_ f) (fun t => exists a b c,
    t = (MkV S0 a, MkV S1 b, MkV S2 c) /\ word f a /\ word f b /\ word f c /\ Z.lxor (Z.lxor a b) c = 0).
Proof.
  intros prf f Hp Hn. eapply y_weaken; [apply zero_sharing_ok; [exact Hp|exact Hn]|].
  intros t (u & v & w & Hu & Hv & Hw & ->). cbn [gsub]. do 3 eexists. split; [reflexivity|].
  split; [apply word_lxor; assumption|]. split; [apply word_lxor; assumption|]. split; [apply word_lxor; assumption|]. bitblast.
Qed.
Print Assumptions C44_zero_sharing_boolean.
(** Pairwise randomness is a sharing (so neighbours agree) of some word. *)
Theorem C44_random_sharing : forall prf colo n f, prf_words prf -> 0 < n -> fok f ->
  yields (random_sharing prf colo Arith (FI n)) (fun x => exists v, arith n x v) /\
  yields (random_sharing prf colo Bool_ f) (fun x => exists v, boolean f x v).
Proof.
  intros prf colo n f Hp Hn Hf. split.
  - eapply y_weaken; [apply random_sharing_arith; assumption|]. intros x (v & Hv & _). eauto.
  - eapply y_weaken; [apply random_sharing_bool; assumption|]. intros x (v & Hv & _). eauto.
Qed.
Print Assumptions C44_random_sharing.
(** The two servers told the mask of a boolean-to-arithmetic conversion get the same word. *)
Theorem C44_b2a_randomness : forall prf two f, prf_words prf -> fok f ->
  yields (b2a_sharing prf two f) (fun t => exists u, word f u /\ t = (MkV S1 u, MkV (if two then S2 else S0) u)).
Proof. intros. apply b2a_sharing_ok; assumption. Qed.
Print Assumptions C44_b2a_randomness.
Example C44_nonvacuous : exists a b c, snd (zero_sharing ex_prf Arith (FI 64) ex_st) = Ok (MkV S0 a, MkV S1 b, MkV S2 c) /\
  a <> 0 /\ b <> 0 /\ c <> 0 /\ (a + b + c) mod 2 ^ 64 = 0.
Proof. do 3 eexists. split; [vm_compute; reflexivity|]. repeat split; vm_compute; congruence. Qed.

(** ** C45: linear operations *)

Theorem C45_add_private : forall colo n x y u v r, 0 < n -> arith n x u -> arith n y v -> wrapped n (u + v) r ->
  yields (add_pp colo x y) (fun z => arith n z r /\ psc z = psc x).
Proof. intros colo n x y u v r Hn Hx Hy Hr. rewrite (wrapped_eq n _ _ Hn Hr). apply add_pp_ok; assumption. Qed.
Print Assumptions C45_add_private.
Theorem C45_add_public : forall colo n x y u v r, 0 < n -> arith n x u -> public (FI n) y v -> qsc y = psc x -> wrapped n (u + v) r ->
  yields (add_pq colo x y) (fun z => arith n z r /\ psc z = psc x) /\
  yields (add_qp colo y x) (fun z => arith n z r /\ psc z = psc x).
Proof.
  intros colo n x y u v r Hn Hx Hy Hs Hr. rewrite (wrapped_eq n _ _ Hn Hr). split; [apply add_pq_ok; assumption|].
  rewrite Z.add_comm. apply add_qp_ok; assumption.
Qed.
Print Assumptions C45_add_public.
Theorem C45_sub_private : forall colo n x y u v r, 0 < n -> arith n x u -> arith n y v -> psc y = psc x -> wrapped n (u - v) r ->
  yields (sub_pp colo x y) (fun z => arith n z r /\ psc z = psc x).
Proof. intros colo n x y u v r Hn Hx Hy Hs Hr. rewrite (wrapped_eq n _ _ Hn Hr). apply sub_pp_ok; assumption. Qed.
Print Assumptions C45_sub_private.
Theorem C45_sub_public : forall colo n x y u v r r', 0 < n -> arith n x u -> public (FI n) y v -> wrapped n (u - v) r -> wrapped n (v - u) r' ->
  (qsc y = psc x -> yields (sub_pq colo x y) (fun z => arith n z r /\ psc z = psc x)) /\
  yields (sub_qp colo y x) (fun z => arith n z r' /\ psc z = qsc y).
Proof.
  intros colo n x y u v r r' Hn Hx Hy Hr Hr'. rewrite (wrapped_eq n _ _ Hn Hr), (wrapped_eq n _ _ Hn Hr'). split.
  - intros Hs. apply sub_pq_ok; assumption.
  - apply sub_qp_ok; assumption.
Qed.
Print Assumptions C45_sub_public.
Theorem C45_negative : forall colo n x u r, 0 < n -> arith n x u -> wrapped n (- u) r ->
  yields (negative colo x) (fun z => arith n z r /\ psc z = psc x).
Proof. intros colo n x u r Hn Hx Hr. rewrite (wrapped_eq n _ _ Hn Hr). apply negative_ok; assumption. Qed.
Print Assumptions C45_negative.
Theorem C45_shift_left_arithmetic : forall colo n x u k r, 0 < n -> 0 <= k -> arith n x u -> wrapped n (u * 2 ^ k) r ->
  yields (lshift colo x k) (fun z => arith n z r /\ psc z = psc x).
Proof. intros colo n x u k r Hn Hk Hx Hr. rewrite (wrapped_eq n _ _ Hn Hr). apply lshift_arith_ok; assumption. Qed.
Print Assumptions C45_shift_left_arithmetic.
Theorem C45_xor : forall colo f x y q u v, fok f -> boolean f x u ->
  (boolean f y v -> yields (xor_pp colo x y) (fun z => boolean f z (Z.lxor u v) /\ psc z = psc x)) /\
  (public f q v -> yields (xor_pq colo x q) (fun z => boolean f z (Z.lxor u v) /\ psc z = psc x)) /\
  (public f q v -> yields (and_pq colo x q) (fun z => boolean f z (Z.land u v) /\ psc z = psc x)).
Proof.
  intros colo f x y q u v Hf Hx. split; [|split]; intros H.
  - apply xor_pp_ok; assumption.
  - apply xor_pq_ok; assumption.
  - apply and_pq_ok; assumption.
Qed.
Print Assumptions C45_xor.
Theorem C45_not : forall colo x u,
  (forall n, 0 < n -> boolean (FI n) x u -> yields (not_p colo x) (fun z => boolean (FI n) z (Z.lnot u) /\ psc z = psc x)) /\
  (boolean FB x u -> yields (not_p colo x) (fun z => boolean FB z (1 - u) /\ psc z = psc x)).
Proof.
  intros colo x u. split.
  - intros n Hn H. exact (not_ok colo (FI n) x u Hn H).
  - intros H. exact (not_ok colo FB x u I H).
Qed.
Print Assumptions C45_not.
Theorem C45_shifts_boolean : forall colo n x u k r, 0 < n -> 0 <= k -> boolean (FI n) x u -> wrapped n (u * 2 ^ k) r ->
  yields (lshift colo x k) (fun z => boolean (FI n) z r /\ psc z = psc x) /\
  yields (rshift colo x k) (fun z => boolean (FI n) z (u / 2 ^ k) /\ psc z = psc x).
Proof.
  intros colo n x u k r Hn Hk Hx Hr. rewrite (wrapped_eq n _ _ Hn Hr). split.
  - rewrite <- Z.shiftl_mul_pow2 by exact Hk. apply lshift_bool_ok; assumption.
  - rewrite <- Z.shiftr_div_pow2 by exact Hk. apply rshift_bool_ok; assumption.
Qed.
Print Assumptions C45_shifts_boolean.
(** Sum of two public tensors: right on co-located machines, raises on distinct ones. *)
Theorem C45_add_public_public_partial : forall n x y u v r, 0 < n -> public (FI n) x u -> public (FI n) y v -> qsc y = qsc x -> wrapped n (u + v) r ->
  yields (add_qq true x y) (fun z => vz (q0 z) = r /\ vz (q1 z) = r /\ vz (q2 z) = r) /\
  raises (add_qq false x y) AssertionError.
Proof.
  intros n x y u v r Hn Hx Hy Hs Hr. rewrite (wrapped_eq n _ _ Hn Hr). split.
  - apply (pub_add_ok true); auto.
  - intros s. unfold add_qq. rewrite Hs, Bool.eqb_reflx. reflexivity.
Qed.
Print Assumptions C45_add_public_public_partial.
Definition ex_run (colo : bool) (a b : Z) (op : priv -> priv -> M priv) : option Z :=
  ok_val (bind (share ex_prf colo Arith (FI 64) a true) (fun x => bind (share ex_prf colo Arith (FI 64) b true) (fun y =>
    bind (op x y) (reveal colo))) ex_st).
Example C45_nonvacuous : ex_run false (2 ^ 63 - 1) 5 (add_pp false) = Some (- 2 ^ 63 + 4) /\
  ex_run false 17 (-4) (sub_pp false) = Some 21 /\ wrapped 64 (2 ^ 63 - 1 + 5) (- 2 ^ 63 + 4).
Proof. repeat split; vm_compute; congruence. Qed.

(** ** C46: products *)

Theorem C46_mul : forall prf colo n x y u v r, prf_words prf -> 0 < n -> arith n x u -> arith n y v -> wrapped n (u * v) r ->
  yields (mul_pp_raw prf colo x y) (fun z => arith n z r /\ psc z = (psc x || psc y)%bool).
Proof. intros prf colo n x y u v r Hp Hn Hx Hy Hr. rewrite (wrapped_eq n _ _ Hn Hr). apply mul_raw_ok; assumption. Qed.
Print Assumptions C46_mul.
(** mul without truncation: at most one operand is scaled. *)
Theorem C46_mul_unscaled : forall prf colo n scale x y u v r, prf_words prf -> 0 < n -> arith n x u -> arith n y v ->
  psc x && psc y = false -> wrapped n (u * v) r ->
  yields (mul_pp prf colo scale x y) (fun z => arith n z r /\ psc z = (psc x || psc y)%bool).
Proof.
  intros prf colo n scale x y u v r Hp Hn Hx Hy Hs Hr. unfold mul_pp. rewrite Hs.
  eapply y_bind; [exact (C46_mul prf colo n x y u v r Hp Hn Hx Hy Hr)|]. intros z Hz. apply y_ret, Hz.
Qed.
Print Assumptions C46_mul_unscaled.
Theorem C46_mul_public : forall prf colo n scale x y u v r, 0 < n -> arith n x u -> public (FI n) y v ->
  psc x && qsc y = false -> wrapped n (u * v) r ->
  yields (mul_pq prf colo scale x y) (fun z => arith n z r /\ psc z = (psc x || qsc y)%bool).
Proof.
  intros prf colo n scale x y u v r Hn Hx Hy Hs Hr. unfold mul_pq. rewrite Hs, (wrapped_eq n _ _ Hn Hr).
  assert (Hf : pfc x = FI n) by apply Hx. rewrite Hf.
  eapply y_bind; [exact (mul_pq_raw_ok colo n x y u v _ Hn Hx Hy)|]. intros z Hz. apply y_ret, Hz.
Qed.
Print Assumptions C46_mul_public.
(** Inner product of a row and a column. *)
Fixpoint inner (us vs : list Z) : Z := match us, vs with u :: us', v :: vs' => u * v + inner us' vs' | _, _ => 0 end.
Lemma inner_dotz us vs : inner us vs = dotz us vs.
Proof.
  revert vs; induction us as [|u us IH]; intros [|v vs]; cbn [inner].
  - reflexivity.
  - reflexivity.
  - reflexivity.
  - rewrite IH, dotz_cons. reflexivity.
Qed.
Theorem C46_matmul : forall prf colo n sc xs ys us vs r, prf_words prf -> 0 < n ->
  Forall2 (arith n) xs us -> Forall2 (arith n) ys vs -> length xs = length ys -> wrapped n (inner us vs) r ->
  yields (matmul_pp_raw prf colo (FI n) sc xs ys) (fun z => arith n z r /\ psc z = sc).
Proof.
  intros prf colo n sc xs ys us vs r Hp Hn Hx Hy Hl Hr. rewrite (wrapped_eq n _ _ Hn Hr), inner_dotz.
  apply matmul_raw_ok; assumption.
Qed.
Print Assumptions C46_matmul.
Theorem C46_and_or : forall prf colo f x y u v, prf_words prf -> fok f -> boolean f x u -> boolean f y v ->
  yields (and_pp prf colo x y) (fun z => boolean f z (Z.land u v)) /\
  yields (or_pp prf colo x y) (fun z => boolean f z (Z.lor u v)).
Proof.
  intros prf colo f x y u v Hp Hf Hx Hy. split.
  - eapply y_weaken; [apply (and_ok prf colo Hp f x y u v); assumption|]. intros z H; apply H.
  - eapply y_weaken; [apply (or_ok prf colo Hp f x y u v); assumption|]. intros z H; apply H.
Qed.
Print Assumptions C46_and_or.
Example C46_nonvacuous : ex_run false (2 ^ 40) (- 2 ^ 30 + 3) (mul_pp_raw ex_prf false) = Some (3 * 2 ^ 40) /\
  ok_val (bind (share ex_prf false Bool_ (FI 64) 12 true) (fun x => bind (share ex_prf false Bool_ (FI 64) 10 true) (fun y =>
    bind (or_pp ex_prf false x y) (reveal false))) ex_st) = Some 14 /\
  wrapped 64 (2 ^ 40 * (- 2 ^ 30 + 3)) (3 * 2 ^ 40).
Proof. repeat split; vm_compute; congruence. Qed.

(** ** C47: oblivious transfer and bit injection *)

Theorem C47_ot : forall prf sender receiver helper f m0 m1 c_rec c_help k n, vz c_help = vz c_rec ->
  yields (ot prf sender receiver helper f m0 m1 c_rec c_help k k n)
    (fun r => r = MkV receiver (if vz c_rec =? 0 then vz m0 else vz m1)).
Proof. intros. apply ot_ok; assumption. Qed.
Print Assumptions C47_ot.
Theorem C47_inject_public : forall prf colo n x b v beta, prf_words prf -> 0 < n -> public (FI n) x v -> boolean FB b beta ->
  yields (mul_ab_qp prf colo x b) (fun z => arith n z (if beta =? 0 then 0 else v) /\ psc z = qsc x).
Proof.
  intros prf colo n x b v beta Hp Hn Hx Hb. eapply y_weaken; [apply (mul_ab_qp_ok prf colo Hp n x b v beta); [assumption..|apply Hb]|].
  intros z (Hz & Hs). split; [|exact Hs]. replace (if beta =? 0 then 0 else v) with (swrap n (beta * v)); [exact Hz|].
  assert (Hv : in_s n v) by apply Hx. assert (H0 : in_s n 0) by (unfold in_s; pose proof (pow2_pos (n - 1)); lia).
  destruct Hb as (_ & _ & _ & _ & A & B & C & <-). cbn [word] in *.
  destruct A as [-> | ->], B as [-> | ->], C as [-> | ->]; cbn [Z.lxor Z.eqb Pos.lxor Z.of_N Pos.eqb]; rewrite ?Z.mul_1_l, ?Z.mul_0_l; apply swrap_id; assumption.
Qed.
Print Assumptions C47_inject_public.
Theorem C47_inject_private : forall prf colo n x b v beta, prf_words prf -> 0 < n -> arith n x v -> boolean FB b beta ->
  yields (mul_ab_pp prf colo x b) (fun z => arith n z (if beta =? 0 then 0 else v) /\ psc z = psc x).
Proof.
  intros prf colo n x b v beta Hp Hn Hx Hb. eapply y_weaken; [apply (mul_ab_pp_ok prf colo Hp n x b v beta); [assumption..|apply Hb]|].
  intros z (Hz & Hs). split; [|exact Hs]. replace (if beta =? 0 then 0 else v) with (swrap n (beta * v)); [exact Hz|].
  assert (Hv : in_s n v) by apply Hx. assert (H0 : in_s n 0) by (unfold in_s; pose proof (pow2_pos (n - 1)); lia).
  destruct Hb as (_ & _ & _ & _ & A & B & C & <-). cbn [word] in *.
  destruct A as [-> | ->], B as [-> | ->], C as [-> | ->]; cbn [Z.lxor Z.eqb Pos.lxor Z.of_N Pos.eqb]; rewrite ?Z.mul_1_l, ?Z.mul_0_l; apply swrap_id; assumption.
Qed.
Print Assumptions C47_inject_private.
Theorem C47_bit_to_arithmetic : forall prf colo n b beta, prf_words prf -> 1 < n -> boolean FB b beta ->
  yields (b2a_single prf colo (FI n) b) (fun z => arith n z beta /\ psc z = false).
Proof. intros prf colo n b beta Hp Hn Hb. apply b2a_single_ok; [assumption..|apply Hb]. Qed.
Print Assumptions C47_bit_to_arithmetic.
Example C47_nonvacuous : let run v b := ok_val (bind (share ex_prf false Arith (FI 64) v true) (fun x => bind (share ex_prf false Bool_ FB b true) (fun y =>
    bind (mul_ab_pp ex_prf false x y) (reveal false))) ex_st) in
  run (-99) 1 = Some (-99) /\ run (-99) 0 = Some 0.
Proof. split; vm_compute; reflexivity. Qed.

(** ** C48: probabilistic truncation *)

Theorem C48_secureq8 : forall prf colo n f x X, prf_words prf -> 1 < n -> 0 <= f < n -> arith n x X -> 0 <= X ->
  yields (truncate_secureq8 prf colo f x) (fun z => psc z = psc x /\
    exists e r, (e = 0 \/ e = 1) /\ wrapped n (X / 2 ^ f + e) r /\ arith n z r).
Proof.
  intros prf colo n f x X Hp Hn Hf Hx HX. eapply y_weaken; [apply (secureq8_ok prf colo Hp n f x X); assumption|].
  intros z (Hs & e & He & Hz). split; [exact Hs|]. exists e, (swrap n (X / 2 ^ f + e)). split; [exact He|]. split; [|exact Hz].
  split; [apply swrap_range; lia|apply swrap_mod; lia].
Qed.
Print Assumptions C48_secureq8.
(** The signed wrapper, which every fixed-point product uses. *)
Theorem C48_signed : forall prf colo n scale f x X, prf_words prf -> 1 < n -> 0 <= scale -> 0 <= f ->
  (if psc x then scale else 0) + f <= n - 2 -> arith n x X -> - 2 ^ (n - 2) <= X < 2 ^ (n - 2) ->
  yields (truncate_heuristic prf colo scale f x)
    (fun z => psc z = psc x /\ exists e, (e = 0 \/ e = 1) /\ arith n z (X / 2 ^ f + e)).
Proof. intros. apply heuristic_ok; assumption. Qed.
Print Assumptions C48_signed.
Theorem C48_fixed_product : forall prf colo n scale x y u v, prf_words prf -> 1 < n -> 0 <= scale -> scale + scale <= n - 2 ->
  arith n x u -> arith n y v -> psc x = true -> psc y = true -> - 2 ^ (n - 2) <= u * v < 2 ^ (n - 2) ->
  yields (mul_pp prf colo scale x y)
    (fun z => psc z = true /\ exists e, (e = 0 \/ e = 1) /\ arith n z (u * v / 2 ^ scale + e)).
Proof. intros. apply mul_pp_fixed_ok; assumption. Qed.
Print Assumptions C48_fixed_product.
(** Outside the range the result is off by 2^(n-f), for every mask that does not carry.  [r] is the
    mask drawn by server 2. *)
Theorem C48_secureq8_outside : forall prf colo n f x X s, prf_words prf -> 1 < n -> 0 <= f < n -> arith n x X -> X < 0 ->
  let r := prf (FI n) (KL S2 (nl s)) 0 0%nat in
  X mod 2 ^ (n - 1) + r mod 2 ^ (n - 1) < 2 ^ (n - 1) ->
  exists z e w, snd (truncate_secureq8 prf colo f x s) = Ok z /\ (e = 0 \/ e = 1) /\
    wrapped n (X / 2 ^ f + e + 2 ^ (n - f)) w /\ arith n z w.
Proof.
  intros prf colo n f x X s Hp Hn Hf Hx HX r Hr. destruct (secureq8_at prf colo Hp n f x X s Hn Hf Hx) as (z & Ez & Hs & Hz).
  unfold sq8_g, sq8_mask in Hz. fold r in Hz. rewrite (proj2 (Z.ltb_lt X 0) HX) in Hz. cbn [andb] in Hz.
  rewrite (proj2 (Z.ltb_lt _ _) Hr) in Hz. rewrite Z.mul_1_l in Hz.
  exists z, (sq8_e f X r). eexists. split; [exact Ez|]. split; [unfold sq8_e; destruct (_ <=? _); auto|]. split; [|exact Hz].
  split; [apply swrap_range; lia|apply swrap_mod; lia].
Qed.
Print Assumptions C48_secureq8_outside.
(** The cheetah method, on co-located machines; on distinct machines it raises. *)
Theorem C48_cheetah_partial : forall prf n f x X, prf_words prf -> 1 < n -> 0 < f < n -> arith n x X ->
  (0 <= X -> yields (truncate_cheetah prf true f x) (fun z => psc z = psc x /\
     exists e, (e = 0 \/ e = 1) /\ arith_vals n z (X / 2 ^ f - e))) /\
  raises (truncate_cheetah prf false f x) AssertionError.
Proof.
  intros prf n f x X Hp Hn Hf Hx. split.
  - intros HX. exact (truncate_cheetah_ok prf true Hp n f x X Hn Hf Hx HX eq_refl).
  - apply (truncate_cheetah_remote prf false n f x eq_refl); apply Hx.
Qed.
Print Assumptions C48_cheetah_partial.
Example C48_nonvacuous :
  ok_val (bind (share ex_prf false Arith (FI 64) (- 2 ^ 50 - 7) true) (fun x => bind (truncate_heuristic ex_prf false 16 16 x) (reveal false)) ex_st) = Some (- 2 ^ 34) /\
  ok_val (bind (share ex_prf true Arith (FI 64) (2 ^ 50 + 7) true) (fun x => bind (truncate_cheetah ex_prf true 16 x) (reveal true)) ex_st) = Some (2 ^ 34 - 1) /\
  (- 2 ^ 50 - 7) / 2 ^ 16 = - 2 ^ 34 - 1 /\
  ok_val (bind (share ex_prf false Arith (FI 64) (- 2 ^ 63 + 5) true) (fun x => bind (truncate_secureq8 ex_prf false 16 x) (reveal false)) ex_st) = Some (2 ^ 47) /\
  (- 2 ^ 63 + 5) / 2 ^ 16 = - 2 ^ 47.
Proof. repeat split; vm_compute; congruence. Qed.

(** ** C49: local truncation *)

(** [g] is the wrap-around of share 0 plus the sum of the other two. *)
Theorem C49_local_partial : forall prf n f x X, prf_words prf -> 0 < n -> 0 <= f <= n -> arith n x X ->
  yields (truncate_local prf true f x) (fun z => psc z = psc x /\ exists e g w,
    (e = 0 \/ e = 1) /\ (g = -1 \/ g = 0 \/ g = 1) /\
    (exists t, wrapped n (vz (p10 x) + vz (p20 x)) t /\ vz (p00 x) + t = X + g * 2 ^ n) /\
    wrapped n (X / 2 ^ f - e + g * 2 ^ (n - f)) w /\ arith_vals n z w) /\
  raises (truncate_local prf false f x) AssertionError.
Proof.
  intros prf n f x X Hp Hn Hf Hx. split.
  - eapply y_weaken; [exact (truncate_local_ok prf true Hp n f x X Hn Hf Hx eq_refl)|].
    intros z (Hs & e & g & He & Hg & Hw & Hz). split; [exact Hs|]. exists e, g. eexists. split; [exact He|]. split; [exact Hg|].
    split. { eexists. split; [|exact Hw]. split; [apply swrap_range, Hn|apply swrap_mod, Hn]. }
    split; [|exact Hz]. split; [apply swrap_range, Hn|apply swrap_mod, Hn].
  - apply truncate_local_remote. reflexivity.
Qed.
Print Assumptions C49_local_partial.
Example C49_nonvacuous :
  ok_val (bind (share ex_prf true Arith (FI 64) (- 2 ^ 50 - 7) true) (fun x => bind (truncate_local ex_prf true 16 x) (reveal true)) ex_st) = Some (- 2 ^ 34 - 1) \/
  ok_val (bind (share ex_prf true Arith (FI 64) (- 2 ^ 50 - 7) true) (fun x => bind (truncate_local ex_prf true 16 x) (reveal true)) ex_st) = Some (- 2 ^ 34 - 2).
Proof. vm_compute. auto. Qed.
