(** Correctness of ABY3 sharing, linear operations, products, OT and bit injection. *)
From Verif Require Import Base TensorModel Aby3Model Aby3Spec Aby3Bits.
From Coq Require Import ZifyBool.

(** * Running programs *)

Lemma y_bind {A B} (m : M A) (k : A -> M B) P Q :
  yields m P -> (forall a, P a -> yields (k a) Q) -> yields (bind m k) Q.
Proof.
  intros Hm Hk s. destruct (Hm s) as (a & Ha & HP). unfold bind.
  destruct (m s) as [[s1 l1] r]. cbn in Ha. subst r.
  destruct (Hk a HP s1) as (b & Hb & HQ). destruct (k a s1) as [[s2 l2] r']. cbn in *. eauto.
Qed.
Lemma y_ret {A} (a : A) (Q : A -> Prop) : Q a -> yields (ret a) Q.
Proof. intros H s. exists a. split; [reflexivity|exact H]. Qed.
Lemma y_weaken {A} (m : M A) (P Q : A -> Prop) : yields m P -> (forall a, P a -> Q a) -> yields m Q.
Proof. intros H HPQ s. destruct (H s) as (a & Ha & HP). eauto. Qed.
Lemma y_conj {A} (m : M A) (P Q : A -> Prop) : yields m P -> yields m Q -> yields m (fun a => P a /\ Q a).
Proof.
  intros H H' s. destruct (H s) as (a & Ha & HP). destruct (H' s) as (b & Hb & HQ).
  exists a. rewrite Ha in Hb. injection Hb as ->. auto.
Qed.

Section Wp.
Context (prf : fac -> key -> Z -> nat -> Z) (colo : bool).
Lemma y_pure {A B} (m : M A) (a : A) (k : A -> M B) Q :
  (forall s, exists s' l, m s = (s', l, Ok a)) -> yields (k a) Q -> yields (bind m k) Q.
Proof.
  intros H Hk. apply (y_bind m k (fun b => b = a)); [|intros b ->; exact Hk].
  intros s. destruct (H s) as (s' & l & E). rewrite E. cbn. eauto.
Qed.
Lemma y_draw {B} d f k n l (h : pv -> M B) Q :
  yields (h (MkV d (prf f k n l))) Q -> yields (bind (draw prf d f k n l) h) Q.
Proof. apply y_pure. intros s. eexists _, _. reflexivity. Qed.
Lemma y_op1 {B} d g x (h : pv -> M B) Q : yields (h (MkV d (g (vz x)))) Q -> yields (bind (op1 d g x) h) Q.
Proof. apply y_pure. intros s. eexists _, _. reflexivity. Qed.
Lemma y_op2 {B} d g x y (h : pv -> M B) Q : yields (h (MkV d (g (vz x) (vz y)))) Q -> yields (bind (op2 d g x y) h) Q.
Proof. apply y_pure. intros s. eexists _, _. reflexivity. Qed.
Lemma y_op3 {B} d g x y z (h : pv -> M B) Q :
  yields (h (MkV d (g (vz x) (vz y) (vz z)))) Q -> yields (bind (op3 d g x y z) h) Q.
Proof. apply y_pure. intros s. eexists _, _. reflexivity. Qed.
Lemma y_op5 {B} d g x y z u v (h : pv -> M B) Q :
  yields (h (MkV d (g (vz x) (vz y) (vz z) (vz u) (vz v)))) Q -> yields (bind (op5 d g x y z u v) h) Q.
Proof. apply y_pure. intros s. eexists _, _. reflexivity. Qed.
Lemma y_opl {B} d g xs (h : pv -> M B) Q :
  yields (h (MkV d (g (map vz xs)))) Q -> yields (bind (opl d g xs) h) Q.
Proof. apply y_pure. intros s. eexists _, _. reflexivity. Qed.
Lemma y_lit {B} d v (h : pv -> M B) Q : yields (h (MkV d v)) Q -> yields (bind (lit d v) h) Q.
Proof. apply y_pure. intros s. eexists _, _. reflexivity. Qed.
Lemma y_copy {B} d x (h : pv -> M B) Q : yields (h (MkV d (vz x))) Q -> yields (bind (copy d x) h) Q.
Proof. intros H. exact (y_op1 d (fun v => v) x h Q H). Qed.
Lemma y_up {B} (h : unit -> M B) Q : yields (h tt) Q -> yields (bind update_pairwise h) Q.
Proof. apply y_pure. intros s. eexists _, _. reflexivity. Qed.
Lemma y_upb {B} (h : unit -> M B) Q : yields (h tt) Q -> yields (bind update_b2a h) Q.
Proof. apply y_pure. intros s. eexists _, _. reflexivity. Qed.
Lemma y_assert {B} b (h : unit -> M B) Q : b = true -> yields (h tt) Q -> yields (bind (assert_ b) h) Q.
Proof. intros ->. apply y_pure. intros s. eexists _, _. reflexivity. Qed.
Lemma y_retb {A B} (a : A) (h : A -> M B) Q : yields (h a) Q -> yields (bind (ret a) h) Q.
Proof. apply y_pure. intros s. eexists _, _. reflexivity. Qed.
Lemma y_get {B} (h : state -> M B) Q : (forall s, yields (h s) Q) -> yields (bind get h) Q.
Proof.
  intros H s. destruct (H s s) as (a & Ha & HQ). unfold bind, get.
  destruct (h s s) as [[s2 l2] r]. cbn in *. eauto.
Qed.
Lemma y_next {B} (h : Z -> M B) Q : (forall c, yields (h c) Q) -> yields (bind next_local h) Q.
Proof. intros H. apply (y_bind _ _ (fun _ => True)); [|intros a _; apply H]. intros s. eexists. split; [reflexivity|exact I]. Qed.
Lemma y_local {B} d f (h : pv -> M B) Q :
  (forall k, yields (h (MkV d (prf f k 0 0))) Q) -> yields (bind (draw_local prf d f) h) Q.
Proof.
  intros H. apply (y_bind _ _ (fun v => exists k, v = MkV d (prf f k 0 0))).
  - unfold draw_local. apply y_next. intros c s. eexists. split; [reflexivity|]. eauto.
  - intros a [k ->]. apply H.
Qed.
Lemma on_same d v : on colo d (MkV d v) = true.
Proof. unfold on. destruct d; apply Bool.orb_true_r. Qed.
Lemma y_mk a b c d e g sc ty f (Q : priv -> Prop) :
  Q (MkPr (MkV S0 a) (MkV S0 b) (MkV S1 c) (MkV S1 d) (MkV S2 e) (MkV S2 g) sc ty f) ->
  yields (mk_priv colo (MkV S0 a) (MkV S0 b) (MkV S1 c) (MkV S1 d) (MkV S2 e) (MkV S2 g) sc ty f) Q.
Proof. intros H. unfold mk_priv. rewrite !on_same. cbn [andb]. apply y_ret, H. Qed.
Lemma y_mkb {B} a b c d e g sc ty f (h : priv -> M B) Q :
  yields (h (MkPr (MkV S0 a) (MkV S0 b) (MkV S1 c) (MkV S1 d) (MkV S2 e) (MkV S2 g) sc ty f)) Q ->
  yields (bind (mk_priv colo (MkV S0 a) (MkV S0 b) (MkV S1 c) (MkV S1 d) (MkV S2 e) (MkV S2 g) sc ty f) h) Q.
Proof. intros H. unfold mk_priv. rewrite !on_same. cbn [andb]. apply y_retb, H. Qed.
Lemma y_mkp a b c sc f (Q : pub -> Prop) :
  Q (MkPu (MkV S0 a) (MkV S1 b) (MkV S2 c) sc f) -> yields (mk_pub colo (MkV S0 a) (MkV S1 b) (MkV S2 c) sc f) Q.
Proof. intros H. unfold mk_pub. rewrite !on_same. cbn [andb]. apply y_ret, H. Qed.
Lemma y_bind_assoc {A B C} (m : M A) (k : A -> M B) (h : B -> M C) Q :
  yields (bind m (fun a => bind (k a) h)) Q -> yields (bind (bind m k) h) Q.
Proof.
  intros H s. destruct (H s) as (c & Hc & HQ). exists c. split; [|exact HQ]. rewrite <- Hc. unfold bind.
  destruct (m s) as [[s1 l1] [a|e]]; [|reflexivity]. destruct (k a s1) as [[s2 l2] [b|e]]; [|reflexivity].
  destruct (h b s2) as [[s3 l3] r]. reflexivity.
Qed.
Lemma y_const {B} f v sc (h : pub -> M B) Q :
  yields (h (MkPu (MkV S0 (fcast f v)) (MkV S1 (fcast f v)) (MkV S2 (fcast f v)) sc f)) Q ->
  yields (bind (const colo f v sc) h) Q.
Proof.
  intros H. apply y_pure with (2 := H). intros s. unfold const, bind, lit, mk_pub. cbn.
  rewrite !on_same. cbn. eexists _, _. reflexivity.
Qed.
End Wp.

Ltac ystep :=
  first [ apply y_draw | apply y_op1 | apply y_op2 | apply y_op3 | apply y_op5 | apply y_opl | apply y_lit | apply y_copy
        | apply y_up | apply y_upb | apply y_retb | apply y_get; intros ? | apply y_next; intros ?
        | apply y_local; intros ? | apply y_mkb | apply y_mk | apply y_mkp | apply y_const
        | apply y_assert; [|] | apply y_bind_assoc | apply y_ret ]; cbn [vz vd].
Ltac yrun := repeat ystep.

(** * Canonical sharings *)

(** The replicated sharing with shares [a], [b], [c]. *)
Definition mk3 (ty : sty) (f : fac) (sc : bool) (a b c : Z) : priv :=
  MkPr (MkV S0 a) (MkV S0 b) (MkV S1 b) (MkV S1 c) (MkV S2 c) (MkV S2 a) sc ty f.
Definition mkq (f : fac) (sc : bool) (v : Z) : pub := MkPu (MkV S0 v) (MkV S1 v) (MkV S2 v) sc f.

Lemma pv_eta v d : vd v = d -> v = MkV d (vz v).
Proof. destruct v; cbn; intros ->; reflexivity. Qed.

Lemma canon x : placed x -> replicated x ->
  x = mk3 (pty x) (pfc x) (psc x) (vz (p00 x)) (vz (p10 x)) (vz (p20 x)).
Proof.
  intros (A & B & C & D & E & F) (G & H & I). destruct x as [[a a'] [b b'] [c c'] [d d'] [e e'] [g g'] sc ty f]. cbn in *.
  subst. reflexivity.
Qed.

Lemma word_in_s n v : word (FI n) v <-> in_s n v.
Proof. reflexivity. Qed.

(** A sharing with its three shares named. *)
Lemma arith_inv n x v : arith n x v -> exists a b c,
  x = mk3 Arith (FI n) (psc x) a b c /\ in_s n a /\ in_s n b /\ in_s n c /\ in_s n v /\ eqm (2 ^ n) (a + b + c) v.
Proof.
  intros (Hp & Ht & Hf & Hr & Ha & Hb & Hc & Hv & He).
  exists (vz (p00 x)), (vz (p10 x)), (vz (p20 x)). split; [|repeat split; first [apply Ha|apply Hb|apply Hc|apply Hv|exact He]].
  rewrite <- Ht, <- Hf. apply canon; assumption.
Qed.
Lemma arith_mk n sc a b c v : in_s n a -> in_s n b -> in_s n c -> in_s n v -> eqm (2 ^ n) (a + b + c) v ->
  arith n (mk3 Arith (FI n) sc a b c) v.
Proof. intros Ha Hb Hc Hv He. unfold arith, arith_vals, placed, replicated, mk3; cbn. repeat split; first [apply Ha|apply Hb|apply Hc|apply Hv|exact He]. Qed.
Lemma bool_inv f x v : boolean f x v -> exists a b c,
  x = mk3 Bool_ f (psc x) a b c /\ word f a /\ word f b /\ word f c /\ Z.lxor (Z.lxor a b) c = v.
Proof.
  intros (Hp & Ht & Hf & Hr & Ha & Hb & Hc & He).
  exists (vz (p00 x)), (vz (p10 x)), (vz (p20 x)).
  split; [rewrite <- Ht, <- Hf; apply canon; assumption|]. auto.
Qed.
Lemma bool_mk f sc a b c v : word f a -> word f b -> word f c -> Z.lxor (Z.lxor a b) c = v ->
  boolean f (mk3 Bool_ f sc a b c) v.
Proof. intros Ha Hb Hc He. unfold boolean, bool_vals, placed, replicated; cbn. auto 20. Qed.
Lemma public_inv f x v : public f x v -> x = mkq f (qsc x) v /\ word f v.
Proof. intros (A & B & C & D & E). destruct x; cbn in *; subst. auto. Qed.
Lemma public_mk f sc v : word f v -> public f (mkq f sc v) v.
Proof. intros H. unfold public; cbn. auto. Qed.

(** * Words *)


Lemma word_lxor f a b : fok f -> word f a -> word f b -> word f (Z.lxor a b).
Proof. destruct f as [|n]; cbn [fok]; intros H Ha Hb; [apply bit_lxor; assumption|apply in_s_lxor; assumption]. Qed.
Lemma word_land f a b : fok f -> word f a -> word f b -> word f (Z.land a b).
Proof. destruct f as [|n]; cbn [fok]; intros H Ha Hb; [apply bit_land; assumption|apply in_s_land; assumption]. Qed.
Lemma word_fcast f a : fok f -> word f (fcast f a).
Proof. destruct f as [|n]; cbn [fok]; intros H; [cbn; destruct (a =? 0); auto|apply swrap_range, H]. Qed.
Lemma word_fnot f a : fok f -> word f a -> word f (fnot f a).
Proof. destruct f as [|n]; cbn [fok]; intros H Ha; [destruct Ha as [->| ->]; cbn; auto|apply in_s_lnot; assumption]. Qed.
Lemma fcast_id f a : fok f -> word f a -> fcast f a = a.
Proof.
  destruct f as [|n]; cbn [fok]; intros H Ha; [|apply swrap_id; assumption].
  destruct Ha as [->| ->]; reflexivity.
Qed.
Lemma fnot_lxor f a b : word f a -> Z.lxor (fnot f a) b = fnot f (Z.lxor a b) \/ ~ word f b.
Proof.
  destruct f as [|n]; cbn.
  - intros Ha. destruct (Z.eq_dec b 0); [|destruct (Z.eq_dec b 1); [|right; lia]]; subst; left; destruct Ha; subst; reflexivity.
  - left. bitblast.
Qed.
Lemma prf_in prf n k c l : 0 < n -> prf_words prf -> in_s n (prf (FI n) k c l).
Proof. intros Hn H. exact (H (FI n) k c l Hn). Qed.

(** Removes wrap-arounds from a congruence. *)
Ltac unw n Hn := repeat match goal with |- context[swrap n _] => rewrite (swrap_eqm n) by exact Hn end.
Ltac eqm_ring n Hn :=
  unw n Hn; apply eqm_eq; ring.
Ltac words := first [ assumption | apply swrap_range; assumption | apply word_lxor; [assumption|words|words]
  | apply word_land; [assumption|words|words] | apply word_fcast; assumption
  | apply word_fnot; [assumption|words] | apply in_s_lxor; [assumption|words|words] | apply in_s_land; [assumption|words|words]
  | apply in_s_shiftr; [assumption|lia|words]
  | match goal with H : prf_words _ |- _ => apply H; first [exact I|assumption|cbn [fok]; lia] end
  | match goal with H : prf_words _ |- _ => apply prf_in; [first [assumption|lia]|exact H] end ].

Section Ops.
Context (prf : fac -> key -> Z -> nat -> Z) (colo : bool) (Hprf : prf_words prf).

(** ** Sharing and reconstruction *)

Lemma share_arith_ok n secret sc : 0 < n -> in_s n secret ->
  yields (share prf colo Arith (FI n) secret sc) (fun x => arith n x secret /\ psc x = sc).
Proof.
  intros Hn Hs. unfold share. yrun. split; [|reflexivity].
  apply arith_mk; try words. cbn [gsub]. eqm_ring n Hn.
Qed.
Lemma share_bool_ok f secret sc : fok f -> word f secret ->
  yields (share prf colo Bool_ f secret sc) (fun x => boolean f x secret /\ psc x = sc).
Proof.
  intros Hn Hs. unfold share. yrun. split; [|reflexivity].
  apply bool_mk; cbn [gsub]; try words. bitblast.
Qed.

Definition recon_val (d : dev) (x : priv) (v : Z) : Prop :=
  yields (reconstruct x d) (fun r => r = MkV d v).
Lemma reconstruct_arith n x v d : 0 < n -> arith n x v -> recon_val d x v.
Proof.
  intros Hn Hx. destruct (arith_inv _ _ _ Hx) as (a & b & c & -> & Ha & Hb & Hc & Hv & He).
  intros s. exists (MkV d v). split; [|reflexivity].
  assert (E1 : swrap n (swrap n (a + b) + c) = v) by
    (apply (in_s_eqm_eq n); [words..|]; rewrite <- He; eqm_ring n Hn).
  assert (E2 : swrap n (swrap n (b + c) + a) = v) by
    (apply (in_s_eqm_eq n); [words..|]; rewrite <- He; eqm_ring n Hn).
  assert (E3 : swrap n (swrap n (c + a) + b) = v) by
    (apply (in_s_eqm_eq n); [words..|]; rewrite <- He; eqm_ring n Hn).
  destruct d; cbn; do 2 f_equal; assumption.
Qed.
Lemma reconstruct_bool f x v d : boolean f x v -> recon_val d x v.
Proof.
  intros Hx. destruct (bool_inv _ _ _ Hx) as (a & b & c & -> & Ha & Hb & Hc & <-).
  intros s. eexists. split; [|reflexivity].
  destruct d; cbn; do 2 f_equal; bitblast.
Qed.
Lemma recon_bind {B} d x v (k : pv -> M B) Q :
  recon_val d x v -> yields (k (MkV d v)) Q -> yields (bind (reconstruct x d) k) Q.
Proof. intros H Hk. apply (y_bind _ _ _ _ H). intros r ->. exact Hk. Qed.
Lemma reveal_ok f x v : (forall d, recon_val d x v) -> pfc x = f -> word f v ->
  yields (reveal colo x) (fun q => public f q v /\ qsc q = psc x).
Proof.
  intros H Hf Hv. unfold reveal.
  apply (recon_bind _ _ _ _ _ (H S0)), (recon_bind _ _ _ _ _ (H S1)), (recon_bind _ _ _ _ _ (H S2)).
  rewrite Hf. apply y_mkp. split; [|reflexivity]. apply public_mk, Hv.
Qed.

(** ** Keyed randomness *)

Lemma zero_sharing_ok ty f : fok f ->
  yields (zero_sharing prf ty f) (fun t => exists u v w, word f u /\ word f v /\ word f w /\
    t = (MkV S0 (gsub ty f u v), MkV S1 (gsub ty f v w), MkV S2 (gsub ty f w u))).
Proof.
  intros Hf. unfold zero_sharing. yrun.
  exists (prf f (KP 0) (nonce 2 s) 0%nat), (prf f (KP 1) (nonce 0 s) 0%nat), (prf f (KP 2) (nonce 1 s) 0%nat).
  repeat split; words.
Qed.
Lemma random_sharing_arith n : 0 < n -> yields (random_sharing prf colo Arith (FI n)) (fun x => exists v, arith n x v /\ psc x = true).
Proof.
  intros Hn. unfold random_sharing. yrun. eexists. split; [|reflexivity].
  apply arith_mk; try words. symmetry. apply swrap_eqm, Hn.
Qed.
Lemma random_sharing_bool f : fok f -> yields (random_sharing prf colo Bool_ f) (fun x => exists v, boolean f x v /\ psc x = true).
Proof.
  intros Hf. unfold random_sharing. yrun. eexists. split; [|reflexivity]. apply bool_mk; try words. reflexivity.
Qed.
Lemma b2a_sharing_ok two f : fok f ->
  yields (b2a_sharing prf two f) (fun t => exists u, word f u /\ t = (MkV S1 u, MkV (if two then S2 else S0) u)).
Proof.
  intros Hf. unfold b2a_sharing. destruct two; yrun; eexists; (split; [|f_equal; f_equal]); try words.
  - bitblast.
Qed.

(** ** Linear operations *)

Lemma add_pp_ok n x y u v : 0 < n -> arith n x u -> arith n y v ->
  yields (add_pp colo x y) (fun z => arith n z (swrap n (u + v)) /\ psc z = psc x).
Proof.
  intros Hn Hx Hy.
  destruct (arith_inv _ _ _ Hx) as (a & b & c & -> & Ha & Hb & Hc & Hu & He).
  destruct (arith_inv _ _ _ Hy) as (a' & b' & c' & -> & Ha' & Hb' & Hc' & Hv & He').
  unfold add_pp, sharewise2, wadd; cbn. yrun. split; [|reflexivity].
  apply arith_mk; try words. unw n Hn. rewrite <- He, <- He'. apply eqm_eq; ring.
Qed.
Lemma add_pq_ok n x y u v : 0 < n -> arith n x u -> public (FI n) y v -> qsc y = psc x ->
  yields (add_pq colo x y) (fun z => arith n z (swrap n (u + v)) /\ psc z = psc x).
Proof.
  intros Hn Hx Hy Hs.
  destruct (arith_inv _ _ _ Hx) as (a & b & c & -> & Ha & Hb & Hc & Hu & He).
  destruct (public_inv _ _ _ Hy) as (-> & Hv). cbn in Hs.
  unfold add_pq, wadd; cbn. rewrite Hs. apply y_assert; [apply Bool.eqb_reflx|]. yrun. split; [|reflexivity].
  apply arith_mk; try words. unw n Hn. rewrite <- He. apply eqm_eq; ring.
Qed.
Lemma add_qp_ok n x y u v : 0 < n -> arith n y u -> public (FI n) x v -> qsc x = psc y ->
  yields (add_qp colo x y) (fun z => arith n z (swrap n (v + u)) /\ psc z = psc y).
Proof.
  intros Hn Hx Hy Hs.
  destruct (arith_inv _ _ _ Hx) as (a & b & c & -> & Ha & Hb & Hc & Hu & He).
  destruct (public_inv _ _ _ Hy) as (-> & Hv). cbn in Hs.
  unfold add_qp, wadd; cbn. rewrite Hs. apply y_assert; [apply Bool.eqb_reflx|]. yrun. split; [|reflexivity].
  apply arith_mk; try words. unw n Hn. rewrite <- He. apply eqm_eq; ring.
Qed.
Lemma sub_pp_ok n x y u v : 0 < n -> arith n x u -> arith n y v -> psc y = psc x ->
  yields (sub_pp colo x y) (fun z => arith n z (swrap n (u - v)) /\ psc z = psc x).
Proof.
  intros Hn Hx Hy Hs.
  destruct (arith_inv _ _ _ Hx) as (a & b & c & -> & Ha & Hb & Hc & Hu & He).
  destruct (arith_inv _ _ _ Hy) as (a' & b' & c' & Ey & Ha' & Hb' & Hc' & Hv & He'). rewrite Ey in *.
  cbn in Hs. unfold sub_pp, sharewise2, wsub; cbn. rewrite Hs. apply y_assert; [apply Bool.eqb_reflx|].
  yrun. split; [|reflexivity].
  apply arith_mk; try words. unw n Hn. rewrite <- He, <- He'. apply eqm_eq; ring.
Qed.
Lemma sub_pq_ok n x y u v : 0 < n -> arith n x u -> public (FI n) y v -> qsc y = psc x ->
  yields (sub_pq colo x y) (fun z => arith n z (swrap n (u - v)) /\ psc z = psc x).
Proof.
  intros Hn Hx Hy Hs.
  destruct (arith_inv _ _ _ Hx) as (a & b & c & -> & Ha & Hb & Hc & Hu & He).
  destruct (public_inv _ _ _ Hy) as (-> & Hv). cbn in Hs.
  unfold sub_pq, wsub; cbn. rewrite Hs. apply y_assert; [apply Bool.eqb_reflx|]. yrun. split; [|reflexivity].
  apply arith_mk; try words. unw n Hn. rewrite <- He. apply eqm_eq; ring.
Qed.
Lemma sub_qp_ok n x y u v : 0 < n -> arith n y u -> public (FI n) x v ->
  yields (sub_qp colo x y) (fun z => arith n z (swrap n (v - u)) /\ psc z = qsc x).
Proof.
  intros Hn Hx Hy.
  destruct (arith_inv _ _ _ Hx) as (a & b & c & -> & Ha & Hb & Hc & Hu & He).
  destruct (public_inv _ _ _ Hy) as (-> & Hv).
  unfold sub_qp, wsub, wneg; cbn. yrun. split; [|reflexivity].
  apply arith_mk; try words. unw n Hn. rewrite <- He. apply eqm_eq; ring.
Qed.
Lemma negative_ok n x u : 0 < n -> arith n x u ->
  yields (negative colo x) (fun z => arith n z (swrap n (- u)) /\ psc z = psc x).
Proof.
  intros Hn Hx.
  destruct (arith_inv _ _ _ Hx) as (a & b & c & -> & Ha & Hb & Hc & Hu & He).
  unfold negative, sharewise, wneg; cbn. yrun. split; [|reflexivity].
  apply arith_mk; try words. unw n Hn. rewrite <- He. apply eqm_eq; ring.
Qed.
Lemma lshift_arith_ok n x u k : 0 < n -> 0 <= k -> arith n x u ->
  yields (lshift colo x k) (fun z => arith n z (swrap n (u * 2 ^ k)) /\ psc z = psc x).
Proof.
  intros Hn Hk Hx.
  destruct (arith_inv _ _ _ Hx) as (a & b & c & -> & Ha & Hb & Hc & Hu & He).
  unfold lshift, sharewise, wshl; cbn. yrun. split; [|reflexivity].
  apply arith_mk; try words. unw n Hn. rewrite !Z.shiftl_mul_pow2 by exact Hk.
  rewrite <- He. apply eqm_eq; ring.
Qed.
Lemma pub_add_ok n x y u v : 0 < n -> public (FI n) x u -> public (FI n) y v -> qsc y = qsc x -> colo = true ->
  yields (add_qq colo x y) (fun z => vz (q0 z) = swrap n (u + v) /\ vz (q1 z) = swrap n (u + v) /\ vz (q2 z) = swrap n (u + v)).
Proof.
  intros Hn Hx Hy Hs Hcl.
  destruct (public_inv _ _ _ Hx) as (-> & Hv). destruct (public_inv _ _ _ Hy) as (-> & Hv').
  cbn in Hs. unfold add_qq, wadd. cbn [qsc qfc q0 q1 q2 mkq fcast]. rewrite Hs.
  apply y_assert; [apply Bool.eqb_reflx|]. do 3 (apply y_op2; cbn [vz]).
  unfold mk_pub, on. rewrite Hcl. cbn [orb andb]. apply y_ret. cbn. auto.
Qed.

(** ** Boolean linear operations *)

Lemma xor_pp_ok f x y u v : fok f -> boolean f x u -> boolean f y v ->
  yields (xor_pp colo x y) (fun z => boolean f z (Z.lxor u v) /\ psc z = psc x).
Proof.
  intros Hn Hx Hy.
  destruct (bool_inv _ _ _ Hx) as (a & b & c & -> & Ha & Hb & Hc & <-).
  destruct (bool_inv _ _ _ Hy) as (a' & b' & c' & -> & Ha' & Hb' & Hc' & <-).
  unfold xor_pp, sharewise2; cbn. apply y_assert; [destruct f; [reflexivity|apply Z.eqb_refl]|].
  yrun. split; [|reflexivity]. apply bool_mk; try words. bitblast.
Qed.
Lemma xor_pq_ok f x y u v : fok f -> boolean f x u -> public f y v ->
  yields (xor_pq colo x y) (fun z => boolean f z (Z.lxor u v) /\ psc z = psc x).
Proof.
  intros Hn Hx Hy.
  destruct (bool_inv _ _ _ Hx) as (a & b & c & -> & Ha & Hb & Hc & <-).
  destruct (public_inv _ _ _ Hy) as (-> & Hv).
  unfold xor_pq, sharewise_pub; cbn. apply y_assert; [destruct f; [reflexivity|apply Z.eqb_refl]|].
  yrun. split; [|reflexivity]. apply bool_mk; try words. bitblast.
Qed.
Lemma and_pq_ok f x y u v : fok f -> boolean f x u -> public f y v ->
  yields (and_pq colo x y) (fun z => boolean f z (Z.land u v) /\ psc z = psc x).
Proof.
  intros Hn Hx Hy.
  destruct (bool_inv _ _ _ Hx) as (a & b & c & -> & Ha & Hb & Hc & <-).
  destruct (public_inv _ _ _ Hy) as (-> & Hv).
  unfold and_pq, sharewise_pub; cbn. apply y_assert; [destruct f; [reflexivity|apply Z.eqb_refl]|].
  yrun. split; [|reflexivity]. apply bool_mk; try words. bitblast.
Qed.
Lemma fnot_spec f a b c : word f a -> word f b -> word f c ->
  Z.lxor (Z.lxor (fnot f a) b) c = fnot f (Z.lxor (Z.lxor a b) c).
Proof.
  destruct f as [|n]; cbn.
  - intros [->| ->] [->| ->] [->| ->]; reflexivity.
  - intros _ _ _. bitblast.
Qed.
Lemma not_ok f x u : fok f -> boolean f x u ->
  yields (not_p colo x) (fun z => boolean f z (fnot f u) /\ psc z = psc x).
Proof.
  intros Hn Hx.
  destruct (bool_inv _ _ _ Hx) as (a & b & c & -> & Ha & Hb & Hc & <-).
  unfold not_p; cbn. yrun. split; [|reflexivity]. apply bool_mk; try words. apply fnot_spec; assumption.
Qed.

(** Sharewise functions that commute with xor. *)
Lemma sharewise_bool_ok g f f' x u : boolean f x u ->
  (forall a, word f a -> word f' (g a)) ->
  (forall a b, word f a -> word f b -> g (Z.lxor a b) = Z.lxor (g a) (g b)) -> fok f ->
  yields (sharewise colo g f' x) (fun z => boolean f' z (g u) /\ psc z = psc x).
Proof.
  intros Hx Hw Hg Hf.
  destruct (bool_inv _ _ _ Hx) as (a & b & c & -> & Ha & Hb & Hc & <-).
  unfold sharewise; cbn. yrun. split; [|reflexivity].
  apply bool_mk; [apply Hw; assumption..|]. rewrite !Hg by words. reflexivity.
Qed.
Lemma lshift_bool_ok n x u k : 0 < n -> boolean (FI n) x u ->
  yields (lshift colo x k) (fun z => boolean (FI n) z (swrap n (Z.shiftl u k)) /\ psc z = psc x).
Proof.
  intros Hn Hx. unfold lshift. assert (pfc x = FI n) as -> by apply Hx.
  apply (sharewise_bool_ok (wshl (FI n) k) (FI n)); try assumption.
  - intros a _. apply swrap_range, Hn.
  - intros a b _ _. unfold wshl; cbn [fcast]. rewrite Z.shiftl_lxor. apply swrap_lxor, Hn.
Qed.
Lemma rshift_bool_ok n x u k : 0 < n -> 0 <= k -> boolean (FI n) x u ->
  yields (rshift colo x k) (fun z => boolean (FI n) z (Z.shiftr u k) /\ psc z = psc x).
Proof.
  intros Hn Hk Hx. unfold rshift. assert (pfc x = FI n) as -> by apply Hx.
  apply (sharewise_bool_ok (wsar k) (FI n)); try assumption.
  - intros a Ha. apply in_s_shiftr; assumption.
  - intros a b _ _. unfold wsar. apply Z.shiftr_lxor.
Qed.
Lemma cast_word_ok n m x u : 0 < n -> 0 < m -> boolean (FI n) x u ->
  yields (cast colo (FI m) x) (fun z => boolean (FI m) z (swrap m u) /\ psc z = psc x).
Proof.
  intros Hn Hm Hx. unfold cast. assert (pfc x = FI n) as -> by apply Hx. cbn [fac_eqb].
  destruct (Z.eqb_spec n m) as [->|Hne].
  - apply y_ret. split; [|reflexivity]. destruct (bool_inv _ _ _ Hx) as (a & b & c & E & Ha & Hb & Hc & <-).
    rewrite swrap_id; [exact Hx|exact Hm|]. words.
  - apply (sharewise_bool_ok (swrap m) (FI n)); try assumption.
    + intros a _. apply swrap_range, Hm.
    + intros a b _ _. apply swrap_lxor, Hm.
Qed.

(** ** Products *)

Lemma mul_raw_ok n x y u v : 0 < n -> arith n x u -> arith n y v ->
  yields (mul_pp_raw prf colo x y) (fun z => arith n z (swrap n (u * v)) /\ psc z = (psc x || psc y)%bool).
Proof.
  intros Hn Hx Hy.
  destruct (arith_inv _ _ _ Hx) as (a & b & c & -> & Ha & Hb & Hc & Hu & He).
  destruct (arith_inv _ _ _ Hy) as (a' & b' & c' & -> & Ha' & Hb' & Hc' & Hv & He').
  unfold mul_pp_raw, rss_mul. apply (y_bind _ _ _ _ (zero_sharing_ok Arith (FI n) Hn)).
  intros t (r0 & r1 & r2 & H0 & H1 & H2 & ->). unfold cross, wadd, wmul; cbn [p00 p01 p10 p11 p20 p21 mk3 psc pty pfc].
  yrun. split; [|reflexivity]. cbn [fcast gsub]. apply arith_mk; try words.
  unw n Hn. rewrite <- He, <- He'. apply eqm_eq; ring.
Qed.
Lemma and_ok f x y u v : fok f -> boolean f x u -> boolean f y v ->
  yields (and_pp prf colo x y) (fun z => boolean f z (Z.land u v) /\ psc z = (psc x || psc y)%bool).
Proof.
  intros Hn Hx Hy.
  destruct (bool_inv _ _ _ Hx) as (a & b & c & -> & Ha & Hb & Hc & <-).
  destruct (bool_inv _ _ _ Hy) as (a' & b' & c' & -> & Ha' & Hb' & Hc' & <-).
  unfold and_pp, rss_mul; cbn [is_arith pty mk3 negb andb pfc].
  apply y_assert; [destruct f; [reflexivity|apply Z.eqb_refl]|].
  apply (y_bind _ _ _ _ (zero_sharing_ok Bool_ f ltac:(assumption))).
  intros t (r0 & r1 & r2 & H0 & H1 & H2 & ->). unfold cross; cbn [p00 p01 p10 p11 p20 p21 mk3 psc pty pfc gsub].
  yrun. split; [|reflexivity]. apply bool_mk; try words. bitblast.
Qed.
Lemma or_ok f x y u v : fok f -> boolean f x u -> boolean f y v ->
  yields (or_pp prf colo x y) (fun z => boolean f z (Z.lor u v) /\ psc z = psc x).
Proof.
  intros Hf Hx Hy. unfold or_pp.
  apply (y_bind _ _ _ _ (xor_pp_ok f x y u v Hf Hx Hy)). intros a (Ha & Hsa).
  apply (y_bind _ _ _ _ (and_ok f x y u v Hf Hx Hy)). intros b (Hb & Hsb).
  apply y_weaken with (1 := xor_pp_ok f a b _ _ Hf Ha Hb). intros z (Hz & Hs). split; [|congruence].
  replace (Z.lor u v) with (Z.lxor (Z.lxor u v) (Z.land u v)) by bitblast. exact Hz.
Qed.

Lemma mul_pq_raw_ok n x y u v sc : 0 < n -> arith n x u -> public (FI n) y v ->
  yields (sharewise_pub colo (wmul (FI n)) sc x y) (fun z => arith n z (swrap n (u * v)) /\ psc z = sc).
Proof.
  intros Hn Hx Hy.
  destruct (arith_inv _ _ _ Hx) as (a & b & c & -> & Ha & Hb & Hc & Hu & He).
  destruct (public_inv _ _ _ Hy) as (-> & Hv).
  unfold sharewise_pub, wmul; cbn. yrun. split; [|reflexivity].
  apply arith_mk; try words. unw n Hn. rewrite <- He. apply eqm_eq; ring.
Qed.

(** ** Matrix product *)

Definition dotz (us vs : list Z) : Z := zsum (map (fun p => fst p * snd p) (combine us vs)).
Lemma dot_eqm n xs ys : 0 < n -> eqm (2 ^ n) (dot (FI n) xs ys) (dotz xs ys) /\ in_s n (dot (FI n) xs ys).
Proof.
  intros Hn. unfold dot, dotz.
  assert (H : forall l a, in_s n a ->
    eqm (2 ^ n) (fold_left (fun acc p => wadd (FI n) acc (wmul (FI n) (fst p) (snd p))) l a)
      (a + zsum (map (fun p : Z * Z => fst p * snd p) l)) /\
    in_s n (fold_left (fun acc p => wadd (FI n) acc (wmul (FI n) (fst p) (snd p))) l a)).
  { induction l as [|p l IH]; intros a Ha.
    - cbn. split; [apply eqm_eq; lia|exact Ha].
    - cbn [fold_left map]. destruct (IH (wadd (FI n) a (wmul (FI n) (fst p) (snd p)))) as (He & Hr).
      { apply swrap_range, Hn. }
      split; [|exact Hr]. rewrite He. unfold wadd, wmul; cbn [fcast]. unw n Hn.
      apply eqm_eq. unfold zsum. cbn. fold (zsum (map (fun p : Z * Z => fst p * snd p) l)). ring. }
  destruct (H (combine xs ys) 0) as (He & Hr).
  { unfold in_s. pose proof (pow2_pos (n - 1)). lia. }
  split; [|exact Hr]. rewrite He. apply eqm_eq. ring.
Qed.
Lemma dotz_cons a b us vs : dotz (a :: us) (b :: vs) = a * b + dotz us vs.
Proof. reflexivity. Qed.

Definition sh_vals (g : priv -> pv) (xs : list priv) : list Z := map vz (map g xs).
Lemma sh_len g xs : length (sh_vals g xs) = length xs.
Proof. unfold sh_vals. rewrite !map_length. reflexivity. Qed.
Lemma sh_repl n xs us : Forall2 (arith n) xs us ->
  sh_vals p01 xs = sh_vals p10 xs /\ sh_vals p11 xs = sh_vals p20 xs /\ sh_vals p21 xs = sh_vals p00 xs.
Proof.
  induction 1 as [|x u xs us Hx Hxs (A & B & C)]; [auto|]. unfold sh_vals in *. cbn.
  destruct Hx as (_ & _ & _ & (D & E & F) & _). rewrite A, B, C, D, E, F. auto.
Qed.
Lemma firstn_app_len {A} (l l' : list A) k : length l = k -> firstn k (l ++ l') = l.
Proof. intros <-. rewrite firstn_app, Nat.sub_diag, firstn_O, app_nil_r. apply firstn_all. Qed.
Lemma skipn_app_len {A} (l l' : list A) k : length l = k -> skipn k (l ++ l') = l'.
Proof. intros <-. rewrite skipn_app, Nat.sub_diag, skipn_all. reflexivity. Qed.

Lemma matmul_raw_ok n sc xs ys us vs : 0 < n -> Forall2 (arith n) xs us -> Forall2 (arith n) ys vs ->
  length xs = length ys ->
  yields (matmul_pp_raw prf colo (FI n) sc xs ys) (fun z => arith n z (swrap n (dotz us vs)) /\ psc z = sc).
Proof.
  intros Hn Hx Hy Hl. unfold matmul_pp_raw. cbv zeta.
  apply (y_bind _ _ _ _ (zero_sharing_ok Arith (FI n) Hn)).
  intros t (r0 & r1 & r2 & H0 & H1 & H2 & ->).
  set (loc := fun l : list Z => wadd (FI n) (wadd (FI n) (wadd (FI n) _ _) _) _).
  assert (Hloc : forall A B C D a, length A = length xs -> length B = length xs -> length C = length xs -> length D = length xs ->
    loc (A ++ B ++ C ++ D ++ [a]) = wadd (FI n) (wadd (FI n) (wadd (FI n) (dot (FI n) A C) (dot (FI n) A D)) (dot (FI n) B C)) a).
  { intros A B C D a HA HB HC HD. unfold loc.
    rewrite (firstn_app_len A) by exact HA. rewrite (skipn_app_len A _ (length xs)) by exact HA. rewrite (firstn_app_len B) by exact HB.
    replace (skipn (2 * length xs) (A ++ B ++ C ++ D ++ [a])) with (C ++ D ++ [a]).
    2:{ rewrite (app_assoc A). rewrite (skipn_app_len (A ++ B)); [reflexivity|rewrite app_length; lia]. }
    replace (skipn (3 * length xs) (A ++ B ++ C ++ D ++ [a])) with (D ++ [a]).
    2:{ rewrite (app_assoc A), (app_assoc (A ++ B)). rewrite (skipn_app_len ((A ++ B) ++ C)); [reflexivity|rewrite !app_length; lia]. }
    rewrite (firstn_app_len C) by exact HC. rewrite (firstn_app_len D) by exact HD.
    replace (nth (4 * length xs) (A ++ B ++ C ++ D ++ [a]) 0) with a; [reflexivity|].
    rewrite (app_assoc A), (app_assoc (A ++ B)), (app_assoc ((A ++ B) ++ C)).
    rewrite app_nth2; rewrite !app_length; [|lia].
    replace (4 * length xs - (length A + length B + length C + length D))%nat with 0%nat by lia. reflexivity. }
  clearbody loc. do 3 (apply y_opl; cbn [vz]). do 3 (apply y_copy; cbn [vz]). apply y_mk.
  split; [|reflexivity].
  rewrite !map_app. cbn [map vz]. fold (sh_vals p00 xs) (sh_vals p01 xs) (sh_vals p10 xs) (sh_vals p11 xs) (sh_vals p20 xs) (sh_vals p21 xs).
  fold (sh_vals p00 ys) (sh_vals p01 ys) (sh_vals p10 ys) (sh_vals p11 ys) (sh_vals p20 ys) (sh_vals p21 ys).
  destruct (sh_repl _ _ _ Hx) as (E1 & E2 & E3). destruct (sh_repl _ _ _ Hy) as (F1 & F2 & F3).
  rewrite E1, E2, E3, F1, F2, F3.
  rewrite !Hloc by (rewrite sh_len; lia). unfold wadd; cbn [fcast gsub]. apply arith_mk; try words.
  unw n Hn.
  rewrite !(fun A B => proj1 (dot_eqm n A B Hn)).
  match goal with |- eqm _ ?l _ => replace l with
    (dotz (sh_vals p00 xs) (sh_vals p00 ys) + dotz (sh_vals p00 xs) (sh_vals p10 ys) + dotz (sh_vals p10 xs) (sh_vals p00 ys)
    + dotz (sh_vals p10 xs) (sh_vals p10 ys) + dotz (sh_vals p10 xs) (sh_vals p20 ys) + dotz (sh_vals p20 xs) (sh_vals p10 ys)
    + dotz (sh_vals p20 xs) (sh_vals p20 ys) + dotz (sh_vals p20 xs) (sh_vals p00 ys) + dotz (sh_vals p00 xs) (sh_vals p20 ys)) by ring end.
  clear - Hx Hy. revert ys vs Hy. induction Hx as [|x u xs us Hx Hxs IH]; intros ys vs Hy; [reflexivity|].
  destruct Hy as [|y v ys vs Hy Hys]; [reflexivity|].
  specialize (IH ys vs Hys). rewrite dotz_cons, <- IH. unfold sh_vals; cbn [map]. rewrite !dotz_cons.
  fold (sh_vals p00 xs) (sh_vals p10 xs) (sh_vals p20 xs) (sh_vals p00 ys) (sh_vals p10 ys) (sh_vals p20 ys).
  destruct (arith_inv _ _ _ Hx) as (a & b & c & -> & _ & _ & _ & _ & He).
  destruct (arith_inv _ _ _ Hy) as (a' & b' & c' & -> & _ & _ & _ & _ & He').
  cbn [vz p00 p10 p20 mk3]. rewrite <- He, <- He'. apply eqm_eq. ring.
Qed.

(** ** Oblivious transfer and bit injection *)

Lemma ot_ok sender receiver helper f m0 m1 c_rec c_help k n : vz c_help = vz c_rec ->
  yields (ot prf sender receiver helper f m0 m1 c_rec c_help k k n)
    (fun r => r = MkV receiver (if vz c_rec =? 0 then vz m0 else vz m1)).
Proof.
  intros Hc. unfold ot. yrun.
  f_equal. rewrite Hc. destruct (vz c_rec =? 0); bitblast.
Qed.

Lemma mul_ab_routine_ok n sc a b beta i : 0 < n -> i = 0 \/ i = 1 \/ i = 2 -> bool_vals FB b beta ->
  yields (mul_ab_routine prf colo (FI n) sc a b i) (fun z => arith n z (swrap n (beta * vz a)) /\ psc z = sc).
Proof.
  intros Hn Hi (Ht & Hf & (R0 & R1 & R2) & W0 & W1 & W2 & <-).
  destruct b as [[d0 b0] [d1 c1] [d2 b1] [d3 c2] [d4 b2] [d5 c0] bs bt bf]. cbn in R0, R1, R2, W0, W1, W2, Ht, Hf |- *. subst c1 c2 c0 bt bf.
  unfold mul_ab_routine. apply (y_bind _ _ _ _ (zero_sharing_ok Arith (FI n) Hn)).
  intros t (r0 & r1 & r2 & H0 & H1 & H2 & ->). cbv zeta.
  destruct Hi as [->|[->| ->]]; cbn [srv fst_sh snd_sh Z.add Z.modulo Z.div_eucl Z.eqb p00 p01 p10 p11 p20 p21];
    cbn; do 5 ystep; apply y_get; intros st;
    (eapply y_bind; [apply ot_ok; reflexivity|]; intros ? ->);
    (eapply y_bind; [apply ot_ok; reflexivity|]; intros ? ->);
    apply y_up; cbn [vz]; apply y_mk; (split; [|reflexivity]);
    unfold wadd, wmul, wneg; cbn [fcast];
    destruct W0 as [->| ->]; destruct W1 as [->| ->]; destruct W2 as [->| ->]; cbn [Z.lxor Z.eqb Pos.lxor Z.of_N];
    apply arith_mk; try words; unw n Hn; apply eqm_eq; ring.
Qed.
Lemma mul_ab_qp_ok n x b v beta : 0 < n -> public (FI n) x v -> bool_vals FB b beta ->
  yields (mul_ab_qp prf colo x b) (fun z => arith n z (swrap n (beta * v)) /\ psc z = qsc x).
Proof.
  intros Hn Hx Hb. destruct (public_inv _ _ _ Hx) as (-> & Hv). unfold mul_ab_qp.
  apply y_assert. { unfold is_arith. destruct Hb as (-> & _). reflexivity. }
  cbn [qfc mkq qsc q2]. apply mul_ab_routine_ok; auto.
Qed.
Lemma mul_ab_pp_ok n x b v beta : 0 < n -> arith n x v -> bool_vals FB b beta ->
  yields (mul_ab_pp prf colo x b) (fun z => arith n z (swrap n (beta * v)) /\ psc z = psc x).
Proof.
  intros Hn Hx Hb.
  destruct (arith_inv _ _ _ Hx) as (a0 & a1 & a2 & -> & Ha & Hb' & Hc & Hv & He).
  unfold mul_ab_pp. apply y_assert. { unfold is_arith. destruct Hb as (-> & _). reflexivity. }
  cbn [pfc psc p00 p10 p11 mk3].
  apply (y_bind _ _ _ _ (mul_ab_routine_ok n (psc x) (MkV S0 a0) b beta 0 Hn (or_introl eq_refl) Hb)).
  intros w (Hw & Hws). apply y_op2; cbn [vz].
  apply (y_bind _ _ _ _ (mul_ab_routine_ok n (psc x) (MkV S1 (wadd (FI n) a1 a2)) b beta 1 Hn (or_intror (or_introl eq_refl)) Hb)).
  intros z (Hz & Hzs).
  apply y_weaken with (1 := add_pp_ok n w z _ _ Hn Hw Hz). intros r (Hr & Hrs). split; [|congruence].
  cbn [vz] in Hr. unfold wadd in Hr; cbn [fcast] in Hr.
  erewrite (eqm_swrap_eq n (beta * v)); [exact Hr|exact Hn|].
  unw n Hn. rewrite <- He. apply eqm_eq. ring.
Qed.
Lemma b2a_single_ok n x beta : 1 < n -> bool_vals FB x beta ->
  yields (b2a_single prf colo (FI n) x) (fun z => arith n z beta /\ psc z = false).
Proof.
  intros Hn Hx. unfold b2a_single. apply y_assert.
  { unfold is_arith. destruct Hx as (-> & -> & _). reflexivity. }
  apply y_const.
  assert (H1 : in_s n 1). { unfold in_s. pose proof (pow2_half (n - 1)). pose proof (pow2_pos (n - 1 - 1)). lia. }
  assert (E : fcast (FI n) 1 = 1) by (apply fcast_id; cbn; [lia|exact H1]). rewrite E.
  apply y_weaken with (1 := mul_ab_qp_ok n (mkq (FI n) false 1) x 1 beta ltac:(lia) (public_mk (FI n) false 1 H1) Hx).
  intros z (Hz & Hs). split; [|exact Hs]. rewrite Z.mul_1_r in Hz. rewrite swrap_id in Hz; [exact Hz|lia|].
  destruct Hx as (_ & _ & _ & W0 & W1 & W2 & <-). cbn [word] in W0, W1, W2.
  pose proof (pow2_pos (n - 1)). unfold in_s in *.
  destruct W0 as [->| ->]; destruct W1 as [->| ->]; destruct W2 as [->| ->]; cbn; lia.
Qed.

End Ops.
