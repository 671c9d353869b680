(** Freshness of seeds and nonces. *)
From Verif Require Import Base TensorModel Aby3Model Aby3Spec Aby3NetModel Aby3TraceModel Aby3TraceSpec.
From Coq Require Import Lia.

(** * Programs that use each seed and nonce once *)

(** The counter that goes with a seed. *)
Definition slot (k : key) (s : state) : Z :=
  match k with
  | KP i => nonce (i + 2) s
  | KA _ | KB _ => nb s
  | KS _ | KL _ _ => nl s
  end.
Definition number (k : key) (n : Z) : Z := match k with KS c | KL _ c => c | _ => n end.
(** Nonces of a use, taken from the counters between two states. *)
Definition inside (s s' : state) (u : use) : Prop :=
  match u with (_, k, n, _) => slot k s <= number k n < slot k s' end.
Definition below (s s' : state) : Prop := n0 s <= n0 s' /\ n1 s <= n1 s' /\ n2 s <= n2 s' /\ nb s <= nb s' /\ nl s <= nl s'.
Definition tidy {A} (m : M A) : Prop :=
  forall s, below s (state_of (m s)) /\ Forall (inside s (state_of (m s))) (uses (log_of (m s))) /\ NoDup (uses (log_of (m s))).

Lemma nonce_below i s s' : below s s' -> nonce i s <= nonce i s'.
Proof. unfold below, nonce. intros (A & B & C & _). destruct (i mod 3 =? 0); [lia|]. destruct (i mod 3 =? 1); lia. Qed.
Lemma slot_below k s s' : below s s' -> slot k s <= slot k s'.
Proof. intros H. destruct k; cbn; try (apply nonce_below; exact H); destruct H as (_ & _ & _ & D & E); lia. Qed.
Lemma below_refl s : below s s.
Proof. unfold below. lia. Qed.
Lemma below_trans a b c : below a b -> below b c -> below a c.
Proof. unfold below. lia. Qed.
Lemma uses_app l l' : uses (l ++ l') = uses l ++ uses l'.
Proof. apply flat_map_app. Qed.
Lemma inside_wider a b c d u : below a b -> below c d -> inside b c u -> inside a d u.
Proof. destruct u as [[[e k] n] l]. cbn. intros H H' I. pose proof (slot_below k _ _ H). pose proof (slot_below k _ _ H'). lia. Qed.
Lemma NoDup_app' {A} (l l' : list A) : NoDup l -> NoDup l' -> (forall x, In x l -> In x l' -> False) -> NoDup (l ++ l').
Proof.
  induction l as [|x l IH]; intros H H' D; [exact H'|]. inversion H; subst. cbn. constructor.
  - rewrite in_app_iff. intros [I|I]; [contradiction|]. exact (D x (or_introl eq_refl) I).
  - apply IH; [assumption|assumption|]. intros y I I'. exact (D y (or_intror I) I').
Qed.
Lemma t_bind {A B} (m : M A) (k : A -> M B) : tidy m -> (forall a, tidy (k a)) -> tidy (bind m k).
Proof.
  intros Hm Hk s. specialize (Hm s). unfold tidy, bind, log_of, state_of in *. destruct (m s) as [[s1 l1] [a|e]]; [|exact Hm].
  cbn [fst snd] in *. specialize (Hk a s1). destruct (k a s1) as [[s2 l2] r]. cbn [fst snd] in *.
  destruct Hm as (B1 & F1 & D1), Hk as (B2 & F2 & D2). split; [exact (below_trans _ _ _ B1 B2)|]. rewrite uses_app. split.
  - apply Forall_app. split; eapply Forall_impl; [|exact F1| |exact F2]; intros u I.
    + exact (inside_wider _ _ _ _ _ (below_refl _) B2 I).
    + exact (inside_wider _ _ _ _ _ B1 (below_refl _) I).
  - apply NoDup_app'; [exact D1|exact D2|]. intros u I1 I2. rewrite Forall_forall in F1, F2. specialize (F1 u I1). specialize (F2 u I2).
    destruct u as [[[d kk] n] l]. cbn in F1, F2. lia.
Qed.
(** Programs that draw nothing and leave the counters alone. *)
Definition quiet {A} (m : M A) : Prop := forall s, state_of (m s) = s /\ uses (log_of (m s)) = [].
Lemma q_tidy {A} (m : M A) : quiet m -> tidy m.
Proof. intros H s. destruct (H s) as [-> ->]. split; [apply below_refl|]. split; constructor. Qed.
Lemma q_bind {A B} (m : M A) (k : A -> M B) : quiet m -> (forall a, quiet (k a)) -> quiet (bind m k).
Proof.
  intros Hm Hk s. specialize (Hm s). unfold quiet, bind, log_of, state_of in *. destruct (m s) as [[s1 l1] [a|e]]; [|exact Hm].
  cbn [fst snd] in *. specialize (Hk a s1). destruct (k a s1) as [[s2 l2] r]. cbn [fst snd] in *.
  destruct Hm as [-> E], Hk as [-> E']. rewrite uses_app, E, E'. auto.
Qed.
Lemma q_now {A} (m : M A) (l : list ev) r : (forall s, m s = (s, l, r)) -> uses l = [] -> quiet m.
Proof. intros H E s. rewrite H. cbn. auto. Qed.
Lemma q_ret {A} (a : A) : quiet (ret a). Proof. apply (q_now _ [] (Ok a)); reflexivity. Qed.
Lemma q_raise {A} e : quiet (@raise A e). Proof. apply (q_now _ [] (Err e)); reflexivity. Qed.
Lemma q_assert b : quiet (assert_ b). Proof. destruct b; [apply q_ret|apply q_raise]. Qed.
Lemma q_get : quiet get. Proof. intros s. cbn. auto. Qed.
Lemma q_op1 d f x : quiet (op1 d f x). Proof. eapply q_now; [intros; reflexivity|reflexivity]. Qed.
Lemma q_op2 d f x y : quiet (op2 d f x y). Proof. eapply q_now; [intros; reflexivity|reflexivity]. Qed.
Lemma q_op3 d f x y z : quiet (op3 d f x y z). Proof. eapply q_now; [intros; reflexivity|reflexivity]. Qed.
Lemma q_op5 d f x y z u v : quiet (op5 d f x y z u v). Proof. eapply q_now; [intros; reflexivity|reflexivity]. Qed.
Lemma q_opl d f xs : quiet (opl d f xs).
Proof. eapply q_now; [intros; reflexivity|]. induction xs as [|x xs IH]; [reflexivity|exact IH]. Qed.
Lemma q_lit d v : quiet (lit d v). Proof. eapply q_now; [intros; reflexivity|reflexivity]. Qed.
Lemma q_copy d x : quiet (copy d x). Proof. apply q_op1. Qed.
Lemma q_if {A} (b : bool) (m m' : M A) : quiet m -> quiet m' -> quiet (if b then m else m').
Proof. destruct b; auto. Qed.
Lemma t_if {A} (b : bool) (m m' : M A) : tidy m -> tidy m' -> tidy (if b then m else m').
Proof. destruct b; auto. Qed.

Section Tidy.
Context (prf : fac -> key -> Z -> nat -> Z) (colo : bool).
Lemma q_mk_priv a b c d e g sc ty f : quiet (mk_priv colo a b c d e g sc ty f).
Proof. unfold mk_priv. apply q_if; [apply q_ret|apply q_raise]. Qed.
Lemma q_mk_pub a b c sc f : quiet (mk_pub colo a b c sc f).
Proof. unfold mk_pub. apply q_if; [apply q_ret|apply q_raise]. Qed.
End Tidy.
Create HintDb qdb.
Ltac qstep :=
  first [ simple apply q_ret | simple apply q_raise | simple apply q_assert | simple apply q_get | simple apply q_op1 | simple apply q_op2 | simple apply q_op3
        | simple apply q_op5 | simple apply q_opl | simple apply q_lit | simple apply q_copy | simple apply q_mk_priv | simple apply q_mk_pub
        | solve [auto with qdb nocore] | simple apply q_if | simple apply q_bind; [|intros] ].
Ltac quiet := repeat qstep.
Section Quiet.
Context (prf : fac -> key -> Z -> nat -> Z) (colo : bool).
Lemma q_const f v sc : quiet (const colo f v sc). Proof. unfold const. quiet. Qed.
Hint Resolve q_const : qdb.
Lemma q_sharewise g f x : quiet (sharewise colo g f x). Proof. unfold sharewise. quiet. Qed.
Hint Resolve q_sharewise : qdb.
Lemma q_sharewise2 g sc x y : quiet (sharewise2 colo g sc x y). Proof. unfold sharewise2. quiet. Qed.
Hint Resolve q_sharewise2 : qdb.
Lemma q_sharewise_pub g sc x y : quiet (sharewise_pub colo g sc x y). Proof. unfold sharewise_pub. quiet. Qed.
Hint Resolve q_sharewise_pub : qdb.
Lemma q_pubwise2 g sc x y : quiet (pubwise2 colo g sc x y). Proof. unfold pubwise2. quiet. Qed.
Hint Resolve q_pubwise2 : qdb.
Lemma q_reconstruct x d : quiet (reconstruct x d). Proof. unfold reconstruct. destruct d; quiet. Qed.
Hint Resolve q_reconstruct : qdb.
Lemma q_reveal x : quiet (reveal colo x). Proof. unfold reveal. quiet. Qed.
Hint Resolve q_reveal : qdb.
Lemma q_add_pp x y : quiet (add_pp colo x y). Proof. unfold add_pp. quiet. Qed.
Hint Resolve q_add_pp : qdb.
Lemma q_add_pq x y : quiet (add_pq colo x y). Proof. unfold add_pq. quiet. Qed.
Hint Resolve q_add_pq : qdb.
Lemma q_add_qp x y : quiet (add_qp colo x y). Proof. unfold add_qp. quiet. Qed.
Hint Resolve q_add_qp : qdb.
Lemma q_add_qq x y : quiet (add_qq colo x y). Proof. unfold add_qq. quiet. Qed.
Hint Resolve q_add_qq : qdb.
Lemma q_sub_pp x y : quiet (sub_pp colo x y). Proof. unfold sub_pp. quiet. Qed.
Hint Resolve q_sub_pp : qdb.
Lemma q_sub_pq x y : quiet (sub_pq colo x y). Proof. unfold sub_pq. quiet. Qed.
Hint Resolve q_sub_pq : qdb.
Lemma q_sub_qp x y : quiet (sub_qp colo x y). Proof. unfold sub_qp. quiet. Qed.
Hint Resolve q_sub_qp : qdb.
Lemma q_sub_qq x y : quiet (sub_qq colo x y). Proof. unfold sub_qq. quiet. Qed.
Hint Resolve q_sub_qq : qdb.
Lemma q_negative x : quiet (negative colo x). Proof. apply q_sharewise. Qed.
Hint Resolve q_negative : qdb.
Lemma q_xor_pp x y : quiet (xor_pp colo x y). Proof. unfold xor_pp. quiet. Qed.
Hint Resolve q_xor_pp : qdb.
Lemma q_xor_pq x y : quiet (xor_pq colo x y). Proof. unfold xor_pq. quiet. Qed.
Hint Resolve q_xor_pq : qdb.
Lemma q_and_pq x y : quiet (and_pq colo x y). Proof. unfold and_pq. quiet. Qed.
Hint Resolve q_and_pq : qdb.
Lemma q_not x : quiet (not_p colo x). Proof. unfold not_p. quiet. Qed.
Hint Resolve q_not : qdb.
Lemma q_lshift x k : quiet (lshift colo x k). Proof. apply q_sharewise. Qed.
Hint Resolve q_lshift : qdb.
Lemma q_rshift x k : quiet (rshift colo x k). Proof. apply q_sharewise. Qed.
Hint Resolve q_rshift : qdb.
Lemma q_lrshift x k : quiet (logical_rshift colo x k). Proof. apply q_sharewise. Qed.
Hint Resolve q_lrshift : qdb.
Lemma q_cast f x : quiet (cast colo f x). Proof. unfold cast. quiet. Qed.
Hint Resolve q_cast : qdb.
Lemma q_truncate_public a x : quiet (truncate_public colo a x). Proof. unfold truncate_public. quiet. Qed.
Hint Resolve q_truncate_public : qdb.
Lemma q_mul_qq sc x y : quiet (mul_qq colo sc x y). Proof. unfold mul_qq. quiet. Qed.
Hint Resolve q_mul_qq : qdb.
Lemma q_reduce_sum f sc ty xs : quiet (reduce_sum colo f sc ty xs). Proof. unfold reduce_sum. quiet. Qed.
Hint Resolve q_reduce_sum : qdb.
Lemma q_bit_at x i : quiet (bit_at colo x i). Proof. unfold bit_at. quiet. Qed.
Hint Resolve q_bit_at : qdb.
Lemma q_xor_qq x y : quiet (xor_qq colo x y). Proof. unfold xor_qq. quiet. Qed.
Hint Resolve q_xor_qq : qdb.
End Quiet.

#[export] Hint Resolve q_const q_sharewise q_sharewise2 q_sharewise_pub q_pubwise2 q_reconstruct q_reveal q_add_pp q_add_pq q_add_qp q_add_qq q_sub_pp q_sub_pq q_sub_qp q_sub_qq q_negative q_xor_pp q_xor_pq q_and_pq q_not q_lshift q_rshift q_lrshift q_cast q_truncate_public q_mul_qq q_reduce_sum q_bit_at q_xor_qq : qdb.

(** * The operations that draw *)

Lemma t_update : tidy update_pairwise.
Proof. intros s. cbn. split; [unfold below; cbn; lia|]. split; constructor. Qed.
Lemma t_next : tidy next_local.
Proof. intros s. cbn. split; [unfold below; cbn; lia|]. split; constructor. Qed.

Ltac nodup := repeat (constructor; [cbn; intuition congruence|]); constructor.
Section Draws.
Context (prf : fac -> key -> Z -> nat -> Z) (colo : bool).
Lemma t_zero_sharing ty f : tidy (zero_sharing prf ty f).
Proof.
  intros s. cbn. split; [unfold below; cbn; lia|]. split.
  - repeat constructor; cbn; unfold nonce; cbn; lia.
  - nodup.
Qed.
Lemma t_random_sharing ty f : tidy (random_sharing prf colo ty f).
Proof.
  intros s. unfold random_sharing, mk_priv. cbn. destruct (_ && _); cbn; (split; [unfold below; cbn; lia|]; split; [repeat constructor; cbn; unfold nonce; cbn; lia|nodup]).
Qed.
Lemma t_b2a_sharing two f : tidy (b2a_sharing prf two f).
Proof.
  intros s. unfold b2a_sharing. destruct two; cbn; (split; [unfold below; cbn; lia|]; split; [repeat constructor; cbn; unfold nonce; cbn; lia|nodup]).
Qed.
Lemma t_share ty f v sc : tidy (share prf colo ty f v sc).
Proof.
  intros s. unfold share, mk_priv. cbn. destruct (_ && _); cbn; (split; [unfold below; cbn; lia|]; split; [repeat constructor; cbn; lia|]);
    repeat (constructor; [cbn; intros H; repeat (destruct H as [H|H]); (contradiction || discriminate || (injection H; intros; lia))|]); constructor.
Qed.
Lemma t_truncate_local a x : tidy (truncate_local prf colo a x).
Proof.
  intros s. unfold truncate_local, mk_priv. cbn. destruct (_ && _); cbn; (split; [unfold below; cbn; lia|]; split; [repeat constructor; cbn; unfold nonce; cbn; lia|nodup]).
Qed.
Lemma t_truncate_secureq8 a x : tidy (truncate_secureq8 prf colo a x).
Proof.
  unfold truncate_secureq8. apply t_bind; [apply q_tidy, q_assert|]. intros _ s.
  unfold bind, get, draw, draw_local, op1, op2, op3, copy, op1, update_pairwise, next_local, bind, draw, mk_priv. cbn [vd vz app n0 n1 n2 nb nl].
  destruct (_ && _); unfold log_of, state_of; cbn [fst snd uses flat_map app ret raise n0 n1 n2 nb nl];
    (split; [unfold below; cbn; lia|]; split; [repeat constructor; cbn; unfold nonce; cbn; lia|nodup]).
Qed.
Lemma t_ots i g (m0 m1 c1 c2 c3 c4 : pv) : 0 <= i < 3 ->
  tidy (do st <- get;
        do z11 <- ot prf (srv i) (srv (i + 1)) (srv (i + 2)) g m0 m1 c1 c2 (KP (i mod 3)) (KP (i mod 3)) (nonce (i + 2) st);
        do z20 <- ot prf (srv i) (srv (i + 2)) (srv (i + 1)) g m0 m1 c3 c4 (KP ((i + 1) mod 3)) (KP ((i + 1) mod 3)) (nonce i st);
        do _ <- update_pairwise; ret (z11, z20)).
Proof.
  intros Hi s. assert (C : i = 0 \/ i = 1 \/ i = 2) by lia.
  destruct C as [ -> | [ -> | -> ] ]; cbn; (split; [unfold below; cbn; lia|]; split; [repeat constructor; cbn; unfold nonce; cbn; lia|nodup]).
Qed.
Lemma bind_assoc {A B C} (m : M A) (k : A -> M B) (h : B -> M C) s : bind (bind m k) h s = bind m (fun a => bind (k a) h) s.
Proof.
  unfold bind. destruct (m s) as [[s1 l1] [a|e]]; [|reflexivity]. destruct (k a s1) as [[s2 l2] [b|e]].
  - destruct (h b s2) as [[s3 l3] r]. rewrite app_assoc. reflexivity.
  - reflexivity.
Qed.
Lemma t_eq {A} (m m' : M A) : (forall s, m s = m' s) -> tidy m' -> tidy m.
Proof. intros E H s. rewrite E. apply H. Qed.
Lemma bind_ext {A B} (m : M A) (k k' : A -> M B) s : (forall a s, k a s = k' a s) -> bind m k s = bind m k' s.
Proof. intros E. unfold bind. destruct (m s) as [[s1 l1] [a|e]]; [|reflexivity]. rewrite E. reflexivity. Qed.
Lemma bind_ret {A B} (a : A) (k : A -> M B) s : bind (ret a) k s = k a s.
Proof. unfold bind, ret. destruct (k a s) as [[s1 l1] r]. reflexivity. Qed.
Lemma t_ots_then {A} i g (m0 m1 c1 c2 c3 c4 : pv) (k : pv -> pv -> M A) : 0 <= i < 3 -> (forall u v, quiet (k u v)) ->
  tidy (do st <- get;
        do z11 <- ot prf (srv i) (srv (i + 1)) (srv (i + 2)) g m0 m1 c1 c2 (KP (i mod 3)) (KP (i mod 3)) (nonce (i + 2) st);
        do z20 <- ot prf (srv i) (srv (i + 2)) (srv (i + 1)) g m0 m1 c3 c4 (KP ((i + 1) mod 3)) (KP ((i + 1) mod 3)) (nonce i st);
        do _ <- update_pairwise; k z11 z20).
Proof.
  intros Hi Q. eapply t_eq; [|apply (t_bind _ (fun p => k (fst p) (snd p)) (t_ots i g m0 m1 c1 c2 c3 c4 Hi)); intros p; apply q_tidy, Q].
  intros s. rewrite bind_assoc. apply bind_ext. intros st s'. rewrite bind_assoc. apply bind_ext. intros z11 s''. rewrite bind_assoc. apply bind_ext.
  intros z20 s3. rewrite bind_assoc. apply bind_ext. intros ? s4. rewrite bind_ret. reflexivity.
Qed.
Lemma t_mul_ab_routine g sc a b i : 0 <= i < 3 -> tidy (mul_ab_routine prf colo g sc a b i).
Proof.
  intros Hi. unfold mul_ab_routine. apply t_bind; [apply t_zero_sharing|]. intros [[s0 s1] s2].
  do 5 (apply t_bind; [apply q_tidy; quiet|intros ?]).
  apply (t_ots_then i g _ _ _ _ _ _ (fun z11 z20 => mk_priv colo _ _ _ _ _ _ _ _ _) Hi).
  intros z11 z20. quiet.
Qed.
End Draws.

(** * The operations built from them *)

Create HintDb tdb.
#[export] Hint Resolve t_update t_next t_zero_sharing t_random_sharing t_b2a_sharing t_share t_truncate_local t_truncate_secureq8 : tdb.
Ltac tstep :=
  first [ solve [simple apply q_tidy; quiet] | solve [auto with tdb nocore] | simple apply t_mul_ab_routine; lia
        | simple apply t_if | simple apply t_bind; [|intros]
        | match goal with |- tidy (let (_, _) := ?p in _) => destruct p end
        | match goal with |- tidy (match ?p with TPub _ => _ | TPriv _ => _ end) => destruct p end ].
Ltac tidy := repeat tstep.
Section Composed.
Context (prf : fac -> key -> Z -> nat -> Z) (colo : bool).
Lemma t_rss_mul ty f add mul sc x y : tidy (rss_mul prf colo ty f add mul sc x y). Proof. unfold rss_mul. tidy. Qed.
Hint Resolve t_rss_mul : tdb.
Lemma t_mul_raw x y : tidy (mul_pp_raw prf colo x y). Proof. unfold mul_pp_raw. tidy. Qed.
Hint Resolve t_mul_raw : tdb.
Lemma t_matmul_raw f sc xs ys : tidy (matmul_pp_raw prf colo f sc xs ys). Proof. unfold matmul_pp_raw. tidy. Qed.
Hint Resolve t_matmul_raw : tdb.
Lemma t_and x y : tidy (and_pp prf colo x y). Proof. unfold and_pp. tidy. Qed.
Hint Resolve t_and : tdb.
Lemma t_or x y : tidy (or_pp prf colo x y). Proof. unfold or_pp. tidy. Qed.
Hint Resolve t_or : tdb.
Lemma t_truncate_heuristic sc a x : tidy (truncate_heuristic prf colo sc a x). Proof. unfold truncate_heuristic. tidy. Qed.
Hint Resolve t_truncate_heuristic : tdb.
Lemma t_mul_ab_qp x y : tidy (mul_ab_qp prf colo x y). Proof. unfold mul_ab_qp. tidy. Qed.
Hint Resolve t_mul_ab_qp : tdb.
Lemma t_mul_ab_pp x y : tidy (mul_ab_pp prf colo x y). Proof. unfold mul_ab_pp. tidy. Qed.
Hint Resolve t_mul_ab_pp : tdb.
Lemma t_b2a_single g x : tidy (b2a_single prf colo g x). Proof. unfold b2a_single. tidy. Qed.
Hint Resolve t_b2a_single : tdb.
Lemma t_mul_pp sc x y : tidy (mul_pp prf colo sc x y). Proof. unfold mul_pp. tidy. Qed.
Hint Resolve t_mul_pp : tdb.
Lemma t_mul_pq sc x y : tidy (mul_pq prf colo sc x y). Proof. unfold mul_pq. tidy. Qed.
Hint Resolve t_mul_pq : tdb.
Lemma t_ks_round i G P : tidy (ks_round prf colo i G P). Proof. unfold ks_round. tidy. Qed.
Hint Resolve t_ks_round : tdb.
Lemma t_ks_loop n : forall i G P, tidy (ks_loop prf colo n i G P). Proof. induction n as [|n IH]; intros i G P; cbn [ks_loop]; tidy. Qed.
Hint Resolve t_ks_loop : tdb.
Lemma t_ppa_ks x y nb : tidy (ppa_ks prf colo x y nb). Proof. unfold ppa_ks. tidy. Qed.
Hint Resolve t_ppa_ks : tdb.
Lemma t_sk_copy_loop n : forall j G, tidy (sk_copy_loop colo n j G). Proof. induction n as [|n IH]; intros j G; cbn [sk_copy_loop]; tidy. Qed.
Hint Resolve t_sk_copy_loop : tdb.
Lemma t_sk_round i G P : tidy (sk_round prf colo i G P). Proof. unfold sk_round. tidy. Qed.
Hint Resolve t_sk_round : tdb.
Lemma t_sk_loop n : forall i G P, tidy (sk_loop prf colo n i G P). Proof. induction n as [|n IH]; intros i G P; cbn [sk_loop]; tidy. Qed.
Hint Resolve t_sk_loop : tdb.
Lemma t_ppa_sk x y nb : tidy (ppa_sk prf colo x y nb). Proof. unfold ppa_sk. tidy. Qed.
Hint Resolve t_ppa_sk : tdb.
Lemma t_a2b_operands x : tidy (a2b_operands prf colo x). Proof. unfold a2b_operands. tidy. Qed.
Hint Resolve t_a2b_operands : tdb.
Lemma t_a2b nb x : tidy (a2b prf colo nb x). Proof. unfold a2b. tidy. Qed.
Hint Resolve t_a2b : tdb.
Lemma t_carry_loop n : forall k G P, tidy (carry_loop prf colo n k G P). Proof. induction n as [|n IH]; intros k G P; cbn [carry_loop]; tidy. Qed.
Hint Resolve t_carry_loop : tdb.
Lemma t_carry x y p : tidy (carry prf colo x y p). Proof. unfold carry. tidy. Qed.
Hint Resolve t_carry : tdb.
Lemma t_bit_extract x i : tidy (bit_extract prf colo x i). Proof. unfold bit_extract. tidy. Qed.
Hint Resolve t_bit_extract : tdb.
Lemma t_msb x : tidy (msb prf colo x). Proof. unfold msb. tidy. Qed.
Hint Resolve t_msb : tdb.
Lemma t_b2a_ppa x : tidy (b2a_ppa prf colo x). Proof. unfold b2a_ppa. tidy. Qed.
Hint Resolve t_b2a_ppa : tdb.
Lemma t_less x y : tidy (less_than prf colo x y). Proof. unfold less_than. tidy. Qed.
Hint Resolve t_less : tdb.
Lemma t_less_pq x y : tidy (less_than_pq prf colo x y). Proof. unfold less_than_pq. tidy. Qed.
Hint Resolve t_less_pq : tdb.
Lemma t_less_qp x y : tidy (less_than_qp prf colo x y). Proof. unfold less_than_qp. tidy. Qed.
Hint Resolve t_less_qp : tdb.
Lemma t_greater x y : tidy (greater_than prf colo x y). Proof. unfold greater_than. tidy. Qed.
Hint Resolve t_greater : tdb.
Lemma t_equal_zero x : tidy (equal_zero prf colo x). Proof. unfold equal_zero. tidy. Qed.
Hint Resolve t_equal_zero : tdb.
Lemma t_equal x y : tidy (equal prf colo x y). Proof. unfold equal. tidy. Qed.
Hint Resolve t_equal : tdb.
Lemma t_select c x y : tidy (select prf colo c x y). Proof. unfold select. tidy. Qed.
Hint Resolve t_select : tdb.
Lemma t_maximum x y : tidy (maximum prf colo x y). Proof. unfold maximum. tidy. Qed.
Hint Resolve t_maximum : tdb.
Lemma t_cmp_swap x y : tidy (cmp_swap prf colo x y). Proof. unfold cmp_swap. tidy. Qed.
Hint Resolve t_cmp_swap : tdb.
Lemma t_relu x : tidy (relu prf colo x). Proof. unfold relu. tidy. Qed.
Hint Resolve t_relu : tdb.

Lemma t_mapM {A B} (f : A -> M B) xs : (forall x, tidy (f x)) -> tidy (mapM f xs).
Proof. intros H. induction xs as [|x xs IH]; cbn [mapM]; tidy. Qed.
Lemma q_mapM {A B} (f : A -> M B) xs : (forall x, quiet (f x)) -> quiet (mapM f xs).
Proof. intros H. induction xs as [|x xs IH]; cbn [mapM]; quiet. Qed.
Lemma t_tree {A} (op : A -> A -> M A) fuel : (forall x y, tidy (op x y)) -> forall xs, tidy (tree op fuel xs).
Proof.
  intros H. induction fuel as [|fuel IH]; intros xs; destruct xs as [|x [|y xs]]; cbn [tree]; tidy.
Qed.
Lemma t_vector_max fuel : forall xs, tidy (vector_max prf colo fuel xs).
Proof.
  induction fuel as [|fuel IH]; intros xs; destruct xs as [|x [|y xs]]; cbn [vector_max]; tidy. apply t_mapM. intros p. tidy.
Qed.
Hint Resolve t_vector_max : tdb.
Lemma t_b2a_bits g nb x : tidy (b2a_bits prf colo g nb x).
Proof. unfold b2a_bits. tidy. apply t_mapM. intros t. tidy. Qed.
Hint Resolve t_b2a_bits : tdb.
Lemma t_b2a g nb p x : tidy (b2a prf colo g nb p x). Proof. unfold b2a. tidy. Qed.
Hint Resolve t_b2a : tdb.
Lemma t_prod sc xs : tidy (prod prf colo sc xs). Proof. apply t_tree. intros. tidy. Qed.
Lemma t_reduce_max_tree xs : tidy (reduce_max_tree prf colo xs). Proof. apply t_tree. intros. tidy. Qed.
Lemma t_reduce_max_all xs : tidy (reduce_max_all prf colo xs). Proof. apply t_vector_max. Qed.
Lemma t_select_t c x y : tidy (select_t prf colo c x y). Proof. unfold select_t. destruct x, y; tidy. Qed.
Hint Resolve t_select_t : tdb.
Lemma t_select_b c x y : tidy (select_b prf colo c x y). Proof. unfold select_b. destruct x, y; tidy. Qed.
Hint Resolve t_select_b : tdb.
Lemma t_argmax_node l r : tidy (argmax_node prf colo l r). Proof. unfold argmax_node. tidy. Qed.
Lemma t_argmax g sc xs : tidy (argmax prf colo g sc xs).
Proof. unfold argmax. apply t_bind; [apply t_mapM; intros; tidy|]. intros idx. apply t_tree. exact t_argmax_node. Qed.
Lemma t_onehot_node l r : tidy (onehot_node prf colo l r). Proof. unfold onehot_node. tidy. apply t_mapM. intros. tidy. Qed.
Lemma t_argmax_onehot xs : tidy (argmax_onehot prf colo xs).
Proof. unfold argmax_onehot. apply t_bind; [apply t_mapM; intros; apply t_mapM; intros; tidy|]. intros idx. apply t_tree. exact t_onehot_node. Qed.
Lemma t_pow_loop sc p : forall r t, tidy (pow_loop prf colo sc p r t).
Proof. induction p as [p IH|p IH|]; intros r t; cbn [pow_loop]; destruct r; tidy. Qed.
Hint Resolve t_pow_loop : tdb.
Lemma t_pow sc x p : tidy (pow prf colo sc x p). Proof. unfold pow. apply t_bind; [tidy|]. intros _. destruct p; tidy. Qed.
Hint Resolve t_pow : tdb.
Lemma t_poly_terms sc x cs : forall i r, tidy (poly_terms prf colo sc x i cs r).
Proof. induction cs as [|c cs IH]; intros i r; cbn [poly_terms]; tidy. Qed.
Hint Resolve t_poly_terms : tdb.
Lemma t_polynomial sc x cs : tidy (polynomial prf colo sc x cs). Proof. unfold polynomial. destruct cs; tidy. Qed.
Lemma t_piecewise x c fs : tidy (piecewise prf colo x c fs).
Proof. unfold piecewise. repeat (apply t_bind; [first [apply t_mapM; intros; tidy|tidy]|intros]). tidy. Qed.
Lemma t_sort_step acc i xs : tidy (sort_step prf colo acc i xs).
Proof. unfold sort_step. repeat (apply t_bind; [apply t_mapM; intros; tidy|intros]). apply t_mapM. intros. tidy. Qed.
Hint Resolve t_sort_step : tdb.
Lemma t_sort_loop acc is_ : forall xs, tidy (sort_loop prf colo acc is_ xs).
Proof. induction is_ as [|i is_ IH]; intros xs; cbn [sort_loop]; tidy. Qed.
Hint Resolve t_sort_loop : tdb.
Lemma t_sort acc xs : tidy (sort_private prf colo acc xs).
Proof. unfold sort_private. destruct xs as [|x xs]; [tidy|]. apply t_bind; [tidy|]. intros pad. destruct (stages _); tidy. Qed.
Lemma t_local_computation d ty f sc g args : tidy (local_computation prf colo d ty f sc g args).
Proof.
  unfold local_computation. apply t_bind; [|intros; tidy]. apply t_mapM. intros [x|x]; unfold local_input; tidy.
Qed.
Theorem program_tidy {A} (m : M A) : program prf colo A m -> tidy m.
Proof.
  intros P. induction P; try solve [tidy]; try (simple apply q_tidy; quiet; fail).
  all: auto using t_tree, t_prod, t_reduce_max_tree, t_reduce_max_all, t_argmax, t_argmax_onehot, t_polynomial, t_piecewise, t_sort, t_local_computation, t_bind.
Qed.
End Composed.
