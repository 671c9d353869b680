(** Freshness of masks, computations at a player, and what a server sees of whole programs. *)
From Verif Require Import Base TensorModel Aby3Model Aby3Spec Aby3NetModel Aby3Bits Aby3Proofs Aby3Props Aby3TraceModel Aby3TraceSpec Aby3Fresh Aby3View Aby3Hide Aby3Draws Aby3Whole Aby3Spec.
From Coq Require Import Lia.

(** ** C59: nonces are fresh in a trace *)

(** No machine expands the same part of a seed and nonce twice. *)
Theorem C59_each_once : forall prf colo A (m : M A) s, program prf colo A m -> NoDup (uses (log_of (m s))).
Proof. intros prf colo A m s P. apply (program_tidy prf colo m P). Qed.
Print Assumptions C59_each_once.
(** A later program never uses a seed and nonce of an earlier one, on any machine. *)
Theorem C59_operations_disjoint : forall prf colo A B (m : M A) (k : M B) s u v, program prf colo A m -> program prf colo B k ->
  In u (uses (log_of (m s))) -> In v (uses (log_of (k (state_of (m s))))) -> seed_of u <> seed_of v.
Proof.
  intros prf colo A B m k s [[[d q] n] i] [[[d' q'] n'] i'] P Q I J E. cbn in E. injection E; intros; subst q' n'.
  destruct (program_tidy prf colo m P s) as (_ & F & _). destruct (program_tidy prf colo k Q (state_of (m s))) as (_ & F' & _). rewrite Forall_forall in F, F'.
  specialize (F _ I). specialize (F' _ J). cbn in F, F'. lia.
Qed.
Print Assumptions C59_operations_disjoint.
(** Counters never go back, whatever the program does, also when it raises. *)
Theorem C59_counters : forall prf colo A (m : M A) s, program prf colo A m ->
  n0 s <= n0 (state_of (m s)) /\ n1 s <= n1 (state_of (m s)) /\ n2 s <= n2 (state_of (m s)) /\ nb s <= nb (state_of (m s)) /\ nl s <= nl (state_of (m s)).
Proof. intros prf colo A m s P. apply (program_tidy prf colo m P). Qed.
Print Assumptions C59_counters.
Definition ex_prog : M priv := bind (share ex_prf false Arith (FI 64) 5 true) (fun x => bind (share ex_prf false Arith (FI 64) (-7) true) (fun y =>
  bind (mul_pp ex_prf false 8 x y) (fun z => bind (less_than ex_prf false x y) (fun c => select ex_prf false c z x)))).
Definition eq_use (u v : use) : {u = v} + {u <> v}.
Proof. repeat decide equality. Defined.
Lemma in_dec_true {A} (D : forall a b : A, {a = b} + {a <> b}) a l : (if in_dec D a l then true else false) = true -> In a l.
Proof. destruct (in_dec D a l); [auto|discriminate]. Qed.
Example C59_nonvacuous : program ex_prf false priv ex_prog /\ length (uses (log_of (ex_prog ex_st))) = 141%nat /\
  In (S0, KP 0, 1, 0%nat) (uses (log_of (ex_prog ex_st))) /\ In (S2, KP 2, 0, 0%nat) (uses (log_of (ex_prog ex_st))).
Proof.
  split; [unfold ex_prog; repeat (apply PBind; [constructor|intros]); constructor|]. split; [vm_compute; reflexivity|].
  split; apply (in_dec_true eq_use); vm_compute; reflexivity.
Qed.

(** ** C60: masks are not fresh on every execution *)

(** What a server computes of a product on its own, from the shares it holds. *)
Definition products (x y : priv) : Z := vz (p10 x) * vz (p10 y) + vz (p10 x) * vz (p11 y) + vz (p11 x) * vz (p10 y).
(** Two executions of a compiled product expand the same seeds and nonces, and server 0 receives from server 1 two words whose
    difference is that of server 1's unmasked products. *)
Theorem C60_mul_executions_refuted : forall prf colo n x y x' y' trace draws, 0 < n -> pfc x = FI n -> pfc x' = FI n ->
  exists l l' z z', executions (fun xy => mul_pp_raw prf colo (fst xy) (snd xy)) trace draws [(x, y); (x', y')] = [(l, Ok z); (l', Ok z')] /\
    uses l' = uses l /\ uses l <> [] /\ In (Saw S0 (vz (p01 z))) l /\ In (Saw S0 (vz (p01 z'))) l' /\
    (vz (p01 z') - vz (p01 z)) mod 2 ^ n = (products x' y' - products x y) mod 2 ^ n.
Proof.
  intros prf colo n x y x' y' trace draws Hn E E'. unfold executions. cbn [fst snd]. unfold mul_pp_raw. rewrite E, E'.
  destruct colo; cbn -[swrap Z.pow]; rewrite E, E'; cbn -[swrap Z.pow]; (do 4 eexists; split; [reflexivity|]; split; [reflexivity|]; split; [discriminate|];
  split; [cbn; tauto|]; split; [cbn; tauto|]; cbn [p01 vz]; unfold products; match goal with |- ?a mod _ = ?b mod _ => change (eqm (2 ^ n) a b) end; eqm_ring n Hn).
Qed.
Print Assumptions C60_mul_executions_refuted.
(** The same for the conjunction of boolean sharings. *)
Definition conjunctions (x y : priv) : Z := Z.lxor (Z.lxor (Z.land (vz (p10 x)) (vz (p10 y))) (Z.land (vz (p10 x)) (vz (p11 y)))) (Z.land (vz (p11 x)) (vz (p10 y))).
Theorem C60_and_executions_refuted : forall prf colo f x y x' y' trace draws,
  pty x = Bool_ -> pty y = Bool_ -> pty x' = Bool_ -> pty y' = Bool_ -> pfc x = f -> pfc y = f -> pfc x' = f -> pfc y' = f ->
  exists l l' z z', executions (fun xy => and_pp prf colo (fst xy) (snd xy)) trace draws [(x, y); (x', y')] = [(l, Ok z); (l', Ok z')] /\
    uses l' = uses l /\ uses l <> [] /\ In (Saw S0 (vz (p01 z))) l /\ In (Saw S0 (vz (p01 z'))) l' /\
    Z.lxor (vz (p01 z')) (vz (p01 z)) = Z.lxor (conjunctions x' y') (conjunctions x y).
Proof.
  intros prf colo f x y x' y' trace draws T1 T2 T3 T4 E1 E2 E3 E4. unfold executions. cbn [fst snd]. unfold and_pp, is_arith, assert_. rewrite T1, T2, T3, T4, E1, E2, E3, E4.
  assert (R : fac_eqb f f = true) by (apply fac_eqb_eq; reflexivity). rewrite R.
  unfold rss_mul. rewrite T1, T3, E1, E3.
  destruct colo; cbn; (do 4 eexists; split; [reflexivity|]; split; [reflexivity|]; split; [discriminate|];
  split; [cbn; tauto|]; split; [cbn; tauto|]; cbn [p01 vz]; unfold conjunctions, cross; bitblast).
Qed.
Print Assumptions C60_and_executions_refuted.
(** Truncation by the cheetah method expands the same part of a seed and nonce twice on one machine, in one execution. *)
Theorem C60_cheetah_refuted : forall prf amount x n s, pty x = Arith -> pfc x = FI n -> ~ NoDup (uses (log_of (truncate_cheetah prf true amount x s))).
Proof.
  intros prf amount [a b c d e f sc ty fc] n [s0 s1 s2 sb sl] T E. cbn [pty pfc] in T, E. subst ty fc.
  intros N. match type of N with NoDup ?l => let l' := eval lazy -[swrap wshr wadd wsub wneg wmul wshl Z.lxor fcast Z.add fnot] in l in change (NoDup l') in N end.
  apply NoDup_cons_iff in N. destruct N as [_ N]. apply NoDup_cons_iff in N. destruct N as [X _]. apply X. cbn; tauto.
Qed.
Print Assumptions C60_cheetah_refuted.
(** Sharings are fresh: the executions of a compiled sharing draw new seeds every time. *)
Lemma share_run prf colo ty f a sc s : nl (state_of (share prf colo ty f a sc s)) = nl s + 2 /\
  Forall (fun u => seed_of u = (KS (nl s), 0) \/ seed_of u = (KS (nl s + 1), 0)) (uses (log_of (share prf colo ty f a sc s))).
Proof.
  split; [destruct colo; cbn; lia|].
  destruct colo; cbn; repeat apply Forall_cons; try apply Forall_nil; cbn; auto.
Qed.
Lemma share_executions prf colo ty f sc trace inputs : forall draws i l r,
  nth_error (executions (fun a => share prf colo ty f a sc) trace draws inputs) i = Some (l, r) ->
  Forall (fun u => exists o, (o = 0 \/ o = 1) /\ seed_of u = (KS (draws + 2 * Z.of_nat i + o), 0)) (uses l).
Proof.
  induction inputs as [|a inputs IH]; intros draws i l r E; [destruct i; discriminate|]. cbn [executions] in E.
  set (s := MkSt (n0 trace) (n1 trace) (n2 trace) (nb trace) draws) in *. destruct (share_run prf colo ty f a sc s) as [N U].
  destruct (share prf colo ty f a sc s) as [[s' l0] r0]. cbn [state_of log_of fst snd] in N, U. change (nl s) with draws in N, U. destruct i as [|i]; cbn [nth_error] in E.
  - injection E; intros; subst l r. eapply Forall_impl; [|exact U]. intros u [->| ->]; [exists 0|exists 1]; (split; [auto|]); f_equal; f_equal; cbn; lia.
  - apply IH in E. rewrite N in E. eapply Forall_impl; [|exact E]. intros u (o & O & ->). exists o. split; [exact O|]. f_equal. f_equal. lia.
Qed.
Theorem C60_share_fresh : forall prf colo ty f sc trace draws inputs i j l l' r r' u v,
  nth_error (executions (fun a => share prf colo ty f a sc) trace draws inputs) i = Some (l, r) ->
  nth_error (executions (fun a => share prf colo ty f a sc) trace draws inputs) j = Some (l', r') ->
  i <> j -> In u (uses l) -> In v (uses l') -> seed_of u <> seed_of v.
Proof.
  intros prf colo ty f sc trace draws inputs i j l l' r r' u v E E' D I J Q. apply share_executions in E, E'. rewrite Forall_forall in E, E'.
  destruct (E _ I) as (o & O & S), (E' _ J) as (o' & O' & S'). rewrite S, S' in Q. apply (f_equal (fun q => match fst q with KS k => k | _ => 0 end)) in Q. cbn [fst] in Q. lia.
Qed.
Print Assumptions C60_share_fresh.
Definition ex_x := MkPr (MkV S0 11) (MkV S0 22) (MkV S1 22) (MkV S1 33) (MkV S2 33) (MkV S2 11) true Arith (FI 64).
Definition ex_c := MkPr (MkV S0 1100) (MkV S0 22) (MkV S1 22) (MkV S1 (-354)) (MkV S2 (-354)) (MkV S2 1100) true Arith (FI 64).
Definition ex_y := MkPr (MkV S0 (-3)) (MkV S0 4) (MkV S1 4) (MkV S1 5) (MkV S2 5) (MkV S2 (-3)) true Arith (FI 64).
Definition ex_b := MkPr (MkV S0 1) (MkV S0 0) (MkV S1 0) (MkV S1 1) (MkV S2 1) (MkV S2 1) false Bool_ FB.
Example C60_nonvacuous : pfc ex_x = FI 64 /\ products ex_x ex_y <> products ex_y ex_y /\ pty ex_x = Arith /\ pty ex_b = Bool_ /\ pfc ex_b = FB /\
  ok_val (bind (truncate_cheetah ex_prf true 8 ex_c) (reveal true) ex_st) = Some 2 /\
  length (executions (fun a => share ex_prf false Arith (FI 64) a true) ex_st 0 [5; 6; 7]) = 3%nat.
Proof. repeat split; try discriminate; vm_compute; reflexivity. Qed.

(** ** C61: computations at a player *)

(** Inputs with the share type of the output are rebuilt. *)
Theorem C61_inputs : forall d x v, (forall n, 0 < n -> arith n x v -> yields (local_input Arith d (TPriv x)) (fun r => r = MkV d v)) /\
  (forall f, boolean f x v -> yields (local_input Bool_ d (TPriv x)) (fun r => r = MkV d v)).
Proof.
  intros d [a b c e f g sc ty fc] v. split; intros n.
  - intros Hn H. assert (T : ty = Arith) by apply H. subst ty. exact (reconstruct_arith n _ v d Hn H).
  - intros H. assert (T : ty = Bool_) by apply H. subst ty. exact (reconstruct_bool n _ v d H).
Qed.
Print Assumptions C61_inputs.
(** A player's computation of [g] on such inputs: the result, as a word of the output's width, is shared. *)
Definition input_of (ty : sty) (t : tens) (v : Z) : Prop :=
  exists x, t = TPriv x /\ match ty with Arith => exists n, 0 < n /\ arith n x v | Bool_ => exists f, boolean f x v end.
Definition output_of (ty : sty) (n : Z) (z : priv) (v : Z) : Prop :=
  exists w, wrapped n v w /\ match ty with Arith => arith n z w | Bool_ => boolean (FI n) z w end.
Theorem C61_computation : forall prf colo d ty n sc g args vs, prf_words prf -> 0 < n -> Forall2 (input_of ty) args vs ->
  yields (local_computation prf colo d ty (FI n) sc g args) (fun z => output_of ty n z (g vs) /\ psc z = sc).
Proof.
  intros prf colo d ty n sc g args vs W Hn F. unfold local_computation.
  apply (y_bind _ _ (fun ws => ws = map (MkV d) vs)).
  - induction F as [|t v args vs (x & -> & H) F IH]; [intros s; eexists; split; reflexivity|]. cbn [mapM map].
    apply (y_bind _ _ (fun r => r = MkV d v)).
    { destruct ty; [destruct H as (n' & Hn' & H); exact (proj1 (C61_inputs d x v) n' Hn' H)|destruct H as (f & H); exact (proj2 (C61_inputs d x v) f H)]. }
    intros r ->. apply (y_bind _ _ _ _ IH). intros ws ->. intros s. eexists. split; reflexivity.
  - intros ws ->. rewrite map_map. cbn [vz]. rewrite map_id.
    assert (V : word (FI n) (fcast (FI n) (g vs))) by (apply swrap_range, Hn).
    assert (Q : wrapped n (g vs) (fcast (FI n) (g vs))) by (split; [exact V|apply (swrap_eqm n); exact Hn]).
    destruct ty.
    + apply (y_weaken _ _ _ (C43_share_arithmetic prf colo n _ sc W Hn V)). intros z [A B]. split; [|exact B]. eexists; split; [exact Q|exact A].
    + apply (y_weaken _ _ _ (C43_share_boolean prf colo (FI n) _ sc W Hn V)). intros z [A B]. split; [|exact B]. eexists; split; [exact Q|exact A].
Qed.
Print Assumptions C61_computation.
(** A boolean sharing given to a computation with an arithmetic output is rebuilt by adding its shares, which is not its value. *)
Theorem C61_boolean_input : forall n x v d, 0 < n -> boolean (FI n) x v ->
  yields (local_input Arith d (TPriv x)) (fun r => wrapped n (vz (p00 x) + vz (p10 x) + vz (p20 x)) (vz r)).
Proof.
  intros n x v d Hn H. destruct (bool_inv _ _ _ H) as (a & b & c & -> & Ha & Hb & Hc & Hv).
  intros s. assert (A : arith n (mk3 Arith (FI n) (psc x) a b c) (swrap n (a + b + c))) by (apply arith_mk; [assumption..|apply swrap_range, Hn|symmetry; apply (swrap_eqm n), Hn]).
  destruct (reconstruct_arith n _ _ d Hn A s) as (r & E & ->). exists (MkV d (swrap n (a + b + c))). split; [exact E|].
  split; [apply swrap_range, Hn|]. cbn. apply (swrap_eqm n), Hn.
Qed.
Print Assumptions C61_boolean_input.
Definition ex_w := MkPr (MkV S0 3) (MkV S0 5) (MkV S1 5) (MkV S1 1) (MkV S2 1) (MkV S2 3) false Bool_ (FI 64).
Theorem C61_boolean_input_refuted : boolean (FI 64) ex_w 7 /\ forall d s, exists r, snd (local_input Arith d (TPriv ex_w) s) = Ok r /\ vz r = 9.
Proof. split; [repeat split; cbn; lia|]. intros d s. exists (MkV d 9). split; [destruct d; vm_compute; reflexivity|reflexivity]. Qed.
Print Assumptions C61_boolean_input_refuted.
(** A public argument raises. *)
Theorem C61_public_refuted : forall prf colo d ty f sc g q args, raises (local_computation prf colo d ty f sc g (TPub q :: args)) ValueError.
Proof. intros prf colo d ty f sc g q args s. reflexivity. Qed.
Print Assumptions C61_public_refuted.
Example C61_nonvacuous : Forall2 (input_of Arith) [TPriv ex_x; TPriv ex_y] [66; 6] /\ boolean (FI 64) ex_w 7 /\
  ok_val (bind (local_computation ex_prf false Prov Arith (FI 64) true (fun vs => nth 0 vs 0 * nth 1 vs 0) [TPriv ex_x; TPriv ex_y]) (reveal false) ex_st) = Some 396.
Proof.
  split; [|split; [repeat split; cbn; lia|vm_compute; reflexivity]].
  repeat constructor; eexists; (split; [reflexivity|]); exists 64; (split; [lia|]); repeat split; cbn; lia.
Qed.

(** ** C63: what a server sees of a whole program *)

(** For all secret inputs and all words of the random functions, there are words with which the program run on other secrets
    gives this server the same view, the same shares of all results, and the same outcome; they differ only at places drawn, and they
    are the only words that give this view.  So what a server sees is as likely for one choice of secrets as for another. *)
Theorem C63_whole_programs : forall colo d secrets secrets' c s prf, server d -> prf_words prf ->
  let run p sec := run_circuit p colo sec [] c s in
  exists prf', prf_words prf' /\
    (forall f k n i, ~ drawn (log_of (run prf secrets)) f k n i -> prf' f k n i = prf f k n i) /\
    seeds (log_of (run prf' secrets')) = seeds (log_of (run prf secrets)) /\
    view d (run prf' secrets') = view d (run prf secrets) /\
    kinds (snd (run prf' secrets')) = kinds (snd (run prf secrets)) /\
    kepts d (snd (run prf' secrets')) = kepts d (snd (run prf secrets)) /\
    forall prf'', prf_words prf'' -> view d (run prf'' secrets') = view d (run prf secrets) ->
      forall f k n i, drawn (log_of (run prf secrets)) f k n i -> prf'' f k n i = prf' f k n i.
Proof.
  intros colo d secrets secrets' c s prf Sv W run.
  destruct (w_circuit colo d Sv secrets secrets' c [] [] (Forall2_nil _) s prf W) as (p & Wp & O & Se & _ & V & Mt & U).
  exists p. split; [exact Wp|]. split; [exact O|]. split; [exact Se|]. split; [exact V|].
  assert (K : forall xs xs', Forall2 (twins d) xs xs' -> map kind xs' = map kind xs /\ map (kept d) xs' = map (kept d) xs).
  { induction 1 as [|x x' xs xs' (ty & f & sc & a & b & e & a' & b' & e' & -> & -> & _ & _ & _ & _ & _ & _ & _ & Kn) _ [IH IH']]; [auto|].
    cbn [map]. rewrite IH, IH'. split; [reflexivity|]. f_equal. destruct Sv as [->|[->| ->]]; destruct Kn as [-> ->]; reflexivity. }
  unfold run. unfold matched in Mt. destruct (snd (run_circuit prf colo secrets [] c s)) as [xs|e], (snd (run_circuit p colo secrets' [] c s)) as [xs'|e']; try contradiction.
  - destruct (K xs xs' Mt) as [K1 K2]. cbn [kinds kepts]. rewrite K1, K2. split; [reflexivity|]. split; [reflexivity|].
    intros q Wq Vq. apply (U q [] [] Wq). rewrite !app_nil_r. exact Vq.
  - subst e'. split; [reflexivity|]. split; [reflexivity|]. intros q Wq Vq. apply (U q [] [] Wq). rewrite !app_nil_r. exact Vq.
Qed.
Print Assumptions C63_whole_programs.
Definition ex_circuit : list gate :=
  [GInput 0 Arith (Some 64%positive) true; GInput 1 Arith (Some 64%positive) true; GMul 8 0 1; GLess 0 1; GSelect 3 0 2; GRelu 4; GToBool 0 None; GDot true [0; 1]%nat [1; 2]%nat;
   GCmpSwap 4 0].
Definition seen (t : Z) (e : ev) : Z := match e with Saw _ v => t + v | _ => t end.
Example C63_nonvacuous : prf_words ex_prf /\
  match snd (run_circuit ex_prf false [1000; -77] [] ex_circuit ex_st) with Ok xs => length xs = 10%nat | Err _ => False end /\
  view S0 (run_circuit ex_prf false [1000; -77] [] ex_circuit ex_st) <> view S0 (run_circuit ex_prf false [5; 9] [] ex_circuit ex_st).
Proof.
  split; [exact ex_prf_words|]. split.
  - vm_compute. reflexivity.
  - intros E. assert (N : fold_left seen (view S0 (run_circuit ex_prf false [1000; -77] [] ex_circuit ex_st)) 0 =?
        fold_left seen (view S0 (run_circuit ex_prf false [5; 9] [] ex_circuit ex_st)) 0 = false) by (vm_compute; reflexivity).
    rewrite E, Z.eqb_refl in N. discriminate N.
Qed.
