(** C109: compiled functions and loops return what the undecorated ones do (ABY3). *)
From Coq Require Import Lia.
From Verif Require Import Base TensorModel Aby3Model Aby3Spec Aby3Proofs Aby3Props LoopModel LoopSpec LoopProofs.

(** ** Functions *)

(** What a function returns for every state of the random numbers, it returns compiled too: when it is traced
    and in later calls.  Its arguments and results may be nested in tuples and lists; tuples become lists. *)
Theorem C109_function : forall colo trace func args (P : arg lvar -> Prop),
  Forall (all_of at_home) args -> Forall (all_of usual_size) args ->
  yields (func (map listed args)) (fun r => P (listed r) /\ all_of at_home r /\ all_of usual_size r) ->
  yields (function colo false trace func args) P.
Proof.
  intros colo trace func args P HA UA HF. exact (function_same colo false trace func args P HA UA (fun E => False_ind _ (Bool.diff_false_true E)) HF).
Qed.
Print Assumptions C109_function.
(** With arguments in lists, debug mode, which calls the function itself, and compilation agree up to tuples in the results. *)
Theorem C109_debug : forall colo debug trace func args (P : arg lvar -> Prop),
  Forall (all_of at_home) args -> Forall (all_of usual_size) args -> map listed args = args ->
  yields (func args) (fun r => P (listed r) /\ all_of at_home r /\ all_of usual_size r) ->
  yields (function colo debug trace func args) (fun r => P (listed r)).
Proof.
  intros colo debug trace func args P HA UA E HF.
  assert (L : forall a, listed (listed a) = listed a).
  { induction a as [v|t l IH] using arg_ind2; [reflexivity|]. cbn. f_equal. rewrite map_map. induction IH as [|a l Ha _ IHl]; cbn; congruence. }
  destruct debug.
  - eapply y_weaken; [exact HF|]. intros r H. apply H.
  - apply (C109_function colo trace func args (fun r => P (listed r)) HA UA). rewrite E. eapply y_weaken; [exact HF|]. intros r (H1 & H2). rewrite L. auto.
Qed.
Print Assumptions C109_debug.
(** Crossing into a graph and back changes no share: tensors come back word for word, with their flags. *)
Theorem C109_crossing : forall colo trace args, Forall (all_of at_home) args -> Forall (all_of usual_size) args ->
  yields (function colo false trace (fun a => ret (ASeq _ true a)) args) (fun r => r = ASeq _ false (map listed args)).
Proof.
  intros colo trace args HA UA. apply C109_function; [exact HA|exact UA|]. apply y_ret.
  assert (L : forall a, listed (listed a) = listed a).
  { induction a as [v|t l IH] using arg_ind2; [reflexivity|]. cbn. f_equal. rewrite map_map. induction IH as [|a l Ha _ IHl]; cbn; congruence. }
  assert (K : forall Q a, all_of Q a -> all_of Q (listed a)).
  { intro Q. induction a as [v|t l IH] using arg_ind2; [exact (fun H => H)|]. cbn. induction IH as [|a l Ha _ IHl]; cbn; [auto|]. intros [H1 H2]. split; [exact (Ha H1)|exact (IHl H2)]. }
  split; [cbn; f_equal; rewrite map_map; apply map_ext, L|].
  split; cbn; [clear UA|clear HA]; [induction HA as [|a l H _ IH]|induction UA as [|a l H _ IH]]; cbn; auto.
Qed.
Print Assumptions C109_crossing.

(** ** Loops *)

(** [c] and [f] are the loop on abstract values, [R] says which variables represent a value.  If the condition and the body
    follow them from every state of the random numbers, and the body keeps scaling, kind of sharing and word size, then eagerly
    and in a graph the loop makes the same number of iterations and ends in variables that represent the same value. *)
Theorem C109_loop : forall colo (A : Type) (R : A -> list lvar -> Prop) c f cond body vs0 a,
  (forall a vs, R a vs -> Forall at_home vs /\ Forall2 same_kind vs0 vs) ->
  (forall a vs, R a vs -> yields (cond vs) (fun b => b = c a)) ->
  (forall a vs, R a vs -> c a = true -> yields (body vs) (R (f a))) ->
  yields (body vs0) (Forall2 same_kind vs0) -> R a vs0 -> forall fuel,
  yields (while_eager fuel cond body vs0) (ends_in R (after fuel c f a)) /\
  yields (while_graph colo fuel cond body vs0) (ends_in R (after fuel c f a)).
Proof.
  intros colo A R c f cond body vs0 a HR Hc Hb T Ra fuel. split; [exact (eager_same A R c f cond body Hc Hb fuel a vs0 Ra)|].
  exact (graph_same colo A R c f cond body vs0 HR Hc Hb fuel a Ra T).
Qed.
Print Assumptions C109_loop.
(** In a graph the scaling, the kind of sharing and the word size of the results are those of the initial variables, whatever
    the body returned. *)
Theorem C109_graph_flags : forall colo fuel cond body vs s ws, snd (while_graph colo fuel cond body vs s) = Ok (Some ws) -> Forall2 same_kind vs ws.
Proof. exact graph_kinds. Qed.
Print Assumptions C109_graph_flags.

(** A body that turns an integer into a fixed-point number: it is correct eagerly and wrong in a graph. *)
Definition once (vs : list lvar) : M bool := match vs with LNat i :: _ => ret (i <? 1) | _ => raise TypeError end.
Definition scale_up prf colo (n k v : Z) (vs : list lvar) : M (list lvar) :=
  match vs with
  | [LNat i; LPriv x] => bind (const colo (FI n) v true) (fun c => bind (mul_pq prf colo k x c) (fun z => ret [LNat (i + 1); LPriv z]))
  | _ => raise TypeError
  end.
Lemma const_public colo n v : 0 < n -> word (FI n) v -> yields (const colo (FI n) v true) (fun c => public (FI n) c v /\ qsc c = true).
Proof.
  intros Hn Hv. unfold const. do 3 apply y_lit. unfold mk_pub, on. cbn [vd dev_eqb]. rewrite !orb_true_r. cbn [andb]. apply y_ret.
  unfold public. cbn [q0 q1 q2 qfc qsc fcast]. rewrite (swrap_id n v Hn) by exact Hv. auto 10.
Qed.
Theorem C109_flags_refuted : forall prf colo n k x u v r, 0 < n -> arith n x u -> psc x = false -> word (FI n) v -> wrapped n (u * v) r ->
  yields (while_eager 2 once (scale_up prf colo n k v) [LNat 0; LPriv x]) (fun o => exists z, o = Some [LNat 1; LPriv z] /\ arith n z r /\ psc z = true) /\
  yields (while_graph colo 2 once (scale_up prf colo n k v) [LNat 0; LPriv x]) (fun o => exists z, o = Some [LNat 1; LPriv z] /\ arith n z r /\ psc z = false).
Proof.
  intros prf colo n k x u v r Hn Hx Sx Hv Hr.
  assert (B : yields (scale_up prf colo n k v [LNat 0; LPriv x]) (fun o => exists z, o = [LNat 1; LPriv z] /\ arith n z r /\ psc z = true)).
  { unfold scale_up. eapply y_bind; [exact (const_public colo n v Hn Hv)|]. intros c (Hc & Sc).
    eapply y_bind; [apply (C46_mul_public prf colo n k x c u v r Hn Hx Hc); [rewrite Sx; reflexivity|exact Hr]|]. intros z (Hz & Sz).
    apply y_ret. exists z. rewrite Sc, orb_true_r in Sz. auto. }
  split.
  - cbn [while_eager once]. cbn [Z.ltb Z.compare]. apply y_retb. eapply y_bind; [exact B|]. intros vs (z & -> & H). cbn [while_eager once]. cbn [Z.ltb Z.compare].
    apply y_retb. apply y_ret. exists z. auto.
  - assert (HH : Forall at_home [LNat 0; LPriv x]) by (constructor; [exact I|constructor; [exact (proj1 Hx)|constructor]]).
    assert (W : forall z, arith n z r -> psc z = true -> yields (wrap colo (map aux_of [LNat 0; LPriv x]) (flat_map natives_of [LNat 1; LPriv z]))
        (fun ws => exists y, ws = [LNat 1; LPriv y] /\ arith n y r /\ psc y = false)).
    { intros z Hz _. cbn [map aux_of flat_map natives_of app wrap nv]. assert (E : pfc x = pfc z /\ pty x = pty z).
      { destruct Hx as (_ & A1 & A2 & _), Hz as (_ & B1 & B2 & _). split; congruence. }
      destruct E as (-> & ->). rewrite Sx. eapply y_bind with (P := fun ws => exists y, ws = [LPriv y] /\ arith n y r /\ psc y = false).
      - do 6 apply y_copy. apply y_mk_priv. cbn [nv]. apply y_retb. apply y_ret. eexists. split; [reflexivity|]. split; [|reflexivity].
        destruct Hz as (P & V). split; [unfold placed; cbn; auto 10|]. exact V.
      - intros ws (y & -> & H). apply y_ret. exists y. auto. }
    unfold while_graph. apply y_get. intro tb. cbn [unwrap fst snd].
    assert (BW : yields (body_wrapper colo (map aux_of [LNat 0; LPriv x]) (scale_up prf colo n k v) (flat_map natives_of [LNat 0; LPriv x]))
        (fun ns => exists z, ns = flat_map natives_of [LNat 1; LPriv z] /\ arith n z r /\ psc z = true)).
    { unfold body_wrapper. eapply y_bind; [exact (wrap_back colo _ HH)|]. intros ws ->. eapply y_bind; [exact B|]. intros vs (z & -> & Hz & Sz).
      assert (E : pfc z = pfc x) by (destruct Hx as (_ & A1 & A2 & _), Hz as (_ & B1 & B2 & _); congruence).
      cbn [unwrap snd flat_map natives_of map app same_types ndt dtype_eqb]. rewrite E, fac_eqb_refl. apply y_ret. exists z.
      cbn [flat_map natives_of map app]. rewrite E. auto. }
    eapply y_traced; [exact BW|]. apply y_get. intro tc. eapply y_traced with (P := fun _ => True).
    { unfold cond_wrapper. eapply y_bind; [exact (wrap_back colo _ HH)|]. intros ws ->. apply y_ret. exact I. }
    cbn [while_op]. eapply y_bind with (P := fun o => exists z, o = Some (flat_map natives_of [LNat 1; LPriv z]) /\ arith n z r /\ psc z = true).
    + eapply y_exec_bind with (P := fun b => b = true).
      { unfold cond_wrapper. eapply y_bind; [exact (wrap_back colo _ HH)|]. intros ws ->. apply y_ret. reflexivity. }
      intros b ->. eapply y_exec_bind; [exact BW|]. intros ns (z & -> & Hz & Sz). eapply y_exec_bind with (P := fun b => b = false).
      { unfold cond_wrapper. eapply y_bind; [exact (W z Hz Sz)|]. intros ws (y & -> & _). apply y_ret. reflexivity. }
      intros b ->. apply y_ret. exists z. auto.
    + intros o (z & -> & Hz & Sz). eapply y_bind; [exact (W z Hz Sz)|]. intros ws (y & -> & H). apply y_ret. exists y. auto.
Qed.
Print Assumptions C109_flags_refuted.

(** ** The hypotheses are met *)

(** The loop of a power: [y] is multiplied by the private [x] until the counter reaches [m]. *)
Definition below (m : Z) (vs : list lvar) : M bool := match vs with LNat i :: _ => ret (i <? m) | _ => raise TypeError end.
Definition times prf colo (vs : list lvar) : M (list lvar) :=
  match vs with
  | [LNat i; LPriv x; LPriv y] => bind (mul_pp prf colo 0 x y) (fun z => ret [LNat (i + 1); LPriv x; LPriv z])
  | _ => raise TypeError
  end.
Example C109_power_loop : forall prf colo n m x y u v, prf_words prf -> 0 < n -> arith n x u -> arith n y v -> psc x = false -> psc y = false ->
  let R := fun (a : Z * Z) (vs : list lvar) => exists z, vs = [LNat (fst a); LPriv x; LPriv z] /\ arith n z (snd a) /\ psc z = false in
  forall fuel,
  yields (while_eager fuel (below m) (times prf colo) [LNat 0; LPriv x; LPriv y]) (ends_in R (after fuel (fun a => fst a <? m) (fun a => (fst a + 1, swrap n (u * snd a))) (0, v))) /\
  yields (while_graph colo fuel (below m) (times prf colo) [LNat 0; LPriv x; LPriv y]) (ends_in R (after fuel (fun a => fst a <? m) (fun a => (fst a + 1, swrap n (u * snd a))) (0, v))).
Proof.
  intros prf colo n m x y u v Hp Hn Hx Hy Sx Sy R.
  assert (HB : forall a vs, R a vs -> yields (times prf colo vs) (R (fst a + 1, swrap n (u * snd a)))).
  { intros [i w] vs (z & -> & Hz & Sz). cbn [times fst snd] in *.
    eapply y_bind; [apply (C46_mul_unscaled prf colo n 0 x z u w (swrap n (u * w)) Hp Hn Hx Hz); [rewrite Sx; reflexivity|]|].
    - split; [exact (swrap_range n _ Hn)|apply swrap_mod; exact Hn].
    - intros q (Hq & Sq). apply y_ret. exists q. cbn [fst snd]. rewrite Sx, Sz in Sq. auto. }
  assert (HK : forall a vs, R a vs -> Forall at_home vs /\ Forall2 same_kind [LNat 0; LPriv x; LPriv y] vs).
  { intros [i w] vs (z & -> & Hz & Sz). split; [constructor; [exact I|constructor; [exact (proj1 Hx)|constructor; [exact (proj1 Hz)|constructor]]]|].
    destruct Hy as (_ & B1 & B2 & _), Hz as (_ & C1 & C2 & _). repeat constructor; cbn; congruence. }
  apply C109_loop.
  - exact HK.
  - intros [i w] vs (z & -> & _). apply y_ret. reflexivity.
  - intros a vs Ra _. exact (HB a vs Ra).
  - eapply y_weaken; [apply (HB (0, v)); exists y; auto|]. intros vs Rv. exact (proj2 (HK _ _ Rv)).
  - exists y. auto.
Qed.
(** Three iterations, compared word for word: 5 * 3^3 on three machines. *)
Example C109_run : let m := bind (share ex_prf false Arith (FI 64) 3 false) (fun x => bind (share ex_prf false Arith (FI 64) 5 false) (fun y => ret [LNat 0; LPriv x; LPriv y])) in
  let show (r : state * list ev * res (option (list lvar))) := match r with (_, _, Ok (Some [LNat i; _; LPriv z])) => Some (i, swrap 64 (vz (p00 z) + vz (p10 z) + vz (p20 z)), psc z) | _ => None end in
  show (bind m (while_eager 5 (below 3) (times ex_prf false)) ex_st) = Some (3, 135, false) /\
  show (bind m (while_graph false 5 (below 3) (times ex_prf false)) ex_st) = Some (3, 135, false).
Proof. split; vm_compute; reflexivity. Qed.
(** A function of a pair and a public number, compiled. *)
Example C109_function_run : let m := bind (share ex_prf false Arith (FI 64) 3 false) (fun x => bind (const false (FI 64) 5 false) (fun c => ret [ASeq _ true [AOne _ (LPriv x); AOne _ (LNat 7)]; AOne _ (LPub c)])) in
  let f (a : list (arg lvar)) := match a with
    | [ASeq _ false [AOne _ (LPriv x); AOne _ (LNat k)]; AOne _ (LPub c)] => bind (mul_pq ex_prf false 0 x c) (fun z => ret (ASeq _ true [AOne _ (LPriv z); AOne _ (LNat (k + 1))]))
    | _ => raise TypeError end in
  exists z, snd (bind m (function false false (Some ex_st) f) ex_st) = Ok (ASeq _ false [AOne _ (LPriv z); AOne _ (LNat 8)]) /\ arith 64 z 15.
Proof. eexists. split; [vm_compute; reflexivity|]. unfold arith, placed, arith_vals, replicated, word. cbn. repeat split; try lia; try reflexivity. Qed.
