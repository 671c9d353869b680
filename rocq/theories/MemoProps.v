(** Properties of the operation cache: C22, C23, C78, C79. *)
From Coq Require Import ZArith QArith List Bool String NArith Lia Permutation.
From Verif Require Import Base MemoModel MemoSpec MemoProofs.
Import ListNotations.
Open Scope string_scope.

(** C22: for operations that respect the sameness of calls, any session (each call cached or in debug
    mode) gives the results and the world that running every call without cache gives. *)
Theorem C22_transparent (W V : Type) (body : call -> prog W V) :
  respectful body -> (forall c, proper c -> calls_proper (body c)) ->
  forall fuel w (l : list (bool * call)) w' rs, Forall (fun x => proper (snd x)) l ->
    plain body fuel w (map snd l) = Some (w', rs) -> session W V body (S fuel) w [] l = Some (w', rs).
Proof. intros R I fuel w l w' rs P H. apply session_plain; try assumption. intros k v []. Qed.
Print Assumptions C22_transparent.

(** Operations on a counter: [succ x] of an object, [twice] calls [succ] two times, [bump] changes the
    world and returns nothing. *)
Definition demo (c : call) : prog nat Z :=
  if String.eqb (fname c) "succ"
  then match args c with [PObj i] => Ret (Some (Z.of_N i + 1)%Z) | _ => Ret None end
  else if String.eqb (fname c) "bump" then Step (fun w => (S w, Ret None))
  else Sub (Call 0 "succ" [PObj 4] []) (fun r => match r with
         | Some z => Sub (Call 1 "succ" [PObj 4] []) (fun s => match s with Some y => Ret (Some (z + y)%Z) | None => Ret None end)
         | None => Ret None end).
Lemma demo_inner c : proper c -> calls_proper (demo c).
Proof.
  intros _. unfold demo. destruct (String.eqb (fname c) "succ").
  { destruct (args c) as [|[] [|]]; constructor. }
  destruct (String.eqb (fname c) "bump"); [constructor; intros; constructor|].
  constructor; [constructor|]. intros [z|]; [|constructor]. constructor; [constructor|]. intros [y|]; constructor.
Qed.
Lemma demo_respectful : respectful demo.
Proof.
  intros c d w1 w2 f1 f2 w1' w2' v r _ _ (F & A & _) H1 H2. unfold demo at 2 in H1. unfold demo at 2 in H2. rewrite <- F in H2.
  destruct (String.eqb_spec (fname c) "succ") as [E|N].
  - destruct f1 as [|f1]; [discriminate|]. destruct f2 as [|f2]; [discriminate|].
    destruct (args c) as [|[| | | | | | | |i|] [|]]; cbn in H1; try discriminate. injection H1 as <- <-.
    destruct (args d) as [|y [|]]; inversion A as [|? ? ? ? S A']; subst; inversion A'. subst. inversion S; subst; try discriminate.
    cbn in H2. injection H2 as <- <-. auto.
  - destruct (String.eqb_spec (fname c) "bump") as [E|N'].
    + destruct f1 as [|[|f1]]; cbn in H1; discriminate.
    + destruct f1 as [|[|[|[|f1]]]]; cbn in H1; try discriminate; inversion H1; subst; clear H1;
        destruct f2 as [|[|[|[|f2]]]]; cbn in H2; try discriminate; inversion H2; subst; auto.
Qed.
(** The hypotheses hold for it; [bump] is run both times, [succ] is answered from the cache in [twice]. *)
Example C22_example :
  session nat Z demo 6 0%nat []
    [(false, Call 0 "bump" [] []); (false, Call 0 "succ" [PObj 7] [("name", PNone)]); (false, Call 0 "bump" [] []);
     (true, Call 0 "succ" [PObj 7] [("name", PNone)]); (false, Call 0 "twice" [] [])]
  = Some (2%nat, [None; Some 8%Z; None; Some 8%Z; Some 10%Z]).
Proof.
  apply C22_transparent; [exact demo_respectful|exact demo_inner|repeat constructor; cbn; tauto|reflexivity].
Qed.

(** C22, the other way round: whatever the operations do, once a call has returned an object every later
    call that is the same returns this object and changes nothing. *)
Theorem C22_first_result (W V : Type) (body : call -> prog W V) fuel w t c d mid w1 v rs :
  proper c -> proper d -> same_call c d ->
  session W V body fuel w t ((false, c) :: mid) = Some (w1, Some v :: rs) ->
  session W V body fuel w t ((false, c) :: mid ++ [(false, d)]) = Some (w1, Some v :: rs ++ [Some v]).
Proof. intros Pc Pd S. apply first_stays. apply node_key_iff; assumption. Qed.
Print Assumptions C22_first_result.
(** A reading operation that looks at the world gets stale. *)
Definition peek (c : call) : prog nat Z :=
  if String.eqb (fname c) "bump" then Step (fun w => (S w, Ret None)) else Step (fun w => (w, Ret (Some (Z.of_nat w)))).
Example C22_first_result_example :
  session nat Z peek 6 0%nat [] [(false, Call 0 "peek" [] []); (false, Call 0 "bump" [] []); (false, Call 0 "peek" [] [])]
  = Some (1%nat, [Some 0%Z; None; Some 0%Z]).
Proof.
  apply (C22_first_result nat Z peek 6 0%nat [] (Call 0 "peek" [] []) (Call 0 "peek" [] []) [(false, Call 0 "bump" [] [])] 1%nat 0%Z [None]);
    [constructor|constructor| |reflexivity].
  split; [reflexivity|]. split; [constructor|]. intros k. exact I.
Qed.

(** C23: exactly when two calls share an entry. *)
Theorem C23_key_exact (c d : call) : proper c -> proper d ->
  node_eqb (node_key c) (node_key d) = true <-> same_call c d.
Proof. intros Pc Pd. rewrite node_eqb_eq. apply node_key_iff; assumption. Qed.
Print Assumptions C23_key_exact.

(** C23: the order of the keywords does not matter, their values and the names of the operations do. *)
Theorem C23_keywords (c d : call) : proper c -> proper d ->
  fname c = fname d -> args c = args d -> Permutation (kwargs c) (kwargs d) -> node_eqb (node_key c) (node_key d) = true.
Proof.
  intros Pc Pd F A P. apply C23_key_exact; try assumption. split; [exact F|]. split.
  - rewrite A. clear A. induction (args d) as [|x l IH]; [constructor|constructor; [apply same_key; reflexivity|exact IH]].
  - intros k. assert (B : bound k (kwargs c) = bound k (kwargs d)).
    { clear F A. unfold proper in Pc, Pd. induction P as [|[n x] l m P IH|[n x] [n' y] l|l m o P1 IH1 P2 IH2].
      - reflexivity.
      - cbn [bound]. cbn [map fst] in Pc, Pd. inversion_clear Pc. inversion_clear Pd. rewrite IH by assumption. reflexivity.
      - cbn [bound]. cbn [map fst] in Pc. inversion_clear Pc as [|? ? N _]. destruct (String.eqb_spec k n), (String.eqb_spec k n'); try reflexivity.
        subst. exfalso. apply N. left. reflexivity.
      - assert (Pm : NoDup (map fst m)) by (apply (Permutation_NoDup (l := map fst l)); [apply Permutation_map, P1|exact Pc]).
        rewrite IH1, IH2 by assumption. reflexivity. }
    rewrite B. destruct (bound k (kwargs d)) as [v|]; [apply same_key; reflexivity|exact I].
Qed.
Print Assumptions C23_keywords.
Example C23_keywords_example :
  node_eqb (node_key (Call 0 "conv2d" [PObj 1] [("w", PObj 2); ("strides", PInt 1)]))
           (node_key (Call 0 "conv2d" [PObj 1] [("strides", PInt 1); ("w", PObj 2)])) = true /\
  node_eqb (node_key (Call 0 "conv2d" [PObj 1] [("w", PObj 2); ("strides", PInt 1)]))
           (node_key (Call 0 "conv2d" [PObj 1] [("strides", PInt 2); ("w", PObj 2)])) = false.
Proof. split; reflexivity. Qed.

(** C23 is false of the code: the protocol object is not in the key.  Any operation called on one protocol
    and then with the same arguments on another gives the result of the first. *)
Theorem C23_protocols_refuted (W V : Type) (body : call -> prog W V) fuel w p q f a kw w1 v :
  NoDup (map fst kw) ->
  session W V body fuel w [] [(false, Call p f a kw)] = Some (w1, [Some v]) ->
  session W V body fuel w [] [(false, Call p f a kw); (false, Call q f a kw)] = Some (w1, [Some v; Some v]).
Proof.
  intros P H. apply (first_stays W V body fuel w [] (Call p f a kw) (Call q f a kw) [] w1 v []); [reflexivity|exact H].
Qed.
Print Assumptions C23_protocols_refuted.
(** An operation that returns its protocol: cached, the second protocol gets the first one's object. *)
Definition whose (c : call) : prog unit N := Ret (Some (self c)).
Example C23_protocols_example :
  session unit N whose 5 tt [] [(false, Call 1 "zeros" [PTuple [PInt 2]] []); (false, Call 2 "zeros" [PTuple [PInt 2]] [])]
    = Some (tt, [Some 1%N; Some 1%N]) /\
  session unit N whose 5 tt [] [(true, Call 1 "zeros" [PTuple [PInt 2]] []); (true, Call 2 "zeros" [PTuple [PInt 2]] [])]
    = Some (tt, [Some 1%N; Some 2%N]).
Proof.
  split; [|reflexivity]. apply (C23_protocols_refuted unit N whose 5 tt 1 2 "zeros" [PTuple [PInt 2]] [] tt 1%N); [constructor|reflexivity].
Qed.

(** C23 is false of the code: 1, 1.0 and True, a list, a tuple and a shape, and a long array changed in place
    away from its ends are one argument. *)
Theorem C23_arguments_refuted (p : N) (f : string) (z : Z) (l : list Z) (a : N) (e1 e2 m1 m2 : list Z) :
  List.length e1 = 3%nat -> List.length e2 = 3%nat -> (1000 < List.length m1)%nat -> List.length m1 = List.length m2 ->
  let same x y := node_eqb (node_key (Call p f [x] [])) (node_key (Call p f [y] [])) = true in
  same (PInt z) (PFloat (inject_Z z)) /\ same (PInt 1) (PBool true) /\ same (PInt 0) (PBool false) /\
  same (PList (map PInt l)) (PTuple (map PInt l)) /\ same (PTuple (map PInt l)) (PShape (map Some l)) /\
  same (PArr a (e1 ++ m1 ++ e2)) (PArr a (e1 ++ m2 ++ e2)).
Proof.
  intros L1 L2 M E same.
  assert (S : forall x y, same_value x y -> same x y).
  { intros x y H. apply C23_key_exact; [constructor|constructor|]. split; [reflexivity|]. split; [repeat constructor; exact H|intros k; exact I]. }
  assert (R : forall m, Forall2 same_value (map PInt m) (map PInt m)).
  { induction m; [constructor|constructor; [apply same_key; reflexivity|assumption]]. }
  split; [apply S; eapply same_number; [reflexivity|reflexivity|apply Qeq_refl]|].
  split; [apply S; eapply same_number; [reflexivity|reflexivity|apply Qeq_refl]|].
  split; [apply S; eapply same_number; [reflexivity|reflexivity|apply Qeq_refl]|].
  split; [apply S; eapply same_sequence; [reflexivity|reflexivity|apply R]|].
  split; [apply S; eapply same_sequence; [reflexivity|reflexivity|]; rewrite map_map; apply R|].
  apply S. constructor. right. rewrite !app_length. split; [lia|]. split; [lia|]. split.
  - rewrite !firstn_app, L1. change (3 - 3)%nat with 0%nat. rewrite !firstn_O. reflexivity.
  - rewrite !app_assoc.
    replace (List.length e1 + (List.length m1 + List.length e2) - 3)%nat with (List.length (e1 ++ m1)) by (rewrite app_length; lia).
    replace (List.length e1 + (List.length m2 + List.length e2) - 3)%nat with (List.length (e1 ++ m2)) by (rewrite app_length; lia).
    rewrite !skipn_app_exact. reflexivity.
Qed.
Print Assumptions C23_arguments_refuted.
(** With operations that tell these arguments apart the cached answer is wrong. *)
Definition kind_of (c : call) : prog unit string :=
  Ret (Some match args c with [PInt _] => "int" | [PFloat _] => "float" | [PBool _] => "bool" | _ => "other" end).
Example C23_arguments_example :
  session unit string kind_of 5 tt [] [(false, Call 0 "mul" [PInt 2] []); (false, Call 0 "mul" [PFloat (inject_Z 2)] [])]
    = Some (tt, [Some "int"; Some "int"]) /\
  List.length (repeat 5%Z 2000) = List.length (repeat 6%Z 2000).
Proof. split; [reflexivity|]. rewrite !repeat_length. reflexivity. Qed.

(** C78: a tensor converted for the first time with these arguments reveals the public value everywhere, keeps its
    scaling flag, and no other tensor changes. *)
Theorem C78_convert_fresh (l : list heap_op) (m : Z) (v : list Z) sc k f :
  (0 < m)%Z -> Forall (in_s m) v -> find_zero (List.length v, sc, k, f) (zero_nodes (history l)) = None ->
  let '(h, o) := to_private (history l) v sc k f in
  holds m (object h o) v /\ scaled (object h o) = sc /\
  forall p, (p < List.length (objects (history l)))%nat -> object h p = object (history l) p.
Proof.
  intros Hm F N. pose proof (history_good l) as G. pose proof (to_private_facts _ v sc k f G) as P.
  assert (O : snd (to_private (history l) v sc k f) = List.length (objects (history l))) by (unfold to_private, zeros; rewrite N; reflexivity).
  destruct (to_private (history l) v sc k f) as [h o]. cbn [snd] in O. destruct P as (G' & Lo & Fo & Other & Old & V0 & V1 & Sc).
  split; [|split].
  - apply (holds_blank m (List.length v) sc k); [exact Hm|exact (proj2 G' _ _ _ _ _ Fo)|exact V0|exact V1|reflexivity|exact F].
  - apply Sc, N.
  - intros p Hp. apply Old; [exact Hp|lia].
Qed.
Print Assumptions C78_convert_fresh.

(** C78: zeros are zero as long as nothing with these arguments was converted or used as padding. *)
Theorem C78_zeros_clean (l : list heap_op) (m : Z) n sc k f :
  (0 < m)%Z -> Forall (fun o => ~ writes n sc k f o) l ->
  let '(h, o) := zeros (history l) n sc k f in holds m (object h o) (repeat 0%Z n) /\ scaled (object h o) = sc.
Proof.
  intros Hm Hl. pose proof (zeros_facts (history l) n sc k f (proj1 (history_good l))) as F.
  pose proof (history_clean n sc k f l Hl) as C. destruct (zeros (history l) n sc k f) as [h o].
  destruct F as (_ & _ & _ & _ & _ & New & Same).
  assert (E : object h o = zero_tensor n sc k).
  { destruct (find_zero (n, sc, k, f) (zero_nodes (history l))) as [o'|] eqn:E; [|exact (New eq_refl)].
    destruct (Same o' eq_refl) as [-> ->]. exact (C o' eq_refl). }
  rewrite E. split; [apply holds_zero, Hm|reflexivity].
Qed.
Print Assumptions C78_zeros_clean.

(** C78 is false of the code: two conversions with equal arguments give one object, which then reveals the second
    value; and [zeros] with these arguments returns it too. *)
Theorem C78_convert_twice_refuted (l : list heap_op) (m : Z) (v u : list Z) sc k f :
  (0 < m)%Z -> List.length u = List.length v -> Forall (in_s m) u ->
  let '(h1, o1) := to_private (history l) v sc k f in
  let '(h2, o2) := to_private h1 u sc k f in
  let '(h3, o3) := zeros h2 (List.length v) sc k f in
  o1 = o2 /\ o2 = o3 /\ holds m (object h3 o1) u.
Proof.
  intros Hm L F. pose proof (to_private_facts (history l) v sc k f (history_good l)) as P.
  destruct (to_private (history l) v sc k f) as [h1 o1]. destruct P as (G1 & _ & F1 & _).
  pose proof (to_private_facts h1 u sc k f G1) as P. pose proof F1 as F1'. unfold to_private in P |- *. unfold zeros at 1 in P. unfold zeros at 1.
  rewrite L in *. rewrite F1 in P |- *. cbv zeta in P. destruct P as (G2 & L2 & F2 & _ & _ & V0 & V1 & _).
  unfold zeros. rewrite F2. split; [reflexivity|]. split; [reflexivity|].
  apply (holds_blank m (List.length v) sc k); [exact Hm|exact (proj2 G2 _ _ _ _ _ F2)|exact V0|exact V1|exact L|exact F].
Qed.
Print Assumptions C78_convert_twice_refuted.

(** C78 is false of the code: after the padding of a sort, [zeros] of that many elements (not scaled) gives a tensor that reveals the
    padding, with the scaling flag of the sorted tensor. *)
Theorem C78_zeros_after_sort_refuted (l : list heap_op) (m : Z) n b k f sc :
  (0 < m)%Z -> in_s m b ->
  let '(h1, o1) := sort_padding (history l) n b k f sc in
  let '(h2, o2) := zeros h1 n false k f in
  o2 = o1 /\ holds m (object h2 o2) (repeat b n) /\ scaled (object h2 o2) = sc.
Proof.
  intros Hm Hb. pose proof (sort_padding_facts (history l) n b k f sc (history_good l)) as P.
  destruct (sort_padding (history l) n b k f sc) as [h1 o1]. destruct P as (G & Lo & Fo & _ & _ & V0 & V1 & Sc).
  unfold zeros. rewrite Fo. split; [reflexivity|]. split; [|exact Sc].
  apply (holds_blank m n false k); [exact Hm|exact (proj2 G _ _ _ _ _ Fo)|exact V0|exact V1|apply repeat_length|].
  apply Forall_forall. intros x Hx. apply repeat_spec in Hx. subst x. exact Hb.
Qed.
Print Assumptions C78_zeros_after_sort_refuted.

Example C78_example :
  (* converting [3; 4], then [5; 6]: both names reveal [5; 6]; a tensor of another length is untouched *)
  let '(h1, o1) := to_private (history [Convert [9%Z] true Arithmetic 0]) [3; 4]%Z true Arithmetic 0 in
  let '(h2, o2) := to_private h1 [5; 6]%Z true Arithmetic 0 in
  let '(h3, o3) := sort_padding h2 2 127 Boolean 0 true in
  let '(h4, o4) := zeros h3 2 false Boolean 0 in
  readings 8 (object h1 o1) = repeat [3; 4]%Z 4 /\ readings 8 (object h2 o1) = repeat [5; 6]%Z 4 /\
  readings 8 (object h2 0) = repeat [9%Z] 4 /\ readings 8 (object h4 o4) = repeat [127; 127]%Z 4 /\
  Forall (fun o => ~ writes 3 true Arithmetic 0 o) [Convert [9%Z] true Arithmetic 0] /\
  find_zero (2%nat, true, Arithmetic, 0%Z) (zero_nodes (history [Convert [9%Z] true Arithmetic 0])) = None.
Proof. cbn. repeat split. constructor; [intros [H _]; discriminate H|constructor]. Qed.

(** C79: what Pond's transpose, strided_slice, stack and avgpool2d return over any history: the result of the first
    operation on the same tensors (for avgpool2d: with the same window). *)
Theorem C79_first_arguments {V} (compute : pond_op -> V) (l : list pond_op) :
  Forall2 (fun p v => exists o, first_on l p o /\ v = compute o) l (pond_session compute [] l).
Proof. apply (pond_session_first compute l [] []). split; [intros k v []|intros o []]. Qed.
Print Assumptions C79_first_arguments.

(** C79: average pooling always honours its arguments, and so does an operation on tensors not used with it before. *)
Theorem C79_honoured {V} (compute : pond_op -> V) (l : list pond_op) i p v :
  nth_error l i = Some p -> nth_error (pond_session compute [] l) i = Some v ->
  (match p with Avgpool _ _ _ _ => True | _ => False end \/ Forall (fun q => ~ same_subject q p) (firstn i l)) -> v = compute p.
Proof.
  intros Hp Hv C. pose proof (C79_first_arguments compute l) as F.
  assert (X : exists o, first_on l p o /\ v = compute o).
  { clear C. remember l as full eqn:Ef in F at 1 |- *. clear Ef. revert i Hp Hv.
    induction F as [|q u l' r Hq F IH]; intros [|i] Hp Hv; cbn in Hp, Hv; try discriminate.
    - injection Hp as ->. injection Hv as ->. exact Hq.
    - exact (IH i Hp Hv). }
  destruct X as (o & (a & b & E & S & N) & ->). destruct C as [C|C].
  - destruct p; try contradiction. destruct o; cbn in S; try contradiction. destruct S as (-> & -> & -> & ->). reflexivity.
  - assert (Li : (i <= List.length a)%nat).
    { destruct (Nat.leb_spec i (List.length a)) as [H|H]; [exact H|exfalso].
      rewrite Forall_forall in C. apply (C o); [|exact S]. rewrite E, firstn_app. apply in_or_app. right.
      destruct (i - List.length a)%nat eqn:D; [lia|]. left. reflexivity. }
    assert (Ei : i = List.length a).
    { destruct (Nat.eq_dec i (List.length a)) as [H|H]; [exact H|exfalso]. rewrite E, nth_error_app1 in Hp by lia.
      apply nth_error_In in Hp. rewrite Forall_forall in N. apply (N p Hp). apply pond_key_same. reflexivity. }
    rewrite E, Ei, nth_error_app2, Nat.sub_diag in Hp by lia. injection Hp as ->. reflexivity.
Qed.
Print Assumptions C79_honoured.

(** C79 is false of the code: a second transpose, strided slice or stack of the same tensors with other
    arguments returns the first result. *)
Theorem C79_second_arguments_refuted {V} (compute : pond_op -> V) x p q s t xs a b :
  pond_session compute [] [Transpose x p; StridedSlice x s; Stack xs a; Transpose x q; StridedSlice x t; Stack xs b]
  = [compute (Transpose x p); compute (StridedSlice x s); compute (Stack xs a);
     compute (Transpose x p); compute (StridedSlice x s); compute (Stack xs a)].
Proof.
  assert (R : forall k, key_eqb k k = true) by (intros k; apply key_eqb_eq; reflexivity).
  do 6 (unfold pond_session; fold (@pond_session V); unfold pond_call; cbn -[key_eqb]; rewrite ?R; cbn -[key_eqb]). reflexivity.
Qed.
Print Assumptions C79_second_arguments_refuted.
(** The shape of a (2,3,4) tensor transposed: asking for (0,2,1) after (1,0,2) gives the shape (3,2,4) again. *)
Definition shape_after (o : pond_op) : list Z :=
  match o with
  | Transpose _ (PTuple perm) => map (fun p => match p with PInt i => nth (Z.to_nat i) [2; 3; 4]%Z 0%Z | _ => 0%Z end) perm
  | _ => []
  end.
Example C79_example :
  let t i j k := Transpose 1 (PTuple [PInt i; PInt j; PInt k]) in
  pond_session shape_after [] [t 1 0 2; t 0 2 1]%Z = [[3; 2; 4]; [3; 2; 4]]%Z /\ shape_after (t 0 2 1)%Z = [2; 4; 3]%Z.
Proof. split; reflexivity. Qed.
Example C79_honoured_example :
  pond_session (fun o => match o with Avgpool _ p _ _ => p | _ => [] end) []
    [Avgpool 1 [2; 2] [2; 2] "SAME"; Transpose 1 PNone; Avgpool 1 [3; 3] [2; 2] "SAME"]%Z = [[2; 2]; []; [3; 3]]%Z.
Proof. reflexivity. Qed.
