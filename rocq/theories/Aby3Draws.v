(** Operations of ABY3 that draw words, seen by one server. *)
From Verif Require Import Base TensorModel Aby3Model Aby3Spec Aby3NetModel Aby3TraceModel Aby3TraceSpec Aby3Bits Aby3Proofs Aby3Fresh Aby3View Aby3Hide.
From Coq Require Import Lia.
Ltac unruns := unfold rss_mul, zero_sharing, cross, get, draw_local, draw, op1, op2, op3, op5, copy, op1, update_pairwise, next_local, const, lit, mk_pub, mk_priv, mk3, ret, bind;
  cbn [p00 p01 p10 p11 p20 p21 psc pty pfc vz vd q0 q1 q2 qsc qfc fst snd]; repeat (rewrite ?on_srv; cbn [andb p00 p01 p10 p11 p20 p21 psc pty pfc vz vd q0 q1 q2 qsc qfc fst snd]).
(** The three words of a zero sharing. *)
Definition zpts (f : fac) (s : state) (j : nat) : fac * key * Z * nat :=
  match j with 0%nat => (f, KP 0, nonce 2 s, 0%nat) | 1%nat => (f, KP 1, nonce 0 s, 0%nat) | _ => (f, KP 2, nonce 1 s, 0%nat) end.
Ltac below3 := match goal with H : (?j < 3)%nat |- _ => destruct j as [|[|[|]]]; [| | |exfalso; lia] end.
Lemma zpts_ok f : fok f -> (forall s j, (j < 3)%nat -> fok (fac_at (zpts f s j))) /\
  (forall s j k, (j < 3)%nat -> (k < 3)%nat -> zpts f s j = zpts f s k -> j = k).
Proof.
  intros F. split; [intros s j J; below3; exact F|]. intros s j k J K E.
  destruct j as [|[|[|]]], k as [|[|[|]]]; try reflexivity; try discriminate E; lia.
Qed.
Ltac abs3 f := let p := fresh "p" in let s := fresh "s" in intros p s; unruns;
  let g := fresh "g" in set (g := fun j => at_ p (zpts f s j));
  change (p f (KP 0) (nonce 2 s) 0%nat) with (g 0%nat); change (p f (KP 1) (nonce 0 s) 0%nat) with (g 1%nat); change (p f (KP 2) (nonce 1 s) 0%nat) with (g 2%nat);
  match goal with |- ?l = ?r _ _ => let l' := eval pattern s, g in l in match l' with ?F _ _ => unify r F end end; reflexivity.
Ltac ext := let s := fresh in let g := fresh in let h := fresh in let E := fresh in intros s g h E; cbv beta; rewrite !E by lia; reflexivity.
Ltac pts3 := let s := fresh in let g := fresh in let q := fresh in intros s g q; cbv beta; cbn; split;
  [ let I := fresh in intros I; repeat (destruct I as [I|I]); try contradiction; subst q;
    first [ exists 0%nat; split; [lia|reflexivity] | exists 1%nat; split; [lia|reflexivity] | exists 2%nat; split; [lia|reflexivity] ]
  | let j := fresh "j" in let J := fresh "J" in intros (j & J & ->); below3; cbn; auto 10 ].
Definition pick3 (a b c : Z) (j : nat) : Z := match j with 0%nat => a | 1%nat => b | _ => c end.
Definition zof ty f (mul : Z -> Z -> Z) x0 x1 y0 y1 := gadd ty f (gadd ty f (mul x0 y0) (mul x0 y1)) (mul x1 y0).
Lemma new3 ty f u u' G F : ready ty f -> word f u -> word f u' -> word f G -> word f F ->
  exists X, word f X /\ gadd ty f u' (gsub ty f G X) = gadd ty f u (gsub ty f G F) /\
    (forall Y, word f Y -> gadd ty f u' (gsub ty f G Y) = gadd ty f u (gsub ty f G F) -> Y = X).
Proof.
  intros R U U' Gw Fw. assert (Zw : word f (gadd ty f u (gsub ty f G F))) by (apply g_word; [exact R|exact U|apply g_word; assumption]).
  exists (gsub ty f (gadd ty f u' G) (gadd ty f u (gsub ty f G F))). split; [|split].
  - apply g_word; [exact R|apply g_word; assumption|exact Zw].
  - apply g_solve; assumption.
  - intros Y Yw E. apply (g_inj ty f u' G); [exact R|exact Yw| |rewrite E; symmetry; apply g_solve; assumption].
    apply g_word; [exact R|apply g_word; assumption|exact Zw].
Qed.
Lemma gadd_word ty f a b : ready ty f -> word f a -> word f b -> word f (gadd ty f a b).
Proof. intros R A B. apply g_word; assumption. Qed.
Lemma gsub_word ty f a b : ready ty f -> word f a -> word f b -> word f (gsub ty f a b).
Proof. intros R A B. apply g_word; assumption. Qed.
Ltac gw := match goal with
  | |- _ => solve [auto]
  | |- word ?f (gadd ?ty ?f _ _) => simple apply (gadd_word ty f); [assumption|gw|gw]
  | |- word ?f (gsub ?ty ?f _ _) => simple apply (gsub_word ty f); [assumption|gw|gw]
  | |- word _ (Z.lxor _ _) => simple apply word_lxor; [assumption|gw|gw]
  | |- word _ (fcast _ _) => simple apply word_fcast; assumption
  | |- word _ (wadd _ _ _) => unfold wadd; simple apply word_fcast; assumption
  | |- word _ (wneg _ _) => unfold wneg; simple apply word_fcast; assumption
  | |- word _ (wmul _ _ _) => unfold wmul; simple apply word_fcast; assumption
  | |- word _ (wsub _ _ _) => unfold wsub; simple apply word_fcast; assumption
  end.
Ltac fin3 EX UX := split; [|split; [|split]];
  [ let j := fresh in let J := fresh in intros j J; below3; assumption
  | cbn [pick3]; rewrite EX; reflexivity
  | cbn [matched pick3]; prove_twin; first [assumption|reflexivity|gw|symmetry; exact EX|exact EX]
  | let h' := fresh "h'" in let Wh := fresh "Wh" in let V := fresh "V" in intros h' ? ? Wh V; injection V; clear V; intros;
    below3; cbn [pick3]; first [congruence | apply UX; [first [apply (Wh 0%nat)|apply (Wh 1%nat)|apply (Wh 2%nat)]; lia|congruence]] ].

(** * Solving for one word *)

Section Group.
Context (ty : sty) (f : fac).
Hypothesis R : ready ty f.
Lemma sub_sub a z : word f a -> word f z -> gsub ty f a (gsub ty f a z) = z.
Proof. intros A Z. gcase ty f; [|bitblast]. apply (in_s_eqm_eq n); [exact F|apply swrap_range, F|exact Z|]. eqm_ring n F. Qed.
Lemma add_sub z b : word f z -> word f b -> gsub ty f (gadd ty f z b) b = z.
Proof. intros A Z. gcase ty f; [|bitblast]. apply (in_s_eqm_eq n); [exact F|apply swrap_range, F|exact A|]. eqm_ring n F. Qed.
Lemma sub_add z b : word f z -> word f b -> gadd ty f (gsub ty f z b) b = z.
Proof. intros A Z. gcase ty f; [|bitblast]. apply (in_s_eqm_eq n); [exact F|apply swrap_range, F|exact A|]. eqm_ring n F. Qed.
Lemma add_sub_l z b : word f z -> word f b -> gadd ty f b (gsub ty f z b) = z.
Proof. intros A Z. gcase ty f; [|bitblast]. apply (in_s_eqm_eq n); [exact F|apply swrap_range, F|exact A|]. eqm_ring n F. Qed.
Lemma sub_l a b c : word f a -> word f b -> word f c -> gsub ty f a b = gsub ty f a c -> b = c.
Proof. intros A B C E. rewrite <- (sub_sub a b), <- (sub_sub a c) by assumption. now rewrite E. Qed.
Lemma sub_r a b c : word f a -> word f b -> word f c -> gsub ty f a c = gsub ty f b c -> a = b.
Proof. intros A B C E. rewrite <- (sub_add a c), <- (sub_add b c) by assumption. now rewrite E. Qed.
Lemma add_r a b c : word f a -> word f b -> word f c -> gadd ty f a c = gadd ty f b c -> a = b.
Proof. intros A B C E. rewrite <- (add_sub a c), <- (add_sub b c) by assumption. now rewrite E. Qed.
Lemma add_comm a b : gadd ty f a b = gadd ty f b a.
Proof. unfold gadd. destruct ty, f; try apply Z.lxor_comm. f_equal. ring. Qed.
Lemma add_l a b c : word f a -> word f b -> word f c -> gadd ty f a b = gadd ty f a c -> b = c.
Proof. intros A B C E. rewrite !(add_comm a) in E. exact (add_r b c a B C A E). Qed.
End Group.

(** * Units *)

Section Draws.
Context (colo : bool) (d : dev).
Lemma v_rss ty f mul sc sx x x' ty2 f2 sy y y' : twin d ty f sx x x' -> twin d ty2 f2 sy y y' ->
  (forall u v, word f u -> word f2 v -> word f (mul u v)) ->
  looks d (fun p => rss_mul p colo ty f (gadd ty f) mul sc x y) (fun p => rss_mul p colo ty f (gadd ty f) mul sc x' y') (twin d ty f sc).
Proof.
  intros (a & b & c & a' & b' & c' & -> & -> & Rd & A & B & C & A' & B' & C' & K) (u & v & w & u' & v' & w' & -> & -> & Rd2 & U & V & W & U' & V' & W' & K2) G.
  destruct (zpts_ok f (proj1 Rd)) as [Z1 Z2].
  eapply (v_words d 3 (zpts f)); [exact Z1|exact Z2|abs3 f|abs3 f|ext|ext|pts3| |].
  - intros s g h. split; reflexivity.
  - intros s g Wg. cbv beta.
    assert (W0 := Wg 0%nat ltac:(lia)). assert (W1 := Wg 1%nat ltac:(lia)). assert (W2 := Wg 2%nat ltac:(lia)). cbn in W0, W1, W2.
    destruct d; cbn [known] in K, K2; try contradiction; destruct K as [<- <-], K2 as [<- <-];
      cbn [view filter app snd fst dev_eqb].
    + destruct (new3 ty f (zof ty f mul b c v w) (zof ty f mul b c' v w') (g 1%nat) (g 2%nat) Rd ltac:(unfold zof; gw) ltac:(unfold zof; gw) W1 W2) as (X & WX & EX & UX).
      unfold zof in EX, UX. exists (pick3 (g 0%nat) (g 1%nat) X). fin3 EX UX.
    + destruct (new3 ty f (zof ty f mul c a w u) (zof ty f mul c a' w u') (g 2%nat) (g 0%nat) Rd ltac:(unfold zof; gw) ltac:(unfold zof; gw) W2 W0) as (X & WX & EX & UX).
      unfold zof in EX, UX. exists (pick3 X (g 1%nat) (g 2%nat)). fin3 EX UX.
    + destruct (new3 ty f (zof ty f mul a b u v) (zof ty f mul a b' u v') (g 0%nat) (g 1%nat) Rd ltac:(unfold zof; gw) ltac:(unfold zof; gw) W0 W1) as (X & WX & EX & UX).
      unfold zof in EX, UX. exists (pick3 (g 0%nat) X (g 2%nat)). fin3 EX UX.
Qed.
End Draws.
Definition dpt : fac * key * Z * nat := (FB, KP 0, 0, 0%nat).
Lemma v_list {A} d N (L : state -> list (fac * key * Z * nat)) (run run' : state -> (nat -> Z) -> state * list ev * res A) (m m' : oracle -> M A) R :
  (forall s, length (L s) = N) -> (forall s q, In q (L s) -> fok (fac_at q)) -> (forall s, NoDup (L s)) ->
  (forall p s, m p s = run s (fun j => at_ p (nth j (L s) dpt))) -> (forall p s, m' p s = run' s (fun j => at_ p (nth j (L s) dpt))) ->
  (forall s g h, (forall j, (j < N)%nat -> g j = h j) -> run s g = run s h) ->
  (forall s g h, (forall j, (j < N)%nat -> g j = h j) -> run' s g = run' s h) ->
  (forall s g q, In q (seeds (log_of (run s g))) <-> In q (L s)) ->
  (forall s g h, seeds (log_of (run' s h)) = seeds (log_of (run s g)) /\ state_of (run' s h) = state_of (run s g)) ->
  (forall s g, (forall j, (j < N)%nat -> word (fac_at (nth j (L s) dpt)) (g j)) -> exists h, (forall j, (j < N)%nat -> word (fac_at (nth j (L s) dpt)) (h j)) /\
     view d (run' s h) = view d (run s g) /\ matched R (snd (run s g)) (snd (run' s h)) /\
     (forall h' t t', (forall j, (j < N)%nat -> word (fac_at (nth j (L s) dpt)) (h' j)) -> view d (run' s h') ++ t' = view d (run s g) ++ t -> forall j, (j < N)%nat -> h' j = h j)) ->
  looks d m m' R.
Proof.
  intros Ln Fk D E E' X X' Sd SS H. apply (v_words d N (fun s j => nth j (L s) dpt) run run'); try assumption.
  - intros s j J. apply (Fk s). apply nth_In. rewrite Ln. exact J.
  - intros s j k J K Q. apply (proj1 (NoDup_nth (L s) dpt) (D s)); rewrite ?Ln; assumption.
  - intros s g q. rewrite Sd. split.
    + intros I. destruct (In_nth _ _ dpt I) as (j & J & Q). rewrite Ln in J. exists j. auto.
    + intros (j & J & ->). apply nth_In. rewrite Ln. exact J.
Qed.
Ltac below := match goal with H : (?j < _)%nat |- _ => repeat (destruct j as [|j]; [|try (exfalso; lia)]) end.
Ltac abs_list p g j l := lazymatch l with
  | (?f, ?k, ?c, ?i) :: ?l' => change (p f k c i) with (g j); let j' := eval cbv in (S j) in let l'' := eval hnf in l' in abs_list p g j' l''
  | nil => idtac end.
(** Writes a run as a function of the words at the points of [L]. *)
Ltac absL L := let p := fresh "p" in let s := fresh "s" in intros p s; unruns; cbn [nl nb n0 n1 n2];
  let g := fresh "g" in set (g := fun j => at_ p (nth j (L s) dpt));
  let l := eval hnf in (L s) in abs_list p g 0%nat l;
  match goal with |- ?l = ?r _ _ => let l' := eval pattern s, g in l in match l' with ?F _ _ => unify r F end end; reflexivity.
Definition shpts (f : fac) (s : state) : list (fac * key * Z * nat) := [(f, KS (nl s), 0, 0%nat); (f, KS (nl s + 1), 0, 0%nat)].
Ltac nodups := intros; repeat (apply NoDup_cons; [cbn; intros ?N; repeat match type of N with _ \/ _ => destruct N as [N|N] end; try contradiction; first [discriminate N|injection N; lia]|]); apply NoDup_nil.
Ltac seedsL := intros; cbv beta; cbn; tauto.
Ltac fokL := let s := fresh in let q := fresh in let I := fresh in intros s q I; cbn in I; repeat (destruct I as [<-|I]); try contradiction; assumption.
Definition pickl (l : list Z) (j : nat) : Z := nth j l 0.
Ltac wordof Wh k := try (let H := fresh "W" in assert (H := Wh k ltac:(lia)); cbn -[word] in H).
Ltac wordsof Wh := wordof Wh 0%nat; wordof Wh 1%nat; wordof Wh 2%nat; wordof Wh 3%nat; wordof Wh 4%nat; wordof Wh 5%nat; wordof Wh 6%nat; clear Wh.
Lemma cons_inv {A} (x y : A) l l' : x :: l = y :: l' -> x = y /\ l = l'. Proof. intros H. injection H. auto. Qed.
Lemma saw_inv d x y : Saw d x = Saw d y -> x = y. Proof. intros H. injection H. auto. Qed.
Ltac peel V := cbn [app] in V; repeat (let E := fresh "E" in apply cons_inv in V; destruct V as [E V]; try apply saw_inv in E).
Ltac fin rw := split; [|split; [|split]];
  [ let j := fresh in let J := fresh in intros j J; below; assumption
  | cbn [pickl nth]; rw; try reflexivity
  | cbn [matched pickl nth]; try prove_twin; rw; try first [assumption|reflexivity|gw]
  | let h' := fresh "h'" in let Wh := fresh "Wh" in let V := fresh "V" in intros h' ? ? Wh V; peel V; clear V; repeat match goal with H : _ = _ :> ev |- _ => clear H | H : ?x = ?x |- _ => clear H end;
    wordsof Wh; intros ? ?; below; cbn [pickl nth]; try first [assumption|congruence] ].
Section Draws2.
Context (colo : bool) (d : dev).
Lemma v_share ty f v v' sc : server d -> ready ty f -> word f v -> word f v' ->
  looks d (fun p => share p colo ty f v sc) (fun p => share p colo ty f v' sc) (twin d ty f sc).
Proof.
  intros D Rd V V'. pose proof (proj1 Rd) as Fk. unfold share.
  eapply (v_list d 2 (shpts f)); [reflexivity|fokL|nodups|absL (shpts f)|absL (shpts f)|ext|ext|seedsL|split; reflexivity|].
  intros s g Wg. cbv beta. pose proof (Wg 0%nat ltac:(lia)) as W0. pose proof (Wg 1%nat ltac:(lia)) as W1. cbn in W0, W1. clear Wg.
  generalize dependent (g 1%nat). intros r1 W1. generalize dependent (g 0%nat). intros r0 W0.
  set (z := gsub ty f (gsub ty f v r0) r1). assert (Wz : word f z) by (unfold z; gw).
  destruct D as [-> |[-> | ->]]; cbn [view filter app snd fst dev_eqb].
  - exists (pickl [r0; r1]). fin idtac.
  - pose (x := gsub ty f v' (gadd ty f z r1)). assert (Wx : word f x) by (unfold x; gw).
    assert (E : gsub ty f (gsub ty f v' x) r1 = z) by (unfold x; rewrite sub_sub, add_sub by gw; reflexivity).
    exists (pickl [x; r1]). fin ltac:(rewrite ?E).
    apply (sub_l ty f Rd v'); [gw|gw|gw|]. apply (sub_r ty f Rd _ _ r1); [gw|gw|gw|]. congruence.
  - pose (x := gsub ty f (gsub ty f v' r0) z). assert (Wx : word f x) by (unfold x; gw).
    assert (E : gsub ty f (gsub ty f v' r0) x = z) by (unfold x; rewrite sub_sub by gw; reflexivity).
    exists (pickl [r0; x]). fin ltac:(rewrite ?E).
    apply (sub_l ty f Rd (gsub ty f v' r0)); [gw|gw|gw|]. congruence.
Qed.
End Draws2.
Definition zlist (f : fac) (s : state) : list (fac * key * Z * nat) := [(f, KP 0, nonce 2 s, 0%nat); (f, KP 1, nonce 0 s, 0%nat); (f, KP 2, nonce 1 s, 0%nat)].
Definition two (d : dev) (f : fac) (sc : bool) (z z' : priv * priv) : Prop := twin d Bool_ f sc (fst z) (fst z') /\ twin d Bool_ f sc (snd z) (snd z').
Section Draws3.
Context (colo : bool) (d : dev).
Lemma v_operands ty f sc x x' : ty = Arith -> twin d ty f sc x x' -> looks d (fun p => a2b_operands p colo x) (fun p => a2b_operands p colo x') (two d f sc).
Proof.
  intros -> (a & b & c & a' & b' & c' & -> & -> & Rd & A & B & C & A' & B' & C' & K).
  pose proof (proj1 Rd) as Fk. assert (Rb : ready Bool_ f) by (split; [exact Fk|discriminate]). unfold a2b_operands.
  eapply (v_list d 3 (zlist f)); [reflexivity|fokL|nodups|absL (zlist f)|absL (zlist f)|ext|ext|seedsL|split; reflexivity|].
  intros s g Wg. cbv beta. wordsof Wg.
  assert (X1 : forall u v, word f (wadd f u v)) by (intros; apply word_fcast, Fk).
  destruct d; cbn [known] in K; try contradiction; destruct K as [<- <-]; cbn [view filter app snd fst dev_eqb].
  - exists (pickl [g 0%nat; g 1%nat; g 2%nat]). fin idtac; [split; cbn [fst snd]; prove_twin; gw|]. apply (sub_l Bool_ f Rb (g 1%nat)); [gw|gw|gw|]. congruence.
  - exists (pickl [g 0%nat; g 1%nat; g 2%nat]). fin idtac; [split; cbn [fst snd]; prove_twin; gw|]. apply (sub_l Bool_ f Rb (g 2%nat)); [gw|gw|gw|]. congruence.
  - destruct (new3 Bool_ f (wadd f a b) (wadd f a b') (g 0%nat) (g 1%nat) Rb ltac:(gw) ltac:(gw) ltac:(gw) ltac:(gw)) as (X & WX & EX & UX).
    cbn [gadd] in EX, UX. exists (pickl [g 0%nat; X; g 2%nat]). fin ltac:(rewrite ?EX). 
    + split; cbn [fst snd]; prove_twin; gw.
    + apply UX; [gw|congruence].
Qed.
End Draws3.
