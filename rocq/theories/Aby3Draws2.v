(** The truncation of ABY3, seen by one server. *)
From Verif Require Import Base TensorModel Aby3Model Aby3Spec Aby3NetModel Aby3TraceModel Aby3TraceSpec Aby3Bits Aby3Proofs Aby3Fresh Aby3View Aby3Hide Aby3Draws.
From Coq Require Import Lia.
(** * Runs as a log and a final outcome *)
Definition emit {A} (l : list ev) (r : state * list ev * res A) : state * list ev * res A := match r with (s, l', x) => (s, l ++ l', x) end.
Section Emit.
Context {B : Type}.
Implicit Types (s : state).
Lemma e_draw prf d f k n i (h : pv -> M B) s : bind (draw prf d f k n i) h s = emit [Seed d f k n i; Saw d (prf f k n i)] (h (MkV d (prf f k n i)) s).
Proof. unfold bind, draw. destruct (h _ s) as [[? ?] ?]. reflexivity. Qed.
Lemma e_op1 d g x (h : pv -> M B) s : bind (op1 d g x) h s = emit [Saw d (vz x)] (h (MkV d (g (vz x))) s).
Proof. unfold bind, op1. destruct (h _ s) as [[? ?] ?]. reflexivity. Qed.
Lemma e_copy d x (h : pv -> M B) s : bind (copy d x) h s = emit [Saw d (vz x)] (h (MkV d (vz x)) s).
Proof. apply (e_op1 d (fun v => v)). Qed.
Lemma e_op2 d g x y (h : pv -> M B) s : bind (op2 d g x y) h s = emit [Saw d (vz x); Saw d (vz y)] (h (MkV d (g (vz x) (vz y))) s).
Proof. unfold bind, op2. destruct (h _ s) as [[? ?] ?]. reflexivity. Qed.
Lemma e_op3 d g x y z (h : pv -> M B) s : bind (op3 d g x y z) h s = emit [Saw d (vz x); Saw d (vz y); Saw d (vz z)] (h (MkV d (g (vz x) (vz y) (vz z))) s).
Proof. unfold bind, op3. destruct (h _ s) as [[? ?] ?]. reflexivity. Qed.
Lemma e_get (h : state -> M B) s : bind get h s = h s s.
Proof. unfold bind, get. destruct (h _ s) as [[? ?] ?]. reflexivity. Qed.
Lemma e_update (h : unit -> M B) s : bind update_pairwise h s = h tt (MkSt (n0 s + 1) (n1 s + 1) (n2 s + 1) (nb s) (nl s)).
Proof. unfold bind, update_pairwise. destruct (h _ _) as [[? ?] ?]. reflexivity. Qed.
Lemma e_next (h : Z -> M B) s : bind next_local h s = h (nl s) (MkSt (n0 s) (n1 s) (n2 s) (nb s) (nl s + 1)).
Proof. unfold bind, next_local. destruct (h _ _) as [[? ?] ?]. reflexivity. Qed.
Lemma e_assoc {A C} (m : M A) (k : A -> M C) (h : C -> M B) s : bind (bind m k) h s = bind m (fun a => bind (k a) h) s.
Proof. apply bind_assoc. Qed.
Lemma e_ret {A} (a : A) (h : A -> M B) s : bind (ret a) h s = h a s.
Proof. unfold bind, ret. destruct (h a s) as [[? ?] ?]. reflexivity. Qed.
End Emit.
Ltac emit1 := first [rewrite e_draw|rewrite e_op1|rewrite e_copy|rewrite e_op2|rewrite e_op3|rewrite e_get|rewrite e_update|rewrite e_next|rewrite e_assoc|rewrite e_ret]; cbn [vz vd fst snd nl nb n0 n1 n2].
Ltac emits := repeat emit1.
Ltac absE L := let p := fresh "p" in let s := fresh "s" in intros p s; unfold mk3, draw_local; cbn [p00 p01 p10 p11 p20 p21 psc pty pfc vz vd q0 q1 q2 qsc qfc]; emits;
  unfold mk_priv, ret; cbn [vd andb]; rewrite ?on_srv; cbn [andb];
  let g := fresh "g" in set (g := fun j => at_ p (nth j (L s) dpt));
  let l := eval hnf in (L s) in abs_list p g 0%nat l;
  match goal with |- ?l = ?r _ _ => let l' := eval pattern s, g in l in match l' with ?F _ _ => unify r F end end; reflexivity.
Definition tlist (f : fac) (s : state) : list (fac * key * Z * nat) :=
  [(f, KP 0, nonce 2 s, 0%nat); (f, KP 0, nonce 2 s, 1%nat); (f, KP 0, nonce 2 s, 2%nat); (f, KP 0, nonce 2 s, 3%nat); (f, KP 2, nonce 1 s, 0%nat); (f, KL S2 (nl s), 0, 0%nat)].
Definition conn f a b c ra0 r := gadd Arith f (gadd Arith f (gadd Arith f a b) ra0) (gadd Arith f c (gsub Arith f r ra0)).
Definition yp1 f am mm mo r ra1 ra2 C := gadd Arith f (wneg f (gsub Arith f (gsub Arith f (wshr f am r) (wshr f am (Z.land r mm))) ra1))
  (wmul f (if fcast FB (Z.land C mm) =? 0 then gsub Arith f (fcast f (fcast FB (Z.land r mm))) ra2 else wneg f (gsub Arith f (fcast f (fcast FB (Z.land r mm))) ra2)) (fcast f (mo + 1))).
Ltac vars h := repeat match goal with
  | |- context[h ?k] => let x := fresh "x" in set (x := h k) in *; clearbody x
  | _ : context[h ?k] |- _ => let x := fresh "x" in set (x := h k) in *; clearbody x end.
Definition yp0 f am mm mo ra1 ra2 C := gadd Arith f (gsub Arith f (Z.land (wsar am C) mo) ra1)
  (wmul f (if fcast FB (Z.land C mm) =? 0 then ra2 else gsub Arith f 1 ra2) (fcast f (mo + 1))).
(** [E] determines a word that another run shows as well. *)
Ltac use_eq E tac := match type of E with ?l = ?r =>
  match goal with H : ?l' = r |- _ => tryif constr_eq l l' then fail else (rewrite <- E in H; tac H; [subst|gw|gw|gw]) end end.
Section Draws4.
Context (colo : bool) (d : dev).
Lemma v_secureq8_core am f sc a b c a' b' c' : fok f -> ready Arith f -> wadd f = gadd Arith f -> wsub f = gsub Arith f ->
  (forall u v, word f (gadd Arith f u v)) -> (forall u v, word f (gsub Arith f u v)) ->
  word f a -> word f b -> word f c -> word f a' -> word f b' -> word f c' -> known d a b c a' b' c' ->
  looks d (fun p => truncate_secureq8 p colo am (mk3 Arith f sc a b c)) (fun p => truncate_secureq8 p colo am (mk3 Arith f sc a' b' c')) (twin d Arith f sc).
Proof.
  intros Fk Rd Ea Es Wadd Wsub A B C A' B' C' K. unfold truncate_secureq8, is_arith, assert_. cbn [pty pfc mk3].
  generalize (fcast f (Z.shiftl 1 (fbits f - 1))) as mm, (Z.shiftl 1 (fbits f - am - 1) - 1) as mo. intros mm mo. rewrite Ea, Es. clear Ea Es.
  eapply (v_list d 6 (tlist f)); [reflexivity|fokL|nodups|absE (tlist f)|absE (tlist f)|ext|ext|seedsL|split; reflexivity|].
  intros s g Wg. cbv beta. wordsof Wg.
  destruct d; cbn [known] in K; try contradiction; destruct K as [<- <-]; cbn [emit view filter app snd fst dev_eqb].
  - pose (r' := gadd Arith f (gsub Arith f (gadd Arith f c (gsub Arith f (g 5%nat) (g 0%nat))) c') (g 0%nat)). assert (Wr : word f r') by (unfold r'; gw).
    assert (E1 : gadd Arith f c' (gsub Arith f r' (g 0%nat)) = gadd Arith f c (gsub Arith f (g 5%nat) (g 0%nat))) by (unfold r'; rewrite add_sub, add_sub_l by gw; reflexivity).
    pose (C1 := conn f a b c (g 0%nat) (g 5%nat)).
    pose (d' := gsub Arith f (yp1 f am mm mo r' (g 1%nat) (g 2%nat) C1) (gsub Arith f (yp1 f am mm mo (g 5%nat) (g 1%nat) (g 2%nat) C1) (g 4%nat))).
    assert (Wd : word f d') by (unfold d', yp1; gw).
    assert (E2 : gsub Arith f (yp1 f am mm mo r' (g 1%nat) (g 2%nat) C1) d' = gsub Arith f (yp1 f am mm mo (g 5%nat) (g 1%nat) (g 2%nat) C1) (g 4%nat)) by (unfold d'; rewrite sub_sub by (unfold yp1; gw); reflexivity).
    unfold yp1, C1, conn in E2. exists (pickl [g 0%nat; g 1%nat; g 2%nat; g 3%nat; d'; r']). clearbody r'.
    clearbody d'. fin ltac:(rewrite ?E1, ?E2); vars h'; subst; match goal with E : gadd Arith f c' (gsub Arith f ?x (g 0%nat)) = _ |- _ => assert (x = r')
      by (apply (sub_r Arith f Rd _ _ (g 0%nat)); [gw|gw|gw|]; apply (add_l Arith f Rd c'); [gw|gw|gw|]; congruence) end; subst; [|reflexivity].
    match goal with E : gsub _ _ _ x = gsub _ _ _ (g 4%nat) |- _ => rewrite ?E1 in E; rewrite <- E2 in E; apply sub_l in E; gw end.
  - pose (a0' := gsub Arith f (gadd Arith f (gadd Arith f a b) (g 0%nat)) (gadd Arith f a' b)). assert (Wa : word f a0') by (unfold a0'; gw).
    assert (E1 : gadd Arith f (gadd Arith f a' b) a0' = gadd Arith f (gadd Arith f a b) (g 0%nat)) by (unfold a0'; rewrite add_sub_l by gw; reflexivity). clearbody a0'.
    pose (r' := gadd Arith f (gsub Arith f (g 5%nat) (g 0%nat)) a0'). assert (Wr : word f r') by (unfold r'; gw).
    assert (E2 : gsub Arith f r' a0' = gsub Arith f (g 5%nat) (g 0%nat)) by (unfold r'; rewrite add_sub by gw; reflexivity). clearbody r'.
    pose (sv := fun r => gsub Arith f (wshr f am r) (wshr f am (Z.land r mm))). pose (rm := fun r => fcast f (fcast FB (Z.land r mm))).
    pose (a1' := gsub Arith f (sv r') (gsub Arith f (sv (g 5%nat)) (g 1%nat))). assert (Wa1 : word f a1') by (unfold a1'; gw).
    assert (E3 : gsub Arith f (sv r') a1' = gsub Arith f (sv (g 5%nat)) (g 1%nat)) by (unfold a1'; rewrite sub_sub by (unfold sv; gw); reflexivity). clearbody a1'.
    pose (a2' := gsub Arith f (rm r') (gsub Arith f (rm (g 5%nat)) (g 2%nat))). assert (Wa2 : word f a2') by (unfold a2'; gw).
    assert (E4 : gsub Arith f (rm r') a2' = gsub Arith f (rm (g 5%nat)) (g 2%nat)) by (unfold a2'; rewrite sub_sub by (unfold rm; gw); reflexivity). clearbody a2'.
    pose (C1 := conn f a b c (g 0%nat) (g 5%nat)).
    pose (a3' := gsub Arith f (yp0 f am mm mo a1' a2' C1) (gsub Arith f (yp0 f am mm mo (g 1%nat) (g 2%nat) C1) (g 3%nat))). assert (Wa3 : word f a3') by (unfold a3'; gw).
    assert (E5 : gsub Arith f (yp0 f am mm mo a1' a2' C1) a3' = gsub Arith f (yp0 f am mm mo (g 1%nat) (g 2%nat) C1) (g 3%nat)) by (unfold a3'; rewrite sub_sub by (unfold yp0; gw); reflexivity). clearbody a3'.
    unfold yp0, C1, conn in E5. unfold sv in E3. unfold rm in E4. exists (pickl [a0'; a1'; a2'; a3'; g 4%nat; r']).
    fin ltac:(rewrite ?E1, ?E2, ?E3, ?E4, ?E5); vars h'; subst;
      use_eq E1 ltac:(fun E => apply (add_l Arith f Rd) in E); use_eq E2 ltac:(fun E => apply (sub_r Arith f Rd) in E);
      use_eq E3 ltac:(fun E => apply (sub_l Arith f Rd) in E); use_eq E4 ltac:(fun E => apply (sub_l Arith f Rd) in E); try reflexivity.
    match goal with E : gsub _ _ _ x = gsub _ _ _ (g 3%nat) |- _ => rewrite ?E1, ?E2, <- ?E5 in E; apply sub_l in E; gw end.
  - exists (pickl [g 0%nat; g 1%nat; g 2%nat; g 3%nat; g 4%nat; g 5%nat]).
    fin idtac.
Qed.
Lemma v_secureq8 am ty f sc x x' : twin d ty f sc x x' -> looks d (fun p => truncate_secureq8 p colo am x) (fun p => truncate_secureq8 p colo am x') (twin d ty f sc).
Proof.
  intros T. destruct ty.
  - canon3. match goal with R : ready Arith f |- _ => pose proof (proj1 R) as Fk; destruct (proj2 R eq_refl) as [n ->] end.
    apply v_secureq8_core; try assumption; try reflexivity; intros; apply swrap_range, Fk.
  - unfold truncate_secureq8, is_arith. statics. apply (v_assert_bind d _ (fun _ _ => _) (fun _ _ => _)). discriminate.
Qed.
End Draws4.
