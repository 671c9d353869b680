(** Products of a word and a shared bit, seen by one server. *)
From Verif Require Import Base TensorModel Aby3Model Aby3Spec Aby3NetModel Aby3TraceModel Aby3TraceSpec Aby3Bits Aby3Proofs Aby3Fresh Aby3View Aby3Hide Aby3Draws Aby3Draws2.
From Coq Require Import Lia.
Definition olist (f : fac) (k1 j1 k2 j2 : Z) (s : state) : list (fac * key * Z * nat) :=
  [(f, KP 0, nonce 2 s, 0%nat); (f, KP 1, nonce 0 s, 0%nat); (f, KP 2, nonce 1 s, 0%nat);
   (f, KP k1, nonce j1 s + 1, 0%nat); (f, KP k1, nonce j1 s + 1, 1%nat); (f, KP k2, nonce j2 s + 1, 0%nat); (f, KP k2, nonce j2 s + 1, 1%nat)].
Lemma nonce_next i s a b : nonce i (MkSt (n0 s + 1) (n1 s + 1) (n2 s + 1) a b) = nonce i s + 1.
Proof. unfold nonce. destruct (i mod 3 =? 0); [reflexivity|]. destruct (i mod 3 =? 1); reflexivity. Qed.
Lemma nonce_3 s : nonce 3 s = nonce 0 s. Proof. reflexivity. Qed.
Lemma nonce_4 s : nonce 4 s = nonce 1 s. Proof. reflexivity. Qed.
(** Evaluates the indices modulo 3. *)
Ltac lits := repeat match goal with
  | |- context[?a mod 3 =? ?b] => let v := eval vm_compute in (a mod 3 =? b) in change (a mod 3 =? b) with v
  | |- context[KP (?a mod 3)] => let v := eval vm_compute in (a mod 3) in change (a mod 3) with v end; cbv iota.
Ltac absM L := let p := fresh "p" in let s := fresh "s" in intros p s; cbn [p00 p01 p10 p11 p20 p21 psc pty pfc vz vd]; emits; rewrite ?nonce_next, ?nonce_3, ?nonce_4;
  unfold mk_priv, ret; cbn [vd andb]; rewrite ?on_srv; cbn [andb];
  let g := fresh "g" in set (g := fun j => at_ p (nth j (L s) dpt));
  let l := eval hnf in (L s) in abs_list p g 0%nat l;
  match goal with |- ?l = ?r _ _ => let l' := eval pattern s, g in l in match l' with ?F _ _ => unify r F end end; reflexivity.
Lemma xx m w : Z.lxor (Z.lxor m w) w = m. Proof. bitblast. Qed.
Lemma new_l f u G z : ready Arith f -> word f u -> word f G -> word f z ->
  exists X, word f X /\ gadd Arith f u (gsub Arith f X G) = z /\ (forall Y, word f Y -> gadd Arith f u (gsub Arith f Y G) = z -> Y = X).
Proof.
  intros R U Gw Zw. exists (gadd Arith f (gsub Arith f z u) G). split; [gw|]. split.
  - rewrite add_sub, add_sub_l by gw. reflexivity.
  - intros Y Yw E. apply (sub_r Arith f R _ _ G); [gw|gw|gw|]. apply (add_l Arith f R u); [gw|gw|gw|]. rewrite E, add_sub, add_sub_l by gw. reflexivity.
Qed.
Lemma new_r f u G z : ready Arith f -> word f u -> word f G -> word f z ->
  exists X, word f X /\ gadd Arith f u (gsub Arith f G X) = z /\ (forall Y, word f Y -> gadd Arith f u (gsub Arith f G Y) = z -> Y = X).
Proof.
  intros R U Gw Zw. exists (gsub Arith f G (gsub Arith f z u)). split; [gw|]. split.
  - rewrite sub_sub, add_sub_l by gw. reflexivity.
  - intros Y Yw E. apply (sub_l Arith f R G); [gw|gw|gw|]. apply (add_l Arith f R u); [gw|gw|gw|]. rewrite E, sub_sub, add_sub_l by gw. reflexivity.
Qed.
Lemma new_x f m z : fok f -> word f m -> word f z -> exists X, word f X /\ Z.lxor m X = z /\ (forall Y, word f Y -> Z.lxor m Y = z -> Y = X).
Proof.
  intros F M Zw. exists (Z.lxor m z). split; [apply word_lxor; assumption|]. split; [bitblast|]. intros Y _ <-. bitblast.
Qed.
Lemma x_can a b w : Z.lxor a w = Z.lxor b w -> a = b.
Proof. intros E. rewrite <- (xx a w), E. apply xx. Qed.
Ltac finM rw := split; [|split; [|split]];
  [ let j := fresh in let J := fresh in intros j J; below; assumption
  | cbn [pickl nth]; rw; reflexivity
  | cbn [matched pickl nth]; rewrite ?xx; prove_twin; rw; first [assumption|reflexivity|gw]
  | let h' := fresh "h'" in let Wh := fresh "Wh" in let V := fresh "V" in intros h' ? ? Wh V; peel V; clear V; repeat match goal with H : _ = _ :> ev |- _ => clear H | H : ?x = ?x |- _ => clear H end;
    wordsof Wh; intros ? ?; below; cbn [pickl nth]; vars h'; subst; try reflexivity ].
(** One transfer: the words a receiver does not hold. *)
Ltac useX UX := repeat match goal with
  | E : Z.lxor ?a ?w = Z.lxor ?b ?w |- _ => apply x_can in E
  | E : _ = _ |- _ => apply UX in E; [subst|gw] end.
Section Draws5.
Context (colo : bool) (d : dev).
Lemma v_mul_ab_0 f sc t t' sb fb a b c a' b' c' : fok f -> ready Arith f -> wadd f = gadd Arith f ->
  (forall u v, word f (gadd Arith f u v)) -> (forall u v, word f (gsub Arith f u v)) ->
  word f t -> word f t' -> (d = S0 -> t = t') -> known d a b c a' b' c' ->
  looks d (fun p => mul_ab_routine p colo f sc (MkV S0 t) (mk3 Bool_ fb sb a b c) 0) (fun p => mul_ab_routine p colo f sc (MkV S0 t') (mk3 Bool_ fb sb a' b' c') 0) (twin d Arith f sc).
Proof.
  intros Fk Rd Ea Wadd Wsub T T' Td K. unfold mul_ab_routine, zero_sharing, ot. rewrite Ea. clear Ea.
  cbn [Z.add Pos.add Pos.succ]. unfold srv, fst_sh, snd_sh, mk3. lits. cbn [p00 p01 p10 p11 p20 p21 psc pty pfc].
  eapply (v_list d 7 (olist f 0 2 1 0)); [reflexivity|fokL|nodups|absM (olist f 0 2 1 0)|absM (olist f 0 2 1 0)|ext|ext|seedsL|split; reflexivity|].
  intros s g Wg. cbv beta. wordsof Wg. assert (U0 : forall u, word f (wmul f (fcast f u) t)) by (intros; gw). assert (U0' : forall u, word f (wmul f (fcast f u) t')) by (intros; gw).
  destruct d; cbn [known] in K; try contradiction; destruct K as [<- <-]; cbn [emit view filter app snd fst dev_eqb].
  - rewrite <- (Td eq_refl). clear Td. destruct (c =? 0), (c' =? 0); exists (pickl [g 0%nat; g 1%nat; g 2%nat; g 3%nat; g 4%nat; g 5%nat; g 6%nat]); finM idtac;
      apply (sub_l Arith f Rd (g 1%nat)); gw.
  - clear Td. destruct (c =? 0).
    + destruct (new_l f (wmul f (fcast f (Z.lxor a' b)) t') (g 1%nat) (gadd Arith f (wmul f (fcast f (Z.lxor a b)) t) (gsub Arith f (g 0%nat) (g 1%nat))) Rd ltac:(gw) ltac:(gw) ltac:(gw)) as (X & WX & EX & UX).
      destruct (new_x f (gadd Arith f (gadd Arith f (wneg f (wmul f (fcast f (Z.lxor a' b)) t')) t') (gsub Arith f X (g 1%nat))) (Z.lxor (gadd Arith f (gadd Arith f (wneg f (wmul f (fcast f (Z.lxor a b)) t)) t) (gsub Arith f (g 0%nat) (g 1%nat))) (g 4%nat)) Fk ltac:(gw) ltac:(gw)) as (Y & WY & EY & UY).
      exists (pickl [X; g 1%nat; g 2%nat; g 3%nat; Y; g 5%nat; g 6%nat]). finM ltac:(rewrite ?EX, ?EY); useX UX; try reflexivity; useX UY; reflexivity.
    + destruct (new_l f (gadd Arith f (wneg f (wmul f (fcast f (Z.lxor a' b)) t')) t') (g 1%nat) (gadd Arith f (gadd Arith f (wneg f (wmul f (fcast f (Z.lxor a b)) t)) t) (gsub Arith f (g 0%nat) (g 1%nat))) Rd ltac:(gw) ltac:(gw) ltac:(gw)) as (X & WX & EX & UX).
      destruct (new_x f (gadd Arith f (wmul f (fcast f (Z.lxor a' b)) t') (gsub Arith f X (g 1%nat))) (Z.lxor (gadd Arith f (wmul f (fcast f (Z.lxor a b)) t) (gsub Arith f (g 0%nat) (g 1%nat))) (g 3%nat)) Fk ltac:(gw) ltac:(gw)) as (Y & WY & EY & UY).
      exists (pickl [X; g 1%nat; g 2%nat; Y; g 4%nat; g 5%nat; g 6%nat]). finM ltac:(rewrite ?EX, ?EY); useX UX; try reflexivity; useX UY; reflexivity.
  - clear Td. destruct (c =? 0).
    + destruct (new_r f (wmul f (fcast f (Z.lxor a b')) t') (g 0%nat) (gadd Arith f (wmul f (fcast f (Z.lxor a b)) t) (gsub Arith f (g 0%nat) (g 1%nat))) Rd ltac:(gw) ltac:(gw) ltac:(gw)) as (X & WX & EX & UX).
      destruct (new_x f (gadd Arith f (gadd Arith f (wneg f (wmul f (fcast f (Z.lxor a b')) t')) t') (gsub Arith f (g 0%nat) X)) (Z.lxor (gadd Arith f (gadd Arith f (wneg f (wmul f (fcast f (Z.lxor a b)) t)) t) (gsub Arith f (g 0%nat) (g 1%nat))) (g 6%nat)) Fk ltac:(gw) ltac:(gw)) as (Y & WY & EY & UY).
      exists (pickl [g 0%nat; X; g 2%nat; g 3%nat; g 4%nat; g 5%nat; Y]). finM ltac:(rewrite ?EX, ?EY); useX UX; try reflexivity; useX UY; reflexivity.
    + destruct (new_r f (gadd Arith f (wneg f (wmul f (fcast f (Z.lxor a b')) t')) t') (g 0%nat) (gadd Arith f (gadd Arith f (wneg f (wmul f (fcast f (Z.lxor a b)) t)) t) (gsub Arith f (g 0%nat) (g 1%nat))) Rd ltac:(gw) ltac:(gw) ltac:(gw)) as (X & WX & EX & UX).
      destruct (new_x f (gadd Arith f (wmul f (fcast f (Z.lxor a b')) t') (gsub Arith f (g 0%nat) X)) (Z.lxor (gadd Arith f (wmul f (fcast f (Z.lxor a b)) t) (gsub Arith f (g 0%nat) (g 1%nat))) (g 5%nat)) Fk ltac:(gw) ltac:(gw)) as (Y & WY & EY & UY).
      exists (pickl [g 0%nat; X; g 2%nat; g 3%nat; g 4%nat; Y; g 6%nat]). finM ltac:(rewrite ?EX, ?EY); useX UX; try reflexivity; useX UY; reflexivity.
Qed.
Lemma v_mul_ab_1 f sc t t' sb fb a b c a' b' c' : fok f -> ready Arith f -> wadd f = gadd Arith f ->
  (forall u v, word f (gadd Arith f u v)) -> (forall u v, word f (gsub Arith f u v)) ->
  word f t -> word f t' -> (d = S1 -> t = t') -> known d a b c a' b' c' ->
  looks d (fun p => mul_ab_routine p colo f sc (MkV S1 t) (mk3 Bool_ fb sb a b c) 1) (fun p => mul_ab_routine p colo f sc (MkV S1 t') (mk3 Bool_ fb sb a' b' c') 1) (twin d Arith f sc).
Proof.
  intros Fk Rd Ea Wadd Wsub T T' Td K. unfold mul_ab_routine, zero_sharing, ot. rewrite Ea. clear Ea.
  cbn [Z.add Pos.add Pos.succ]. unfold srv, fst_sh, snd_sh, mk3. lits. cbn [p00 p01 p10 p11 p20 p21 psc pty pfc].
  eapply (v_list d 7 (olist f 1 0 2 1)); [reflexivity|fokL|nodups|absM (olist f 1 0 2 1)|absM (olist f 1 0 2 1)|ext|ext|seedsL|split; reflexivity|].
  intros s g Wg. cbv beta. wordsof Wg. assert (U0 : forall u, word f (wmul f (fcast f u) t)) by (intros; gw). assert (U0' : forall u, word f (wmul f (fcast f u) t')) by (intros; gw).
  destruct d; cbn [known] in K; try contradiction; destruct K as [<- <-]; cbn [emit view filter app snd fst dev_eqb].
  - clear Td. destruct (a =? 0).
    + destruct (new_r f (wmul f (fcast f (Z.lxor b c')) t') (g 1%nat) (gadd Arith f (wmul f (fcast f (Z.lxor b c)) t) (gsub Arith f (g 1%nat) (g 2%nat))) Rd ltac:(gw) ltac:(gw) ltac:(gw)) as (X & WX & EX & UX).
      destruct (new_x f (gadd Arith f (gadd Arith f (wneg f (wmul f (fcast f (Z.lxor b c')) t')) t') (gsub Arith f (g 1%nat) X)) (Z.lxor (gadd Arith f (gadd Arith f (wneg f (wmul f (fcast f (Z.lxor b c)) t)) t) (gsub Arith f (g 1%nat) (g 2%nat))) (g 6%nat)) Fk ltac:(gw) ltac:(gw)) as (Y & WY & EY & UY).
      exists (pickl [g 0%nat; g 1%nat; X; g 3%nat; g 4%nat; g 5%nat; Y]). finM ltac:(rewrite ?EX, ?EY); useX UX; try reflexivity; useX UY; reflexivity.
    + destruct (new_r f (gadd Arith f (wneg f (wmul f (fcast f (Z.lxor b c')) t')) t') (g 1%nat) (gadd Arith f (gadd Arith f (wneg f (wmul f (fcast f (Z.lxor b c)) t)) t) (gsub Arith f (g 1%nat) (g 2%nat))) Rd ltac:(gw) ltac:(gw) ltac:(gw)) as (X & WX & EX & UX).
      destruct (new_x f (gadd Arith f (wmul f (fcast f (Z.lxor b c')) t') (gsub Arith f (g 1%nat) X)) (Z.lxor (gadd Arith f (wmul f (fcast f (Z.lxor b c)) t) (gsub Arith f (g 1%nat) (g 2%nat))) (g 5%nat)) Fk ltac:(gw) ltac:(gw)) as (Y & WY & EY & UY).
      exists (pickl [g 0%nat; g 1%nat; X; g 3%nat; g 4%nat; Y; g 6%nat]). finM ltac:(rewrite ?EX, ?EY); useX UX; try reflexivity; useX UY; reflexivity.
  - rewrite <- (Td eq_refl). clear Td. destruct (a =? 0), (a' =? 0); exists (pickl [g 0%nat; g 1%nat; g 2%nat; g 3%nat; g 4%nat; g 5%nat; g 6%nat]); finM idtac;
      apply (sub_l Arith f Rd (g 2%nat)); gw.
  - clear Td. destruct (a =? 0).
    + destruct (new_l f (wmul f (fcast f (Z.lxor b' c)) t') (g 2%nat) (gadd Arith f (wmul f (fcast f (Z.lxor b c)) t) (gsub Arith f (g 1%nat) (g 2%nat))) Rd ltac:(gw) ltac:(gw) ltac:(gw)) as (X & WX & EX & UX).
      destruct (new_x f (gadd Arith f (gadd Arith f (wneg f (wmul f (fcast f (Z.lxor b' c)) t')) t') (gsub Arith f X (g 2%nat))) (Z.lxor (gadd Arith f (gadd Arith f (wneg f (wmul f (fcast f (Z.lxor b c)) t)) t) (gsub Arith f (g 1%nat) (g 2%nat))) (g 4%nat)) Fk ltac:(gw) ltac:(gw)) as (Y & WY & EY & UY).
      exists (pickl [g 0%nat; X; g 2%nat; g 3%nat; Y; g 5%nat; g 6%nat]). finM ltac:(rewrite ?EX, ?EY); useX UX; try reflexivity; useX UY; reflexivity.
    + destruct (new_l f (gadd Arith f (wneg f (wmul f (fcast f (Z.lxor b' c)) t')) t') (g 2%nat) (gadd Arith f (gadd Arith f (wneg f (wmul f (fcast f (Z.lxor b c)) t)) t) (gsub Arith f (g 1%nat) (g 2%nat))) Rd ltac:(gw) ltac:(gw) ltac:(gw)) as (X & WX & EX & UX).
      destruct (new_x f (gadd Arith f (wmul f (fcast f (Z.lxor b' c)) t') (gsub Arith f X (g 2%nat))) (Z.lxor (gadd Arith f (wmul f (fcast f (Z.lxor b c)) t) (gsub Arith f (g 1%nat) (g 2%nat))) (g 3%nat)) Fk ltac:(gw) ltac:(gw)) as (Y & WY & EY & UY).
      exists (pickl [g 0%nat; X; g 2%nat; Y; g 4%nat; g 5%nat; g 6%nat]). finM ltac:(rewrite ?EX, ?EY); useX UX; try reflexivity; useX UY; reflexivity.
Qed.
Lemma v_mul_ab_2 f sc t t' sb fb a b c a' b' c' : fok f -> ready Arith f -> wadd f = gadd Arith f ->
  (forall u v, word f (gadd Arith f u v)) -> (forall u v, word f (gsub Arith f u v)) ->
  word f t -> word f t' -> (d = S2 -> t = t') -> known d a b c a' b' c' ->
  looks d (fun p => mul_ab_routine p colo f sc (MkV S2 t) (mk3 Bool_ fb sb a b c) 2) (fun p => mul_ab_routine p colo f sc (MkV S2 t') (mk3 Bool_ fb sb a' b' c') 2) (twin d Arith f sc).
Proof.
  intros Fk Rd Ea Wadd Wsub T T' Td K. unfold mul_ab_routine, zero_sharing, ot. rewrite Ea. clear Ea.
  cbn [Z.add Pos.add Pos.succ]. unfold srv, fst_sh, snd_sh, mk3. lits. cbn [p00 p01 p10 p11 p20 p21 psc pty pfc].
  eapply (v_list d 7 (olist f 2 1 0 2)); [reflexivity|fokL|nodups|absM (olist f 2 1 0 2)|absM (olist f 2 1 0 2)|ext|ext|seedsL|split; reflexivity|].
  intros s g Wg. cbv beta. wordsof Wg. assert (U0 : forall u, word f (wmul f (fcast f u) t)) by (intros; gw). assert (U0' : forall u, word f (wmul f (fcast f u) t')) by (intros; gw).
  destruct d; cbn [known] in K; try contradiction; destruct K as [<- <-]; cbn [emit view filter app snd fst dev_eqb].
  - clear Td. destruct (b =? 0).
    + destruct (new_l f (wmul f (fcast f (Z.lxor c' a)) t') (g 0%nat) (gadd Arith f (wmul f (fcast f (Z.lxor c a)) t) (gsub Arith f (g 2%nat) (g 0%nat))) Rd ltac:(gw) ltac:(gw) ltac:(gw)) as (X & WX & EX & UX).
      destruct (new_x f (gadd Arith f (gadd Arith f (wneg f (wmul f (fcast f (Z.lxor c' a)) t')) t') (gsub Arith f X (g 0%nat))) (Z.lxor (gadd Arith f (gadd Arith f (wneg f (wmul f (fcast f (Z.lxor c a)) t)) t) (gsub Arith f (g 2%nat) (g 0%nat))) (g 4%nat)) Fk ltac:(gw) ltac:(gw)) as (Y & WY & EY & UY).
      exists (pickl [g 0%nat; g 1%nat; X; g 3%nat; Y; g 5%nat; g 6%nat]). finM ltac:(rewrite ?EX, ?EY); useX UX; try reflexivity; useX UY; reflexivity.
    + destruct (new_l f (gadd Arith f (wneg f (wmul f (fcast f (Z.lxor c' a)) t')) t') (g 0%nat) (gadd Arith f (gadd Arith f (wneg f (wmul f (fcast f (Z.lxor c a)) t)) t) (gsub Arith f (g 2%nat) (g 0%nat))) Rd ltac:(gw) ltac:(gw) ltac:(gw)) as (X & WX & EX & UX).
      destruct (new_x f (gadd Arith f (wmul f (fcast f (Z.lxor c' a)) t') (gsub Arith f X (g 0%nat))) (Z.lxor (gadd Arith f (wmul f (fcast f (Z.lxor c a)) t) (gsub Arith f (g 2%nat) (g 0%nat))) (g 3%nat)) Fk ltac:(gw) ltac:(gw)) as (Y & WY & EY & UY).
      exists (pickl [g 0%nat; g 1%nat; X; Y; g 4%nat; g 5%nat; g 6%nat]). finM ltac:(rewrite ?EX, ?EY); useX UX; try reflexivity; useX UY; reflexivity.
  - clear Td. destruct (b =? 0).
    + destruct (new_r f (wmul f (fcast f (Z.lxor c a')) t') (g 2%nat) (gadd Arith f (wmul f (fcast f (Z.lxor c a)) t) (gsub Arith f (g 2%nat) (g 0%nat))) Rd ltac:(gw) ltac:(gw) ltac:(gw)) as (X & WX & EX & UX).
      destruct (new_x f (gadd Arith f (gadd Arith f (wneg f (wmul f (fcast f (Z.lxor c a')) t')) t') (gsub Arith f (g 2%nat) X)) (Z.lxor (gadd Arith f (gadd Arith f (wneg f (wmul f (fcast f (Z.lxor c a)) t)) t) (gsub Arith f (g 2%nat) (g 0%nat))) (g 6%nat)) Fk ltac:(gw) ltac:(gw)) as (Y & WY & EY & UY).
      exists (pickl [X; g 1%nat; g 2%nat; g 3%nat; g 4%nat; g 5%nat; Y]). finM ltac:(rewrite ?EX, ?EY); useX UX; try reflexivity; useX UY; reflexivity.
    + destruct (new_r f (gadd Arith f (wneg f (wmul f (fcast f (Z.lxor c a')) t')) t') (g 2%nat) (gadd Arith f (gadd Arith f (wneg f (wmul f (fcast f (Z.lxor c a)) t)) t) (gsub Arith f (g 2%nat) (g 0%nat))) Rd ltac:(gw) ltac:(gw) ltac:(gw)) as (X & WX & EX & UX).
      destruct (new_x f (gadd Arith f (wmul f (fcast f (Z.lxor c a')) t') (gsub Arith f (g 2%nat) X)) (Z.lxor (gadd Arith f (wmul f (fcast f (Z.lxor c a)) t) (gsub Arith f (g 2%nat) (g 0%nat))) (g 5%nat)) Fk ltac:(gw) ltac:(gw)) as (Y & WY & EY & UY).
      exists (pickl [X; g 1%nat; g 2%nat; g 3%nat; g 4%nat; Y; g 6%nat]). finM ltac:(rewrite ?EX, ?EY); useX UX; try reflexivity; useX UY; reflexivity.
  - rewrite <- (Td eq_refl). clear Td. destruct (b =? 0), (b' =? 0); exists (pickl [g 0%nat; g 1%nat; g 2%nat; g 3%nat; g 4%nat; g 5%nat; g 6%nat]); finM idtac;
      apply (sub_l Arith f Rd (g 0%nat)); gw.
Qed.
End Draws5.
