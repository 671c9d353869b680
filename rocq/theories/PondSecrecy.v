(** What each machine sees during Pond's protocols: lemmas. *)
From Verif Require Import Base Factory TensorModel TensorProofs CrtModel CrtProofs PondModel PondSpec PondProofs PondTrunc.

Section PondSecrecy.
Context (F : factory) (L : lawful F).
Notation MM := (fmod F).
Notation ten := (list (felt F)).
Notation rnd := (mulrnd F).

(** A bijection of the set [P]. *)
Definition bijection {A} (P : A -> Prop) (f : A -> A) : Prop :=
  (forall a, P a -> P (f a)) /\ exists g, (forall a, P a -> P (g a)) /\
  (forall a, P a -> g (f a) = a) /\ (forall a, P a -> f (g a) = a).

Definition move (r x x' : ten) : ten := vadd F r (vsub F x' x).

Ltac vals n := intros; rewrite ?(tval_vadd F L n), ?(tval_vsub F L n), ?(tval_vadd F L n), ?(tval_vsub F L n)
   by auto using okT_vadd, okT_vsub; apply eqm_eq; ring.
Lemma okT_move n r x x' : okT F n r -> okT F n x -> okT F n x' -> okT F n (move r x x').
Proof. intros; unfold move; auto using okT_vadd, okT_vsub. Qed.
Lemma move_sub n r x x' : okT F n r -> okT F n x -> okT F n x' -> vsub F x' (move r x x') = vsub F x r.
Proof.
  intros Hr Hx Hx'. apply (ten_ext F L n); auto using okT_vsub, okT_move. intros i Hi. unfold move.
  rewrite !(tval_vsub F L n), (tval_vadd F L n), (tval_vsub F L n) by auto using okT_vadd, okT_vsub. apply eqm_eq. ring.
Qed.
Lemma move_back n r x x' : okT F n r -> okT F n x -> okT F n x' -> move (move r x x') x' x = r.
Proof.
  intros Hr Hx Hx'. apply (ten_ext F L n); auto using okT_move. intros i Hi. unfold move.
  rewrite !(tval_vadd F L n), !(tval_vsub F L n) by auto using okT_vadd, okT_vsub. apply eqm_eq. ring.
Qed.
Lemma move_add n r x x' : okT F n r -> okT F n x -> okT F n x' -> vadd F x' (move r x' x) = vadd F x r.
Proof.
  intros Hr Hx Hx'. apply (ten_ext F L n); auto using okT_vadd, okT_move. intros i Hi. unfold move.
  rewrite !(tval_vadd F L n), (tval_vsub F L n) by auto using okT_vadd, okT_vsub. apply eqm_eq. ring.
Qed.

(** The randomness that makes server [d] see the same when the other server's shares [x], [y]
    become [x'], [y']. *)
Definition move_rnd (d : dev) (o : bop) (x x' y y' : ten) (r : rnd) : rnd :=
  let ab := bapply F o (vadd F (rx0 F r) (rx1 F r)) (vadd F (ry0 F r) (ry1 F r)) in
  match d with
  | Srv0 =>
    let a1 := move (rx1 F r) x x' in let b1 := move (ry1 F r) y y' in
    let ab' := bapply F o (vadd F (rx0 F r) a1) (vadd F (ry0 F r) b1) in
    MkRnd (rx0 F r) a1 (ry0 F r) b1 (if rswap F r then move (rrho F r) ab ab' else rrho F r) (rswap F r) (rtr F r)
  | _ =>
    let a0 := move (rx0 F r) x x' in let b0 := move (ry0 F r) y y' in
    let ab' := bapply F o (vadd F a0 (rx1 F r)) (vadd F b0 (ry1 F r)) in
    MkRnd a0 (rx1 F r) b0 (ry1 F r) (if rswap F r then rrho F r else move (rrho F r) ab ab') (rswap F r) (rtr F r)
  end.

Lemma move_rnd_ok d o n m p x x' y y' r : bok o n m p -> okT F n x -> okT F n x' -> okT F m y -> okT F m y' ->
  rnd_ok F r n m p -> rnd_ok F (move_rnd d o x x' y y' r) n m p.
Proof.
  intros Hb Hx Hx' Hy Hy' (R1 & R2 & R3 & R4 & R5 & R6).
  assert (B : forall u v, okT F n u -> okT F m v -> okT F p (bapply F o u v)) by
    (intros u v Hu Hv; apply (bapply_ok F L o n m p u v Hu Hv Hb)).
  destruct d; unfold move_rnd, rnd_ok; cbn [rx0 rx1 ry0 ry1 rrho rswap rtr];
  repeat match goal with |- _ /\ _ => split end; auto using okT_move;
  destruct (rswap F r); auto using okT_move, okT_vadd.
Qed.
Lemma move_rnd_back d o n m p x x' y y' r : bok o n m p -> okT F n x -> okT F n x' -> okT F m y -> okT F m y' ->
  rnd_ok F r n m p -> move_rnd d o x' x y' y (move_rnd d o x x' y y' r) = r.
Proof.
  intros Hb Hx Hx' Hy Hy' (R1 & R2 & R3 & R4 & R5 & R6). destruct r as [a0 a1 b0 b1 rho sw tr]; cbn [rx0 rx1 ry0 ry1 rrho rswap rtr] in *.
  assert (B : forall u v, okT F n u -> okT F m v -> okT F p (bapply F o u v)) by
    (intros u v Hu Hv; apply (bapply_ok F L o n m p u v Hu Hv Hb)).
  destruct d; unfold move_rnd; cbn [rx0 rx1 ry0 ry1 rrho rswap rtr];
  rewrite !(move_back n), !(move_back m) by assumption; destruct sw; f_equal; apply (move_back p); auto using okT_vadd, okT_move.
Qed.
Lemma move_rnd_bij d o n m p x x' y y' : bok o n m p -> okT F n x -> okT F n x' -> okT F m y -> okT F m y' ->
  bijection (fun r => rnd_ok F r n m p) (move_rnd d o x x' y y').
Proof.
  intros. split; [intros; apply move_rnd_ok; assumption|].
  exists (move_rnd d o x' x y' y). repeat split; intros;
    solve [eapply move_rnd_ok; eassumption | eapply move_rnd_back; eassumption | eapply (move_rnd_ok d o n m p x' x y' y); eassumption].
Qed.

Ltac run := repeat first
  [ progress cbn [bind ret raise op1 op2 fresh fst snd pdev pval app unmasked scaled check_enc dev_eqb andb
                  rx0 rx1 ry0 ry1 rrho rswap rtr]
  | progress unfold check_enc | rewrite Bool.eqb_reflx ].

Definition prv (x0 x1 : ten) (sc : bool) : ptensor F := Priv (MkPv Srv0 x0) (MkPv Srv1 x1) sc.

Lemma mk_priv_log (v0 v1 : pv F) sc : fst (mk_priv v0 v1 sc) = [].
Proof. unfold mk_priv. destruct (_ && _); reflexivity. Qed.
Lemma mk_pub_log (v0 v1 : pv F) sc : fst (mk_pub v0 v1 sc) = [].
Proof. unfold mk_pub. destruct (_ && _); reflexivity. Qed.

Ltac views := unfold view, product, prv, ensure_masked, mask, mk_masked, beaver, triple, triple_share, mul_pub_priv, mul_priv_pub, move_rnd;
  run; rewrite ?mk_priv_log, ?mk_pub_log; cbn [filter dev_eqb fst map snd app].

Lemma product_hides d o n m p r own x x' sx own' y y' sy : bok o n m p -> rnd_ok F r n m p -> (d = Srv0 \/ d = Srv1) ->
  okT F n x -> okT F n x' -> okT F m y -> okT F m y' ->
  let P u v s := match d with Srv0 => prv u v s | _ => prv v u s end in
  view d (product F o (move_rnd d o x x' y y' r) (P own x' sx) (P own' y' sy)) =
  view d (product F o r (P own x sx) (P own' y sy)).
Proof.
  intros Hb Hr Hd Hx Hx' Hy Hy' P. pose proof Hr as (R1 & R2 & R3 & R4 & R5 & R6).
  pose proof (move_rnd_ok d o n m p x x' y y' r Hb Hx Hx' Hy Hy' Hr) as Hr'.
  assert (B : forall u v, okT F n u -> okT F m v -> okT F p (bapply F o u v)) by
    (intros u v Hu Hv; apply (bapply_ok F L o n m p u v Hu Hv Hb)).
  destruct r as [a0 a1 b0 b1 rho sw tr]; cbn [rx0 rx1 ry0 ry1 rrho rswap rtr] in *.
  destruct Hd as [-> | ->]; cbv beta iota zeta in P; unfold P; destruct sw; views;
  rewrite ?(move_sub n), ?(move_sub m), ?(move_sub p) by auto using okT_vadd, okT_move; reflexivity.
Qed.
Lemma product_producer o r x0 x1 sx y0 y1 sy x0' x1' sx' y0' y1' sy' :
  view Producer (product F o r (prv x0 x1 sx) (prv y0 y1 sy)) =
  view Producer (product F o r (prv x0' x1' sx') (prv y0' y1' sy')).
Proof. views. reflexivity. Qed.

(** Public operand. *)
Lemma product_pub_priv_view d o r v0 v1 sx y0 y1 y sy : (d = Srv0 \/ d = Srv1) ->
  view d (product F o r (Pub v0 v1 sx) (prv y0 y1 sy)) =
  view d (product F o r (Pub v0 v1 sx) (match d with Srv0 => prv y0 y sy | _ => prv y y1 sy end)).
Proof. intros [-> | ->]; destruct o; views; reflexivity. Qed.
Lemma product_priv_pub_view d o r v0 v1 sx y0 y1 y sy : (d = Srv0 \/ d = Srv1) ->
  (forall tab, o <> BMat tab) ->
  view d (product F o r (prv y0 y1 sy) (Pub v0 v1 sx)) =
  view d (product F o r (match d with Srv0 => prv y0 y sy | _ => prv y y1 sy end) (Pub v0 v1 sx)).
Proof. intros [-> | ->] Ho; destruct o as [|tab|]; try (exfalso; exact (Ho tab eq_refl)); views; reflexivity. Qed.
Lemma matmul_priv_pub_leak tab r v0 v1 sx y0 y1 sy :
  snd (product F (BMat tab) r (prv y0 y1 sy) (Pub v0 v1 sx)) = Err AssertionError /\
  In y0 (view Srv0 (product F (BMat tab) r (prv y0 y1 sy) (Pub v0 v1 sx))) /\
  In y1 (view Srv0 (product F (BMat tab) r (prv y0 y1 sy) (Pub v0 v1 sx))).
Proof. split; [reflexivity|]. views. split; cbn; auto. Qed.

(** Interactive truncation: server 0 sees nothing of share 1; a change of share 0 is hidden
    from server 1 by the corresponding change of the mask. *)
Lemma bind_inv {A B} (m : M F A) (k : A -> M F B) b : snd (bind m k) = Ok b ->
  exists a, snd m = Ok a /\ snd (k a) = Ok b /\ fst (bind m k) = fst m ++ fst (k a).
Proof. unfold bind. destruct (snd m) as [a|e] eqn:E; cbn; intros H; [exists a; auto|discriminate]. Qed.
Lemma view_bind d {A B} (m : M F A) (k : A -> M F B) a : snd m = Ok a -> view d (bind m k) = view d m ++ view d (k a).
Proof. intros E. unfold view, bind. rewrite E. cbn [fst]. rewrite filter_app, map_app. reflexivity. Qed.
Lemma opo_view_other d d' f (x : pv F) : d <> d' -> view d (opo d' f x) = [].
Proof.
  intros H. unfold view, opo. destruct (sequence _); cbn [fst filter];
  destruct d, d'; cbn [dev_eqb fst map]; reflexivity || contradiction.
Qed.

Definition fx_total (X : fixops F) : Prop := forall e k, exists e', fx_mod X e k = Some e'.
Lemma opo_total X d k (x : pv F) : fx_total X -> exists y,
  opo d (fun e => fx_mod X e k) x = ([(d, pval x); (d, y)], Ok (MkPv d y)).
Proof.
  intros T. unfold opo. assert (H : exists y, sequence (map (fun e => fx_mod X e k) (pval x)) = Some y).
  { induction (pval x) as [|e l [y IH]]; [exists []; reflexivity|]. destruct (T e k) as [e' He].
    cbn [map sequence]. rewrite He, IH. eauto. }
  destruct H as [y ->]. eauto.
Qed.
Lemma move_add2 n r h x x' : okT F n r -> okT F n h -> okT F n x -> okT F n x' ->
  vadd F (vadd F x' h) (move r x' x) = vadd F (vadd F x h) r.
Proof.
  intros Hr Hh Hx Hx'. apply (ten_ext F L n); auto using okT_vadd, okT_move. intros i Hi. unfold move.
  rewrite !(tval_vadd F L n), (tval_vsub F L n) by auto using okT_vadd, okT_vsub. apply eqm_eq. ring.
Qed.

Ltac tview W0 W1 n := unfold truncate_interactive; cbn [pval pdev]; rewrite ?(okT_len F _ _ W0), ?(okT_len F _ _ W1);
  unfold add; run;
  repeat rewrite (mk_priv_ok F n) by (cbn [pdev pval]; auto using okT_vadd, okT_vconst); run.

Lemma interactive_view X c n r a0 a1 (sc : bool) : fx_total X -> okT F n a0 -> okT F n a1 -> okT F n r ->
  exists cl rl tl0 tl1,
  let h := vconst F n (if sc then bound_double c / scaling_factor c * scaling_factor c else bound_double c / scaling_factor c) in
  let c0 := vadd F (vadd F a0 h) r in
  sequence (map (fun e => fx_mod X e (scaling_factor c)) (vadd F c0 a1)) = Some cl /\
  sequence (map (fun e => fx_mod X e (scaling_factor c)) r) = Some rl /\
  (forall i, inverse (scaling_factor c) MM = Some i ->
    tl0 = [rl; vmul F rl (vconst F (length rl) (-1)); a0; vmul F rl (vconst F (length rl) (-1));
      vsub F a0 (vmul F rl (vconst F (length rl) (-1))); vsub F a0 (vmul F rl (vconst F (length rl) (-1)));
      vmul F (vsub F a0 (vmul F rl (vconst F (length rl) (-1)))) (vconst F (length (vsub F a0 (vmul F rl (vconst F (length rl) (-1))))) i)] /\
    tl1 = [a1; cl; vsub F a1 cl; vsub F a1 cl; vmul F (vsub F a1 cl) (vconst F (length (vsub F a1 cl)) i)]) /\
  view Srv0 (truncate_interactive F X c r (MkPv Srv0 a0) (MkPv Srv1 a1) sc) =
    match inverse (scaling_factor c) MM with None => [] | Some i =>
    [h; a0; h; vadd F a0 h; r; vadd F a0 h; r; c0; r; rl] ++ tl0 end /\
  view Srv1 (truncate_interactive F X c r (MkPv Srv0 a0) (MkPv Srv1 a1) sc) =
    match inverse (scaling_factor c) MM with None => [] | Some i =>
    [h; c0; a1; vadd F c0 a1; vadd F c0 a1; cl] ++ tl1 end.
Proof.
  intros T W0 W1 Wr. set (h0 := if sc then _ else _).
  destruct (opo_total X Srv1 (scaling_factor c) (MkPv Srv1 (vadd F (vadd F (vadd F a0 (vconst F n h0)) r) a1)) T) as [cl Ecl].
  destruct (opo_total X Srv0 (scaling_factor c) (MkPv Srv0 r) T) as [rl Erl].
  destruct (inverse (scaling_factor c) MM) as [i|] eqn:Ei.
  - eexists cl, rl, _, _. cbv zeta. repeat match goal with |- _ /\ _ => split end.
    + unfold opo in Ecl. cbn [pval] in Ecl. destruct (sequence _); congruence.
    + unfold opo in Erl. cbn [pval] in Erl. destruct (sequence _); congruence.
    + intros j Hj. injection Hj as <-. split; reflexivity.
    + unfold view. tview W0 W1 n. rewrite Ei. fold h0. run. rewrite Ecl. run. rewrite Erl. run. rewrite mk_priv_log. reflexivity.
    + unfold view. tview W0 W1 n. rewrite Ei. fold h0. run. rewrite Ecl. run. rewrite Erl. run. rewrite mk_priv_log. reflexivity.
  - exists cl, rl, [], []. cbv zeta. repeat match goal with |- _ /\ _ => split end.
    + unfold opo in Ecl. cbn [pval] in Ecl. destruct (sequence _); congruence.
    + unfold opo in Erl. cbn [pval] in Erl. destruct (sequence _); congruence.
    + discriminate.
    + unfold view, truncate_interactive. rewrite Ei. reflexivity.
    + unfold view, truncate_interactive. rewrite Ei. reflexivity.
Qed.

Lemma interactive_hides_1 X c n r a0 a0' a1 sc : fx_total X -> okT F n a0 -> okT F n a0' -> okT F n a1 -> okT F n r ->
  view Srv1 (truncate_interactive F X c (move r a0' a0) (MkPv Srv0 a0') (MkPv Srv1 a1) sc) =
  view Srv1 (truncate_interactive F X c r (MkPv Srv0 a0) (MkPv Srv1 a1) sc).
Proof.
  intros T W0 W0' W1 Wr.
  destruct (interactive_view X c n r a0 a1 sc T W0 W1 Wr) as (cl & rl & t0 & t1 & E1 & _ & Et & _ & ->).
  destruct (interactive_view X c n (move r a0' a0) a0' a1 sc T W0' W1 (okT_move n r a0' a0 Wr W0' W0)) as (cl' & rl' & t0' & t1' & E1' & _ & Et' & _ & ->).
  cbv zeta in *. rewrite (move_add2 n) in E1' by auto using okT_vconst. rewrite E1 in E1'. injection E1' as <-.
  rewrite (move_add2 n) by auto using okT_vconst.
  destruct (inverse _ _) as [i|]; [|reflexivity]. destruct (Et i eq_refl) as [_ ->]. destruct (Et' i eq_refl) as [_ ->]. reflexivity.
Qed.
Lemma interactive_hides_0 X c n r a0 a1 a1' sc : fx_total X -> okT F n a0 -> okT F n a1' -> okT F n a1 -> okT F n r ->
  view Srv0 (truncate_interactive F X c r (MkPv Srv0 a0) (MkPv Srv1 a1') sc) =
  view Srv0 (truncate_interactive F X c r (MkPv Srv0 a0) (MkPv Srv1 a1) sc).
Proof.
  intros T W0 W0' W1 Wr.
  destruct (interactive_view X c n r a0 a1 sc T W0 W1 Wr) as (cl & rl & t0 & t1 & _ & E1 & Et & -> & _).
  destruct (interactive_view X c n r a0 a1' sc T W0 W0' Wr) as (cl' & rl' & t0' & t1' & _ & E1' & Et' & -> & _).
  cbv zeta in *. rewrite E1 in E1'. injection E1' as <-.
  destruct (inverse _ _) as [i|]; [|reflexivity]. destruct (Et i eq_refl) as [-> _]. destruct (Et' i eq_refl) as [-> _]. reflexivity.
Qed.
End PondSecrecy.
