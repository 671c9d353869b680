(** The Pond lemmas in the form the SecureNN proofs use: value and visibility of each result. *)
From Coq Require Import ZArith Lia List Bool.
From Verif Require Import Base Factory TensorModel TensorProofs PondModel PondSpec PondProofs SnnModel SnnSpec.
Import ListNotations.

Lemma rbind_ok {A B} (m : res A) (k : A -> res B) P Q : ryields m P -> (forall a, P a -> ryields (k a) Q) -> ryields (rbind m k) Q.
Proof. intros (a & -> & Ha) H. exact (H a Ha). Qed.
Lemma ryields_run {F A} (m : M F A) P : yields F m P -> ryields (run m) P.
Proof. intros (a & E & H). exists a. split; assumption. Qed.
Lemma ryields_imp {A} (m : res A) (P Q : A -> Prop) : (forall a, P a -> Q a) -> ryields m P -> ryields m Q.
Proof. intros H (a & E & Ha). exists a. auto. Qed.

Section Lift.
Context (F : factory) (L : lawful F).
Notation MM := (fmod F).

Lemma stands_ext n (t : ptensor F) b sc u v : (forall i, (i < n)%nat -> eqm MM (u i) (v i)) ->
  stands n t b sc u -> stands n t b sc v.
Proof.
  intros E [D K]. split; [|exact K]. destruct t; cbn in K; try discriminate; cbn [denotes] in *.
  - destruct D as (A1 & A2 & A3 & A4 & A5 & A6). repeat (split; [assumption|]). intros i Hi.
    destruct (A6 i Hi). rewrite <- (E i Hi). split; assumption.
  - destruct D as (A1 & A2 & A3 & A4 & A5 & A6). repeat (split; [assumption|]). intros i Hi.
    rewrite <- (E i Hi). auto.
Qed.
Lemma stands_scaled n (t : ptensor F) b sc v : stands n t b sc v -> scaled t = sc.
Proof. intros [D _]. eapply denotes_scaled, D. Qed.
Lemma stands_entries n (t : ptensor F) b sc v : stands n t b sc v -> entries t = n.
Proof. intros [D K]. destruct t; cbn in *; try discriminate; apply D. Qed.
Lemma stands_unmasked n (t : ptensor F) b sc v : stands n t b sc v -> unmasked t = t.
Proof. intros [D K]. destruct t; cbn in *; try discriminate; reflexivity. Qed.
Lemma unscaled_ok n (t : ptensor F) b v : stands n t b false v -> unscaled t = Ok tt.
Proof. intros H. unfold unscaled. rewrite (stands_scaled _ _ _ _ _ H). reflexivity. Qed.

Lemma pconst_ok n k sc : stands n (pconst F n k sc) true sc (fun _ => k).
Proof.
  split; [|reflexivity]. cbn [denotes pconst pdev pval]. split; [reflexivity|]. split; [reflexivity|]. split; [reflexivity|].
  pose proof (okT_vconst F L n k). split; [assumption|]. split; [assumption|].
  intros i Hi. split; apply tval_vconst; assumption.
Qed.

Lemma mk_pub_kind v0 v1 sc (z : ptensor F) : snd (mk_pub v0 v1 sc) = Ok z -> knd z = Some true.
Proof. unfold mk_pub. destruct (_ && _); cbn; intros E; inversion E; reflexivity. Qed.
Lemma mk_priv_kind v0 v1 sc (z : ptensor F) : snd (mk_priv v0 v1 sc) = Ok z -> knd z = Some false.
Proof. unfold mk_priv. destruct (_ && _); cbn; intros E; inversion E; reflexivity. Qed.

Lemma snd_bind {A B} (m : M F A) (k : A -> M F B) : snd (bind m k) = match snd m with Ok a => snd (k a) | Err e => Err e end.
Proof. unfold bind. destruct (snd m); reflexivity. Qed.

Ltac kind_tac := repeat (rewrite snd_bind; cbn [op1 op2 fresh snd]);
  unfold check_enc; try (destruct (Bool.eqb _ _); cbn [ret raise snd]; [|discriminate]);
  repeat (rewrite snd_bind; cbn [op1 op2 fresh snd]);
  first [apply mk_pub_kind | apply mk_priv_kind].

Lemma add_kind (x y z : ptensor F) bx by_ : knd x = Some bx -> knd y = Some by_ -> snd (add F x y) = Ok z -> knd z = Some (bx && by_).
Proof.
  intros Kx Ky. destruct x, y; cbn in Kx, Ky; try discriminate; inversion Kx; inversion Ky; subst;
  cbn [add unmasked andb]; kind_tac.
Qed.
Lemma sub_kind (x y z : ptensor F) bx by_ : knd x = Some bx -> knd y = Some by_ -> snd (sub F x y) = Ok z -> knd z = Some (bx && by_).
Proof.
  intros Kx Ky. destruct x, y; cbn in Kx, Ky; try discriminate; inversion Kx; inversion Ky; subst;
  cbn [sub unmasked andb]; kind_tac.
Qed.

Lemma add_st n (x y : ptensor F) bx by_ sc u v : stands n x bx sc u -> stands n y by_ sc v ->
  ryields (run (add F x y)) (fun z => stands n z (bx && by_) sc (fun i => u i + v i)).
Proof.
  intros [Dx Kx] [Dy Ky]. destruct (add_ok F L n x y sc u v Dx Dy) as (z & E & D). exists z. split; [exact E|].
  split; [exact D|]. eapply add_kind; eassumption.
Qed.
Lemma sub_st n (x y : ptensor F) bx by_ sc u v : stands n x bx sc u -> stands n y by_ sc v ->
  ryields (run (sub F x y)) (fun z => stands n z (bx && by_) sc (fun i => u i - v i)).
Proof.
  intros [Dx Kx] [Dy Ky]. destruct (sub_ok F L n x y sc u v Dx Dy) as (z & E & D). exists z. split; [exact E|].
  split; [exact D|]. eapply sub_kind; eassumption.
Qed.
(** Adding private tensors of different encodings is not refused (pond.py 2585-2605). *)
Lemma add_priv_st n (x y : ptensor F) sx sy u v : stands n x false sx u -> stands n y false sy v ->
  ryields (run (add F x y)) (fun z => stands n z false sx (fun i => u i + v i)).
Proof.
  intros Hx [Dy Ky].
  assert (Hy : exists s0 s1, y = Priv s0 s1 sy) by (destruct y; cbn in Ky, Dy; try discriminate; destruct Dy as [-> _]; eauto).
  destruct Hy as (s0 & s1 & ->). pose proof Hx as [Dx Kx].
  assert (Hy' : stands n (Priv s0 s1 sx) false sx v) by (split; [|reflexivity]; destruct Dy as [_ Dy]; split; [reflexivity|exact Dy]).
  pose proof (add_st n x (Priv s0 s1 sx) false false sx u v Hx Hy') as Q. cbn [andb] in Q.
  destruct x as [|x0 x1 sx'|]; try discriminate. exact Q.
Qed.

Definition okrnd n : mulrnd F :=
  MkRnd (vconst F n 0) (vconst F n 0) (vconst F n 0) (vconst F n 0) (vconst F n 0) false (vconst F n 0).
Lemma okrnd_ok n : rnd_ok F (okrnd n) n n n.
Proof. unfold rnd_ok, okrnd; cbn [rx0 rx1 ry0 ry1 rrho rtr]. pose proof (okT_vconst F L n 0). tauto. Qed.
Lemma product_norand (r r' : mulrnd F) (x y : ptensor F) : knd x = Some true \/ knd y = Some true ->
  product F BMul r x y = product F BMul r' x y.
Proof. intros H. destruct x, y; try reflexivity; destruct H; discriminate. Qed.

Lemma mul_st n r (x y : ptensor F) bx by_ sx sy u v : stands n x bx sx u -> stands n y by_ sy v ->
  bx || by_ = true \/ rnd_ok F r n n n ->
  ryields (run (product F BMul r x y)) (fun z => stands n z (bx && by_) (sx || sy) (fun i => u i * v i)).
Proof.
  intros [Dx Kx] [Dy Ky] H.
  assert (E : exists r', rnd_ok F r' n n n /\ product F BMul r x y = product F BMul r' x y).
  { destruct H as [H|H]; [|eauto]. exists (okrnd n). split; [apply okrnd_ok|].
    apply product_norand. apply orb_true_iff in H. destruct H; subst; [left|right]; assumption. }
  destruct E as (r' & R & ->).
  destruct (product_ok F L BMul n n n r' x y sx sy u v) as (z & E & D & K); try assumption; [split; reflexivity|exact I|].
  exists z. split; [exact E|]. split; [exact D|]. destruct x, y, z; cbn in *; try discriminate; try contradiction;
  inversion Kx; inversion Ky; reflexivity.
Qed.

Lemma transform_st n idx (x : ptensor F) b sc v : Forall (in_rng n) idx -> stands n x b sc v ->
  ryields (run (transform F idx x)) (fun z => stands (length idx) z b sc (fun j => zoi (nth j idx None) v)).
Proof.
  intros HI [D K].
  destruct (local1_masked_ok F (vsel F idx) n (length idx) _ x sc v (linear_vsel F L idx n HI) D) as (z & E & Dz & Kz).
  exists z. split; [exact E|]. split; [exact Dz|]. destruct x, z; cbn in *; try discriminate; try contradiction; assumption.
Qed.
Lemma reduce_st n rows (x : ptensor F) b sc v : Forall (Forall (fun i => (i < n)%nat)) rows -> stands n x b sc v ->
  ryields (run (reduce_sum F rows x)) (fun z => stands (length rows) z b sc (fun j => zrow (nth j rows []) v)).
Proof.
  intros HI H. pose proof (stands_unmasked _ _ _ _ _ H) as U. destruct H as [D K].
  destruct (local1_masked_ok F (vlin F rows) n (length rows) _ x sc v (linear_vlin F L rows n HI) D) as (z & E & Dz & Kz).
  exists z. unfold reduce_sum. rewrite U. destruct x; cbn in K; try discriminate;
  (split; [exact E|]; split; [exact Dz|]; destruct z; cbn in *; try contradiction; assumption).
Qed.
Lemma reveal_st n (x : ptensor F) b sc v : stands n x b sc v ->
  ryields (run (reveal F x)) (fun z => stands n z true sc v).
Proof.
  intros [D K]. destruct (reveal_ok F L n x sc v D) as (z & E & Dz & v0 & v1 & s & ->).
  eexists. split; [exact E|]. split; [exact Dz|reflexivity].
Qed.

Lemma pub_st n v0 v1 sc v : @okT F n v0 -> okT F n v1 ->
  (forall i, (i < n)%nat -> eqm MM (tval F v0 i) (v i) /\ eqm MM (tval F v1 i) (v i)) ->
  ryields (run (@mk_pub F (MkPv Srv0 v0) (MkPv Srv1 v1) sc))
    (fun z => z = Pub (MkPv Srv0 v0) (MkPv Srv1 v1) sc /\ stands n z true sc v).
Proof.
  intros H0 H1 H. unfold run. rewrite (mk_pub_ok F n) by (reflexivity || assumption). eexists. split; [reflexivity|].
  split; [reflexivity|]. split; [|reflexivity]. cbn [denotes pdev pval]. auto 10.
Qed.
Lemma priv_st n v0 v1 sc v : @okT F n v0 -> okT F n v1 ->
  (forall i, (i < n)%nat -> eqm MM (tval F v0 i + tval F v1 i) (v i)) ->
  ryields (run (@mk_priv F (MkPv Srv0 v0) (MkPv Srv1 v1) sc))
    (fun z => z = Priv (MkPv Srv0 v0) (MkPv Srv1 v1) sc /\ stands n z false sc v).
Proof.
  intros H0 H1 H. unfold run. rewrite (mk_priv_ok F n) by (reflexivity || assumption). eexists. split; [reflexivity|].
  split; [reflexivity|]. split; [|reflexivity]. cbn [denotes pdev pval]. auto 10.
Qed.
Lemma share_st n secret r swap sc v : okT F n secret -> okT F n r ->
  (forall i, (i < n)%nat -> eqm MM (tval F secret i) (v i)) ->
  ryields (run (share_and_wrap F secret r swap sc)) (fun z => stands n z false sc v).
Proof.
  intros Hs Hr Hv. pose proof (okT_vsub F L n secret r Hs Hr) as Hd.
  assert (V : forall i, (i < n)%nat -> eqm MM (tval F (vsub F secret r) i + tval F r i) (v i)).
  { intros i Hi. rewrite (tval_vsub F L n) by assumption. rewrite <- (Hv i Hi). apply eqm_eq. ring. }
  destruct swap; unfold run, share_and_wrap, share; repeat (rewrite snd_bind; cbn [op1 op2 fresh snd ret fst pval]).
  - destruct (priv_st n r (vsub F secret r) sc v Hr Hd) as (z & E & _ & S).
    { intros i Hi. rewrite Z.add_comm. auto. } exists z. split; assumption.
  - destruct (priv_st n (vsub F secret r) r sc v Hd Hr V) as (z & E & _ & S). exists z. split; assumption.
Qed.

(** ** Bitwise operators and selection *)
Lemma bitwise_not_st n (x : ptensor F) b v : stands n x b false v ->
  ryields (bitwise_not F x) (fun z => stands n z b false (fun i => 1 - v i)).
Proof.
  intros H. unfold bitwise_not. rewrite (unscaled_ok _ _ _ _ H). cbn [rbind]. rewrite (stands_entries _ _ _ _ _ H).
  exact (sub_st n _ x true b false _ v (pconst_ok n 1 false) H).
Qed.
Lemma bitwise_and_st n r (x y : ptensor F) bx by_ u v : stands n x bx false u -> stands n y by_ false v ->
  bx || by_ = true \/ rnd_ok F r n n n ->
  ryields (bitwise_and F r x y) (fun z => stands n z (bx && by_) false (fun i => u i * v i)).
Proof.
  intros Hx Hy H. unfold bitwise_and. rewrite (unscaled_ok _ _ _ _ Hx), (unscaled_ok _ _ _ _ Hy). cbn [rbind].
  exact (mul_st n r x y bx by_ false false u v Hx Hy H).
Qed.
Lemma twice_st n (x : ptensor F) b v : stands n x b false v ->
  ryields (twice F x) (fun z => stands n z b false (fun i => v i * 2)).
Proof.
  intros H. unfold twice. rewrite (stands_unmasked _ _ _ _ _ H), (stands_entries _ _ _ _ _ H).
  pose proof (mul_st n (MkRnd [] [] [] [] [] false []) x _ b true false false v _ H (pconst_ok n 2 false)) as Q.
  rewrite andb_true_r, orb_true_r in Q. cbn [orb] in Q. destruct x; apply Q; left; reflexivity.
Qed.
Lemma bitwise_or_st n r (x y : ptensor F) bx by_ u v : stands n x bx false u -> stands n y by_ false v ->
  bx || by_ = true \/ rnd_ok F r n n n ->
  ryields (bitwise_or F r x y) (fun z => stands n z (bx && by_) false (fun i => u i + v i - u i * v i)).
Proof.
  intros Hx Hy H. unfold bitwise_or. rewrite (unscaled_ok _ _ _ _ Hx), (unscaled_ok _ _ _ _ Hy). cbn [rbind].
  eapply rbind_ok; [exact (add_st n x y bx by_ false u v Hx Hy)|]. intros a Ha.
  eapply rbind_ok; [exact (bitwise_and_st n r x y bx by_ u v Hx Hy H)|]. intros b Hb.
  pose proof (sub_st n a b _ _ false _ _ Ha Hb) as Q. rewrite andb_diag in Q. exact Q.
Qed.
Lemma bitwise_xor_st n r (x y : ptensor F) bx by_ u v : stands n x bx false u -> stands n y by_ false v ->
  bx || by_ = true \/ rnd_ok F r n n n ->
  ryields (bitwise_xor F r x y) (fun z => stands n z (bx && by_) false (fun i => u i + v i - u i * v i * 2)).
Proof.
  intros Hx Hy H. unfold bitwise_xor. rewrite (unscaled_ok _ _ _ _ Hx), (unscaled_ok _ _ _ _ Hy). cbn [rbind].
  eapply rbind_ok; [exact (add_st n x y bx by_ false u v Hx Hy)|]. intros a Ha.
  eapply rbind_ok; [exact (bitwise_and_st n r x y bx by_ u v Hx Hy H)|]. intros b Hb.
  eapply rbind_ok; [exact (twice_st n b _ _ Hb)|]. intros b2 Hb2.
  pose proof (sub_st n a b2 _ _ false _ _ Ha Hb2) as Q. rewrite andb_diag in Q. exact Q.
Qed.
Lemma mul_unscaled X cfg n r (x y : ptensor F) bx by_ sx sy u v : stands n x bx sx u -> stands n y by_ sy v ->
  sx && sy = false -> bx || by_ = true \/ rnd_ok F r n n n ->
  ryields (run (mul F BMul X cfg r x y)) (fun z => stands n z (bx && by_) (sx || sy) (fun i => u i * v i)).
Proof.
  intros Hx Hy Hs H. destruct (mul_st n r x y bx by_ sx sy u v Hx Hy H) as (z & E & S).
  exists z. split; [|exact S]. unfold run, mul in *. rewrite snd_bind, E.
  rewrite (stands_scaled _ _ _ _ _ Hx), (stands_scaled _ _ _ _ _ Hy), Hs. reflexivity.
Qed.
Lemma select_st X cfg n r (c x y : ptensor F) bc bx by_ sc k u v : stands n c bc false k ->
  stands n x bx sc u -> stands n y by_ sc v ->
  (bc || (bx && by_) = true \/ rnd_ok F r n n n) ->
  ryields (select F X cfg r c x y) (fun z => stands n z (bc && bx && by_) sc (fun i => (v i - u i) * k i + u i)).
Proof.
  intros Hc Hx Hy H. unfold select.
  eapply rbind_ok; [exact (sub_st n y x by_ bx sc v u Hy Hx)|]. intros d Hd.
  eapply rbind_ok; [apply (mul_unscaled X cfg n r d c (by_ && bx) bc sc false _ k Hd Hc); [apply andb_false_r|]|].
  { rewrite orb_comm, (andb_comm by_ bx). exact H. }
  intros m Hm. rewrite orb_false_r in Hm.
  pose proof (add_st n m x _ bx sc _ u Hm Hx) as Q.
  replace (by_ && bx && bc && bx) with (bc && bx && by_) in Q by (destruct bc, bx, by_; reflexivity). exact Q.
Qed.
End Lift.
