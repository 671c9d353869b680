(** Matrix products, seen by one server. *)
From Verif Require Import Base TensorModel Aby3Model Aby3Spec Aby3NetModel Aby3TraceModel Aby3TraceSpec Aby3Bits Aby3Proofs Aby3Fresh Aby3View Aby3Hide Aby3Draws Aby3Draws2.
From Coq Require Import Lia.

(** Reads the values [l] and one more and adds it to [u]. *)
Definition opv (dv : dev) (f : fac) (l : list Z) (u : Z) (a : pv) : M pv := fun s => (s, map (Saw dv) (l ++ [vz a]), Ok (MkV dv (gadd Arith f u (vz a)))).
Lemma e_opv {B} dv f l u a (h : pv -> M B) s : bind (opv dv f l u a) h s = emit (map (Saw dv) (l ++ [vz a])) (h (MkV dv (gadd Arith f u (vz a))) s).
Proof. unfold bind, opv. destruct (h _ s) as [[? ?] ?]. reflexivity. Qed.
Lemma f_map dv dv' l : dev_eqb dv' dv = false -> filter (fun e => match e with Saw d' _ => dev_eqb dv' d' | Seed d' _ _ _ _ => dev_eqb dv' d' end) (map (Saw dv) l) = [].
Proof. intros E. induction l as [|v l IH]; [reflexivity|]. cbn [map filter]. rewrite E. exact IH. Qed.
Lemma f_map_id dv l : filter (fun e => match e with Saw d' _ => dev_eqb dv d' | Seed d' _ _ _ _ => dev_eqb dv d' end) (map (Saw dv) l) = map (Saw dv) l.
Proof. induction l as [|v l IH]; [reflexivity|]. cbn [map filter]. rewrite (proj2 (dev_eqb_eq dv dv) eq_refl), IH. reflexivity. Qed.
Definition mm_known (d : dev) (l0 l1 l2 : list Z) (u0 u1 u2 : Z) (l0' l1' l2' : list Z) (u0' u1' u2' : Z) : Prop :=
  match d with S0 => l0 = l0' /\ u0 = u0' | S1 => l1 = l1' /\ u1 = u1' | S2 => l2 = l2' /\ u2 = u2' | _ => False end.
Lemma seeds_saws dv l : seeds (map (Saw dv) l) = [].
Proof. induction l as [|v l IH]; [reflexivity|exact IH]. Qed.
Lemma log_emit {A} l (r : state * list ev * res A) : log_of (emit l r) = l ++ log_of r.
Proof. destruct r as [[? ?] ?]. reflexivity. Qed.
Lemma st_emit {A} l (r : state * list ev * res A) : state_of (emit l r) = state_of r.
Proof. destruct r as [[? ?] ?]. reflexivity. Qed.
Lemma view_emit {A} dv l (r : state * list ev * res A) :
  view dv (emit l r) = filter (fun e => match e with Saw d' _ => dev_eqb dv d' | Seed d' _ _ _ _ => dev_eqb dv d' end) l ++ view dv r.
Proof. destruct r as [[? ?] ?]. unfold view. cbn [emit fst snd]. apply filter_app. Qed.
Lemma snd_emit {A} l (r : state * list ev * res A) : snd (emit l r) = snd r.
Proof. destruct r as [[? ?] ?]. reflexivity. Qed.
Ltac absO L := let p := fresh "p" in let s := fresh "s" in intros p s; repeat first [emit1|rewrite e_opv; cbn [vz vd]]; unfold mk_priv, ret; cbn [vd andb]; rewrite ?on_srv; cbn [andb];
  let g := fresh "g" in set (g := fun j => at_ p (nth j (L s) dpt));
  let l := eval hnf in (L s) in abs_list p g 0%nat l;
  match goal with |- ?l = ?r _ _ => let l' := eval pattern s, g in l in match l' with ?F _ _ => unify r F end end; reflexivity.
Ltac finO EX UX := split; [|split; [|split]];
  [ let j := fresh in let J := fresh in intros j J; below; assumption
  | rewrite !view_emit, ?f_map_id, ?(f_map S0 S1), ?(f_map S1 S0), ?(f_map S0 S2), ?(f_map S2 S0), ?(f_map S1 S2), ?(f_map S2 S1) by reflexivity; cbn [pickl nth]; rewrite ?EX; reflexivity
  | rewrite !snd_emit; cbn [matched pickl nth snd]; prove_twin; rewrite ?EX; first [assumption|reflexivity|gw]
  | let h' := fresh "h'" in let Wh := fresh "Wh" in let V := fresh "V" in intros h' ? ? Wh V;
    rewrite !view_emit, ?f_map_id, ?(f_map S0 S1), ?(f_map S1 S0), ?(f_map S0 S2), ?(f_map S2 S0), ?(f_map S1 S2), ?(f_map S2 S1) in V by reflexivity;
    cbn [filter dev_eqb app view snd fst] in V; rewrite !map_app, <- !app_assoc in V; cbn [map] in V; peel V; apply app_inv_head in V; peel V; clear V; repeat match goal with H : _ = _ :> ev |- _ => clear H | H : ?x = ?x |- _ => clear H end;
    wordsof Wh; intros ? ?; below; cbn [pickl nth]; vars h'; subst; try reflexivity; apply UX; gw ].
Section Matmul.
Context (colo : bool) (d : dev).
Definition mm_core (prf : oracle) f sc l0 l1 l2 u0 u1 u2 : M priv :=
  do a <- zero_sharing prf Arith f;
  match a with (a0, a1, a2) =>
  do z0 <- opv S0 f l0 u0 a0; do z1 <- opv S1 f l1 u1 a1; do z2 <- opv S2 f l2 u2 a2;
  do b01 <- copy S0 z1; do b11 <- copy S1 z2; do b21 <- copy S2 z0;
  mk_priv colo z0 b01 z1 b11 z2 b21 sc Arith f
  end.
Lemma v_mm_core f sc l0 l1 l2 u0 u1 u2 l0' l1' l2' u0' u1' u2' : ready Arith f ->
  word f u0 -> word f u1 -> word f u2 -> word f u0' -> word f u1' -> word f u2' ->
  mm_known d l0 l1 l2 u0 u1 u2 l0' l1' l2' u0' u1' u2' ->
  looks d (fun p => mm_core p f sc l0 l1 l2 u0 u1 u2) (fun p => mm_core p f sc l0' l1' l2' u0' u1' u2') (twin d Arith f sc).
Proof.
  intros Rd U0 U1 U2 U0' U1' U2' K. pose proof (proj1 Rd) as Fk. unfold mm_core, zero_sharing.
  eapply (v_list d 3 (zlist f)); [reflexivity|fokL|nodups|absO (zlist f)|absO (zlist f)|ext|ext| | |].
  - intros s g q. cbv beta. rewrite !log_emit, !seeds_app, !seeds_saws. cbn. tauto.
  - intros s g h. cbv beta. rewrite !log_emit, !st_emit, !seeds_app, !seeds_saws. split; reflexivity.
  - intros s g Wg. cbv beta. wordsof Wg.
    destruct d; cbn [mm_known] in K; try contradiction; destruct K as [<- <-].
    + destruct (new3 Arith f u1 u1' (g 1%nat) (g 2%nat) Rd U1 U1' ltac:(gw) ltac:(gw)) as (X & WX & EX & UX). exists (pickl [g 0%nat; g 1%nat; X]). finO EX UX.
    + destruct (new3 Arith f u2 u2' (g 2%nat) (g 0%nat) Rd U2 U2' ltac:(gw) ltac:(gw)) as (X & WX & EX & UX). exists (pickl [X; g 1%nat; g 2%nat]). finO EX UX.
    + destruct (new3 Arith f u0 u0' (g 0%nat) (g 1%nat) Rd U0 U0' ltac:(gw) ltac:(gw)) as (X & WX & EX & UX). exists (pickl [g 0%nat; X; g 2%nat]). finO EX UX.
Qed.
End Matmul.

Definition shares4 (g h : priv -> pv) (xs ys : list priv) : list Z := map vz (map g xs) ++ map vz (map h xs) ++ map vz (map g ys) ++ map vz (map h ys).
Definition local4 (f : fac) (g h : priv -> pv) (xs ys : list priv) : Z :=
  wadd f (wadd f (dot f (map vz (map g xs)) (map vz (map g ys))) (dot f (map vz (map g xs)) (map vz (map h ys)))) (dot f (map vz (map h xs)) (map vz (map g ys))).
Lemma loc4 f n (A B C D : list Z) a : length A = n -> length B = n -> length C = n -> length D = n ->
  let l := A ++ B ++ C ++ D ++ [a] in
  let x0 := firstn n l in let x1 := firstn n (skipn n l) in
  let y0 := firstn n (skipn (2 * n) l) in let y1 := firstn n (skipn (3 * n) l) in
  wadd f (wadd f (wadd f (dot f x0 y0) (dot f x0 y1)) (dot f x1 y0)) (nth (4 * n) l 0) = wadd f (wadd f (wadd f (dot f A C) (dot f A D)) (dot f B C)) a.
Proof.
  intros HA HB HC HD. cbv zeta.
  rewrite (firstn_app_len A) by exact HA. rewrite (skipn_app_len A _ n) by exact HA. rewrite (firstn_app_len B) by exact HB.
  replace (skipn (2 * n) (A ++ B ++ C ++ D ++ [a])) with (C ++ D ++ [a]).
  2:{ rewrite (app_assoc A). rewrite (skipn_app_len (A ++ B)); [reflexivity|rewrite app_length; lia]. }
  replace (skipn (3 * n) (A ++ B ++ C ++ D ++ [a])) with (D ++ [a]).
  2:{ rewrite (app_assoc A), (app_assoc (A ++ B)). rewrite (skipn_app_len ((A ++ B) ++ C)); [reflexivity|rewrite !app_length; lia]. }
  rewrite (firstn_app_len C) by exact HC. rewrite (firstn_app_len D) by exact HD.
  replace (nth (4 * n) (A ++ B ++ C ++ D ++ [a]) 0) with a; [reflexivity|].
  rewrite (app_assoc A), (app_assoc (A ++ B)), (app_assoc ((A ++ B) ++ C)).
  rewrite app_nth2; rewrite !app_length; [|lia].
  replace (4 * n - (length A + length B + length C + length D))%nat with 0%nat by lia. reflexivity.
Qed.
Lemma opl_opv dv f (g h : priv -> pv) xs ys a s : wadd f = gadd Arith f -> length xs = length ys ->
  opl dv (fun l => let n := length xs in let x0 := firstn n l in let x1 := firstn n (skipn n l) in
    let y0 := firstn n (skipn (2 * n) l) in let y1 := firstn n (skipn (3 * n) l) in
    wadd f (wadd f (wadd f (dot f x0 y0) (dot f x0 y1)) (dot f x1 y0)) (nth (4 * n) l 0))
    (map g xs ++ map h xs ++ map g ys ++ map h ys ++ [a]) s = opv dv f (shares4 g h xs ys) (local4 f g h xs ys) a s.
Proof.
  intros E L. unfold opl, opv, shares4, local4. rewrite !map_app. cbn [map]. rewrite <- !app_assoc.
  f_equal; [f_equal|].
  - rewrite !map_map. reflexivity.
  - do 2 f_equal. cbv zeta. rewrite (loc4 f (length xs)); [rewrite E; reflexivity|rewrite !map_length; lia ..].
Qed.
Lemma bind_both {A B} (m m' : M A) (k k' : A -> M B) s : m s = m' s -> (forall a s, k a s = k' a s) -> bind m k s = bind m' k' s.
Proof. intros E H. unfold bind. rewrite E. destruct (m' s) as [[s1 l1] [a|e]]; [rewrite H|]; reflexivity. Qed.
Lemma mm_eq prf colo f sc xs ys s : wadd f = gadd Arith f -> length xs = length ys ->
  matmul_pp_raw prf colo f sc xs ys s = mm_core colo prf f sc (shares4 p00 p01 xs ys) (shares4 p10 p11 xs ys) (shares4 p20 p21 xs ys)
    (local4 f p00 p01 xs ys) (local4 f p10 p11 xs ys) (local4 f p20 p21 xs ys) s.
Proof.
  intros E L. unfold matmul_pp_raw, mm_core. apply bind_both; [reflexivity|]. intros [[a0 a1] a2] s1.
  apply bind_both; [apply (opl_opv S0 f p00 p01 xs ys a0 s1 E L)|]. intros z0 s2.
  apply bind_both; [apply (opl_opv S1 f p10 p11 xs ys a1 s2 E L)|]. intros z1 s3.
  apply bind_both; [apply (opl_opv S2 f p20 p21 xs ys a2 s3 E L)|]. reflexivity.
Qed.
Lemma len2 {A B} (R : A -> B -> Prop) xs ys : Forall2 R xs ys -> length xs = length ys.
Proof. induction 1; cbn; congruence. Qed.
Lemma twins_shares d xs xs' : Forall2 (twins d) xs xs' ->
  match d with
  | S0 => map vz (map p00 xs) = map vz (map p00 xs') /\ map vz (map p01 xs) = map vz (map p01 xs')
  | S1 => map vz (map p10 xs) = map vz (map p10 xs') /\ map vz (map p11 xs) = map vz (map p11 xs')
  | S2 => map vz (map p20 xs) = map vz (map p20 xs') /\ map vz (map p21 xs) = map vz (map p21 xs')
  | _ => True end.
Proof.
  induction 1 as [|x x' xs xs' (ty & f & sc & T) _ IH]; [destruct d; auto|]. canon3.
  destruct d; cbn [known] in *; try exact I; repeat match goal with H : _ /\ _ |- _ => destruct H end; cbn; subst; split; congruence.
Qed.
Lemma v_matmul colo d f sc xs xs' ys ys' : server d -> ready Arith f -> Forall2 (twins d) xs xs' -> Forall2 (twins d) ys ys' -> length xs = length ys ->
  looks d (fun p => matmul_pp_raw p colo f sc xs ys) (fun p => matmul_pp_raw p colo f sc xs' ys') (twin d Arith f sc).
Proof.
  intros Sv Rd X Y L. destruct (proj2 Rd eq_refl) as [n En]. assert (E : wadd f = gadd Arith f) by (subst f; reflexivity).
  assert (W : forall a b, word f (wadd f a b)) by (intros; apply word_fcast, Rd).
  assert (L' : length xs' = length ys') by (apply len2 in X, Y; lia).
  eapply v_ext; [intros; apply mm_eq; assumption|intros; apply mm_eq; assumption|].
  apply v_mm_core; try exact Rd; try (unfold local4; apply W).
  apply twins_shares in X, Y. destruct Sv as [->|[->| ->]]; destruct X as [X1 X2], Y as [Y1 Y2]; cbn [mm_known]; unfold shares4, local4; rewrite X1, X2, Y1, Y2; split; reflexivity.
Qed.
