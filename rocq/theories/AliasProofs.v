(** Proofs about the lists of weights of AliasModel.v. *)
From Coq Require Import List Arith Bool Lia.
From Verif Require Import AliasModel AliasSpec.
Import ListNotations.

Lemma replace_length {X} (l : list X) : forall i x, length (replace i x l) = length l.
Proof. induction l as [|a l IH]; intros [|i] x; cbn; congruence. Qed.
Lemma replace_nth {X} (l : list X) : forall i j x, nth_error (replace i x l) j = if Nat.eqb i j then if j <? length l then Some x else None else nth_error l j.
Proof.
  induction l as [|a l IH]; intros i j x.
  - destruct i; cbn; destruct j; try reflexivity; destruct (Nat.eqb _ _); reflexivity.
  - destruct i, j; try reflexivity. cbn [replace nth_error Nat.eqb length]. rewrite IH. reflexivity.
Qed.
Lemma replace_app {X} (l m : list X) : forall a x, replace (length l) x (l ++ a :: m) = l ++ x :: m.
Proof. induction l as [|b l IH]; intros a x; cbn; [reflexivity|]. rewrite IH. reflexivity. Qed.
Lemma replace_twice {X} (l : list X) : forall i x y, replace i y (replace i x l) = replace i y l.
Proof. induction l as [|b l IH]; intros [|i] x y; cbn; try reflexivity. rewrite IH. reflexivity. Qed.
Lemma replace_same {X} (l : list X) : forall i x, nth_error l i = Some x -> replace i x l = l.
Proof. induction l as [|b l IH]; intros [|i] x; cbn; try congruence. intros H. rewrite IH; auto. Qed.

Lemma Forall2_in {X Y} (P Q : X -> Y -> Prop) a b : Forall2 P a b -> (forall x y, In y b -> P x y -> Q x y) -> Forall2 Q a b.
Proof. induction 1 as [|x y a b H _ IH]; intros K; constructor; [apply K; [left; reflexivity|exact H]|apply IH; intros; apply K; [right|]; assumption]. Qed.

Section Proofs.
Context {V : Type}.
Notation heap := (heap V).
Notation layer := (layer V).

Lemma list_at_replace (h : heap) r es c r' : r < length (lists h) ->
  list_at (Heap (replace r es (lists h)) c) r' = if Nat.eqb r r' then es else list_at h r'.
Proof.
  intros L. unfold list_at. cbn [lists]. rewrite <- !nth_default_eq. unfold nth_default. rewrite replace_nth.
  destruct (Nat.eqb_spec r r'); [subst; apply Nat.ltb_lt in L; rewrite L; reflexivity|reflexivity].
Qed.
Lemma list_at_some (h : heap) r : r < length (lists h) -> nth_error (lists h) r = Some (list_at h r).
Proof. intros L. unfold list_at. apply nth_error_nth'. exact L. Qed.
Lemma put_same (h : heap) r es : r < length (lists h) -> list_at h r = es -> replace r es (lists h) = lists h.
Proof. intros L E. apply replace_same. rewrite list_at_some, E; auto. Qed.

Lemma each_define p r (vs : list V) : forall pre (h : heap), r < length (lists h) -> list_at h r = pre ++ map Arr vs ->
  each (define p) r (seq (length pre) (length vs)) h =
  (Heap (replace r (pre ++ map (Var p) (seq (length (cells h)) (length vs))) (lists h)) (cells h ++ map (fun v => (v, v)) vs), None).
Proof.
  induction vs as [|v vs IH]; intros pre h L E.
  - cbn [length seq map each]. rewrite !app_nil_r in *. rewrite (put_same h r pre L E). destruct h; reflexivity.
  - cbn [length seq map each]. rewrite E. cbn [map]. rewrite nth_error_app2, Nat.sub_diag by lia. cbn [nth_error define content].
    unfold write, list_at. cbn [lists cells]. change (nth r (lists h) []) with (list_at h r). rewrite E. cbn [map]. rewrite replace_app.
    set (h1 := Heap (replace r (pre ++ Var p (length (cells h)) :: map Arr vs) (lists h)) (cells h ++ [(v, v)])).
    assert (E1 : list_at h1 r = (pre ++ [Var p (length (cells h))]) ++ map Arr vs).
    { unfold h1. rewrite list_at_replace by exact L. rewrite Nat.eqb_refl, <- app_assoc. reflexivity. }
    assert (L1 : r < length (lists h1)) by (unfold h1; cbn [lists]; rewrite replace_length; exact L).
    specialize (IH (pre ++ [Var p (length (cells h))]) h1 L1 E1). rewrite app_length in IH. cbn [length] in IH.
    rewrite Nat.add_1_r in IH. rewrite IH. unfold h1. cbn [lists cells]. rewrite replace_twice, app_length, <- !app_assoc. cbn [length app].
    rewrite Nat.add_1_r. reflexivity.
Qed.

Lemma each_read p r (ns : list nat) : forall pre vs (h : heap), r < length (lists h) -> list_at h r = pre ++ map (Var p) ns ->
  map (now h) ns = map Some vs ->
  each read r (seq (length pre) (length ns)) h = (Heap (replace r (pre ++ map (Tsr p) vs) (lists h)) (cells h), None).
Proof.
  induction ns as [|n ns IH]; intros pre vs h L E N.
  - destruct vs; [|discriminate]. cbn [length seq map each]. rewrite !app_nil_r in *. rewrite (put_same h r pre L E). destruct h; reflexivity.
  - destruct vs as [|v vs]; [discriminate|]. injection N as N0 N1. unfold now in N0.
    cbn [length seq map each]. rewrite E. cbn [map]. rewrite nth_error_app2, Nat.sub_diag by lia. cbn [nth_error read].
    destruct (nth_error (cells h) n) as [[c w]|] eqn:C; [|discriminate]. cbn in N0. injection N0 as ->.
    unfold write. rewrite E. cbn [map]. rewrite replace_app.
    set (h1 := Heap (replace r (pre ++ Tsr p v :: map (Var p) ns) (lists h)) (cells h)).
    assert (E1 : list_at h1 r = (pre ++ [Tsr p v]) ++ map (Var p) ns).
    { unfold h1. rewrite list_at_replace by exact L. rewrite Nat.eqb_refl, <- app_assoc. reflexivity. }
    assert (L1 : r < length (lists h1)) by (unfold h1; cbn [lists]; rewrite replace_length; exact L).
    specialize (IH (pre ++ [Tsr p v]) vs h1 L1 E1 N1). rewrite app_length in IH. cbn [length] in IH.
    rewrite Nat.add_1_r in IH. rewrite IH. unfold h1. cbn [lists cells]. rewrite replace_twice, <- !app_assoc. reflexivity.
Qed.

(** What the loop of assignments makes of the variables. *)
Fixpoint stored (f : nat -> V -> V) (i : nat) (ns : list nat) (vs : list V) (c : list (V * V)) : list (V * V) :=
  match ns, vs with
  | n :: ns, v :: vs => stored f (S i) ns vs (match nth_error c n with Some (a, _) => replace n (a, f i v) c | None => c end)
  | _, _ => c
  end.
Lemma stored_length f : forall ns i vs c, length (stored f i ns vs c) = length c.
Proof.
  induction ns as [|n ns IH]; intros i [|v vs] c; cbn; try reflexivity. rewrite IH. destruct (nth_error c n) as [[a b]|]; [apply replace_length|reflexivity].
Qed.
Lemma stored_other f : forall ns i vs c m, ~ In m ns -> nth_error (stored f i ns vs c) m = nth_error c m.
Proof.
  induction ns as [|n ns IH]; intros i [|v vs] c m H; cbn; try reflexivity. rewrite IH by (intros I; apply H; right; exact I).
  destruct (nth_error c n) as [[a b]|]; [|reflexivity]. rewrite replace_nth. destruct (Nat.eqb_spec n m); [|reflexivity]. subst. exfalso. apply H. left. reflexivity.
Qed.
Lemma stored_own f : forall ns i vs c k n v, NoDup ns -> nth_error ns k = Some n -> nth_error vs k = Some v -> n < length c ->
  option_map snd (nth_error (stored f i ns vs c) n) = Some (f (i + k) v).
Proof.
  induction ns as [|m ns IH]; intros i [|w vs] c k n v D N W L; try (destruct k; discriminate).
  inversion D as [|? ? D0 D1]; subst. destruct k as [|k]; cbn in N, W.
  - injection N as ->. injection W as ->. cbn. rewrite stored_other by exact D0. destruct (nth_error c n) as [[a b]|] eqn:C.
    + rewrite replace_nth, Nat.eqb_refl. apply Nat.ltb_lt in L. rewrite L. cbn. rewrite Nat.add_0_r. reflexivity.
    + apply nth_error_None in C. lia.
  - cbn. rewrite (IH (S i) vs _ k n v D1 N W); [f_equal; f_equal; lia|]. destruct (nth_error c m) as [[a b]|]; [rewrite replace_length|]; exact L.
Qed.

Lemma assign_each_ok (l : layer) r (ls : list (list (entry V))) :
  nth (own l) ls [] = map (Var (public l)) (attrs l) ->
  forall ns vs i c, skipn i (nth r ls []) = map (Tsr (public l)) vs -> skipn i (attrs l) = ns -> length ns <= length vs ->
  (forall n, In n ns -> n < length c) ->
  assign_each l r (seq i (length ns)) (Heap ls c) = (Heap ls (stored (put l) i ns vs c), None).
Proof.
  intros O. induction ns as [|n ns IH]; intros vs i c R A L B.
  - cbn. destruct vs; reflexivity.
  - destruct vs as [|v vs]; [cbn in L; lia|]. cbn [length seq assign_each stored].
    assert (Nth : forall X (l : list X) k a t, skipn k l = a :: t -> nth_error l k = Some a /\ skipn (S k) l = t).
    { clear. intros X l. induction l as [|b l IH]; intros [|k] a t E; cbn in E; try discriminate.
      - injection E as -> ->. split; reflexivity.
      - destruct (IH k a t E). split; assumption. }
    destruct (Nth _ _ _ _ _ R) as [R0 R1]. destruct (Nth _ _ _ _ _ A) as [A0 A1].
    unfold list_at. cbn [lists]. rewrite O, nth_error_map, A0. cbn [option_map]. rewrite R0. cbn [content assign].
    rewrite Bool.eqb_reflx. cbn [cells]. assert (B0 : n < length c) by (apply B; left; reflexivity).
    destruct (nth_error c n) as [[a b]|] eqn:C; [|apply nth_error_None in C; lia].
    cbn [andthen lists]. apply IH; auto; [cbn in L; lia|]. intros k K. rewrite replace_length. apply B. right. exact K.
Qed.

(** One layer: what [set_weights] does to the heap. *)
Lemma set_layer_ok (l : layer) r (h : heap) :
  own l < length (lists h) -> list_at h (own l) = map (Var (public l)) (attrs l) -> (forall n, In n (attrs l) -> n < length (cells h)) ->
  r < length (lists h) -> r <> own l -> uniform (public l) h (list_at h r) -> list_at h r <> [] -> length (attrs l) <= length (list_at h r) ->
  exists vs extra, map (meant h) (list_at h r) = map Some vs /\
    set_layer l r h = (Heap (replace r (map (Tsr (public l)) vs) (lists h)) (stored (put l) 0 (attrs l) vs (cells h ++ extra)), None).
Proof.
  intros LO EO B LR NE U NN LE.
  assert (FIN : forall vs c, (forall n, In n (attrs l) -> n < length c) -> length (attrs l) <= length vs ->
    let h' := Heap (replace r (map (Tsr (public l)) vs) (lists h)) c in
    assign_each l r (seq 0 (length (list_at h' (own l)))) h' = (Heap (lists h') (stored (put l) 0 (attrs l) vs c), None)).
  { intros vs c Bc Lc h'. assert (O : list_at h' (own l) = map (Var (public l)) (attrs l)).
    { unfold h'. rewrite list_at_replace by exact LR. destruct (Nat.eqb_spec r (own l)); [contradiction|exact EO]. }
    rewrite O, map_length. unfold h'. apply assign_each_ok; auto.
    - cbn [skipn]. change (nth r _ []) with (list_at h' r). unfold h'. rewrite list_at_replace by exact LR. rewrite Nat.eqb_refl. reflexivity. }
  unfold set_layer. destruct U as [U|[U|U]].
  - assert (exists vs, list_at h r = map Arr vs) as [vs E].
    { clear - U. induction (list_at h r) as [|e es IH]; [exists []; reflexivity|]. destruct (U e (or_introl eq_refl)) as [v ->].
      destruct IH as [vs ->]; [intros e' I; apply U; right; exact I|]. exists (v :: vs). reflexivity. }
    exists vs, (map (fun v => (v, v)) vs). split; [rewrite E, !map_map; reflexivity|].
    pose proof (each_define (public l) r vs [] h LR E) as D. cbn [length app] in D.
    set (h1 := Heap (replace r (map (Var (public l)) (seq (length (cells h)) (length vs))) (lists h)) (cells h ++ map (fun v => (v, v)) vs)) in D.
    assert (E1 : list_at h1 r = map (Var (public l)) (seq (length (cells h)) (length vs))).
    { unfold h1. rewrite list_at_replace by exact LR. rewrite Nat.eqb_refl. reflexivity. }
    assert (N1 : map (now h1) (seq (length (cells h)) (length vs)) = map Some vs).
    { unfold h1, now. cbn [cells]. clear. generalize (cells h). induction vs as [|v vs IH]; intros c; [reflexivity|].
      cbn [length seq map]. rewrite nth_error_app2, Nat.sub_diag by lia. cbn. f_equal.
      specialize (IH (c ++ [(v, v)])). rewrite app_length in IH. cbn [length] in IH. rewrite Nat.add_1_r in IH. rewrite <- IH.
      rewrite <- app_assoc. reflexivity. }
    pose proof (each_read (public l) r (seq (length (cells h)) (length vs)) [] vs h1) as R. cbn [length app] in R. rewrite seq_length in R.
    assert (LR1 : r < length (lists h1)) by (unfold h1; cbn [lists]; rewrite replace_length; exact LR).
    specialize (R LR1 E1 N1). destruct vs as [|v0 vs']; [cbn in E; congruence|]. rewrite E at 1. cbn [map accepted].
    rewrite E at 1. rewrite map_length, D. cbn [andthen]. rewrite E1. cbn [length seq map]. cbn [length seq map] in R.
    rewrite map_length, seq_length. rewrite R. cbn [andthen lists cells]. unfold h1. cbn [lists cells]. rewrite replace_twice.
    apply (FIN (v0 :: vs') (cells h ++ map (fun v => (v, v)) (v0 :: vs'))); [intros n I; rewrite app_length; specialize (B n I); lia|]. rewrite E, map_length in LE. exact LE.
  - assert (exists vs, list_at h r = map (Tsr (public l)) vs) as [vs E].
    { clear - U. induction (list_at h r) as [|e es IH]; [exists []; reflexivity|]. destruct (U e (or_introl eq_refl)) as [v ->].
      destruct IH as [vs ->]; [intros e' I; apply U; right; exact I|]. exists (v :: vs). reflexivity. }
    exists vs, []. split; [rewrite E, !map_map; reflexivity|]. rewrite app_nil_r.
    specialize (FIN vs (cells h) B). rewrite E, map_length in LE. specialize (FIN LE). cbn zeta in FIN.
    rewrite (put_same h r _ LR E) in *. cbn [lists] in FIN. replace (Heap (lists h) (cells h)) with h in FIN by (destruct h; reflexivity).
    destruct vs as [|v0 vs']; [cbn in E; congruence|]. rewrite E at 1. cbn [map accepted]. rewrite Bool.eqb_reflx. cbn [andthen]. rewrite E at 1. cbn [map andthen]. exact FIN.
  - assert (exists ns, list_at h r = map (Var (public l)) ns /\ forall n, In n ns -> n < length (cells h)) as [ns [E Bn]].
    { clear - U. induction (list_at h r) as [|e es IH]; [exists []; split; [reflexivity|intros n []]|]. destruct (U e (or_introl eq_refl)) as [n [-> Ln]].
      destruct IH as [ns [-> Bn]]; [intros e' I; apply U; right; exact I|]. exists (n :: ns). split; [reflexivity|]. intros k [<-|K]; auto. }
    assert (exists vs, map (now h) ns = map Some vs) as [vs N].
    { clear - Bn. induction ns as [|n ns IH]; [exists []; reflexivity|]. destruct IH as [vs E]; [intros k K; apply Bn; right; exact K|].
      unfold now. assert (L : n < length (cells h)) by (apply Bn; left; reflexivity). cbn [map].
      destruct (nth_error (cells h) n) as [[a b]|] eqn:C; [|apply nth_error_None in C; lia].
      exists (b :: vs). cbn [map]. rewrite <- E. reflexivity. }
    exists vs, []. split; [rewrite E, map_map; exact N|]. rewrite app_nil_r.
    pose proof (each_read (public l) r ns [] vs h LR E N) as R. cbn [length app] in R.
    assert (LV : length vs = length ns) by (apply (f_equal (@length _)) in N; rewrite !map_length in N; congruence).
    rewrite E, map_length, <- LV in LE. specialize (FIN vs (cells h) B LE). cbn zeta in FIN. cbn [lists] in FIN.
    destruct ns as [|n0 ns']; [cbn in E; congruence|]. rewrite E at 1. cbn [map accepted]. rewrite Bool.eqb_reflx. cbn [andthen]. rewrite E at 1. cbn [map].
    rewrite E at 1. rewrite map_length, R. cbn [andthen]. exact FIN.
Qed.

Lemma meant_some (h : heap) p es : uniform p h es -> forall e, In e es -> forall (q : bool) n, e = Var q n -> n < length (cells h).
Proof.
  intros [U|[U|U]] e I q n ->; destruct (U _ I) as [x X]; try discriminate. destruct X as [X L]. injection X as -> ->. exact L.
Qed.
Lemma uniform_grow p (h h' : heap) es : length (cells h) <= length (cells h') -> uniform p h es -> uniform p h' es.
Proof. intros L [U|[U|U]]; [left; exact U|right; left; exact U|right; right]. intros e I. destruct (U e I) as [n [-> B]]. exists n. split; [reflexivity|lia]. Qed.

(** One layer, whether its list is empty or not. *)
Lemma step_ok (l : layer) (ls : list layer) r rs (h : heap) :
  own l < length (lists h) -> list_at h (own l) = map (Var (public l)) (attrs l) -> (forall n, In n (attrs l) -> n < length (cells h)) ->
  r < length (lists h) -> r <> own l -> uniform (public l) h (list_at h r) -> length (attrs l) <= length (list_at h r) ->
  exists vs extra, map (meant h) (list_at h r) = map Some vs /\
    let h1 := Heap (replace r (map (Tsr (public l)) vs) (lists h)) (stored (put l) 0 (attrs l) vs (cells h ++ extra)) in
    set_all (l :: ls) (r :: rs) h = set_all ls rs h1.
Proof.
  intros LO EO B LR NE U LE. destruct (list_at h r) as [|e es] eqn:E.
  - exists [], []. split; [reflexivity|]. cbn zeta. cbn [set_all]. rewrite E. cbn [tl map]. rewrite (put_same h r [] LR E), app_nil_r.
    destruct (attrs l); [|cbn in LE; lia]. cbn [stored]. destruct h; reflexivity.
  - rewrite <- E in *. destruct (set_layer_ok l r h) as [vs [extra [M S]]]; auto; [congruence|]. exists vs, extra. split; [exact M|]. cbn zeta.
    cbn [set_all]. rewrite E at 1. rewrite S. reflexivity.
Qed.

Definition turned (h h' : heap) (l : layer) (r : nat) : Prop :=
  exists vs, map (meant h) (list_at h r) = map Some vs /\ list_at h' r = map (Tsr (public l)) vs.

Lemma set_all_ok : forall (ls : list layer) (rs : list nat) (h : heap),
  sound ls h -> NoDup rs ->
  Forall2 (fun l r => r < length (lists h) /\ ~ In r (weights ls) /\ uniform (public l) h (list_at h r) /\ length (attrs l) <= length (list_at h r)) ls rs ->
  ordered ls (map (list_at h) rs) ->
  exists h', set_all ls rs h = (h', None) /\ copied h h' ls (map (list_at h) rs) /\ others_kept h h' ls /\ lists_kept h h' rs /\
    length (lists h') = length (lists h) /\ length (cells h) <= length (cells h') /\ Forall2 (turned h h') ls rs.
Proof.
  induction ls as [|l ls IH]; intros rs h [S [NW NA]] ND F O.
  - inversion F; subst. exists h. repeat split; try constructor; try lia; intros; reflexivity.
  - inversion F as [|? r ? rs' [LR [NR [U LE]]] F']; subst. inversion ND as [|? ? ND0 ND1]; subst. cbn [map ordered] in O. destruct O as [O0 O1].
    destruct (S l (or_introl eq_refl)) as [LO [EO B]].
    destruct (step_ok l ls r rs' h LO EO B LR) as [vs [extra [M St]]]; auto. { intros ->. apply NR. left. reflexivity. }
    cbn zeta in St. set (h1 := Heap _ _) in St.
    assert (LL : length (lists h1) = length (lists h)) by (unfold h1; cbn [lists]; apply replace_length).
    assert (LC : length (cells h) <= length (cells h1)) by (unfold h1; cbn [cells]; rewrite stored_length, app_length; lia).
    assert (LA : forall r', list_at h1 r' = if Nat.eqb r r' then map (Tsr (public l)) vs else list_at h r') by (intros r'; unfold h1; apply list_at_replace; exact LR).
    assert (KC : forall n, n < length (cells h) -> ~ In n (attrs l) -> nth_error (cells h1) n = nth_error (cells h) n).
    { intros n Ln Hn. unfold h1. cbn [cells]. rewrite stored_other by exact Hn. apply nth_error_app1. exact Ln. }
    cbn [map concat] in NA. assert (NA' : NoDup (concat (map attrs ls)) /\ NoDup (attrs l) /\ forall n, In n (attrs l) -> ~ In n (concat (map attrs ls))).
    { clear - NA. induction (attrs l) as [|a t IHt]; [repeat split; [exact NA|constructor|intros n []]|]. cbn in NA. inversion NA as [|? ? N0 N1]; subst.
      destruct (IHt N1) as [X [Y Z]]. repeat split; [exact X|constructor; [intros I; apply N0, in_or_app; left; exact I|exact Y]|].
      intros n [<-|I]; [intros J; apply N0, in_or_app; right; exact J|apply Z, I]. }
    destruct NA' as [NA1 [NA0 NX]]. cbn [weights map] in NW. inversion NW as [|? ? NW0 NW1]; subst.
    assert (MS : map (list_at h1) rs' = map (list_at h) rs').
    { apply map_ext_in. intros r' I. rewrite LA. destruct (Nat.eqb_spec r r'); [subst; contradiction|reflexivity]. }
    destruct (IH rs' h1) as [h' [E [CP [OK [LK [LL' [LC' TU]]]]]]]; auto.
    + split; [|split]; auto. intros l' I. destruct (S l' (or_intror I)) as [LO' [EO' B']]. repeat split; [lia| |intros n J; specialize (B' n J); lia].
      rewrite LA. destruct (Nat.eqb_spec r (own l')); [|exact EO']. exfalso. apply NR. right. subst. apply in_map. exact I.
    + eapply Forall2_in; [exact F'|]. cbn beta. intros l0 r0 I [P1 [P2 [P3 P4]]]. rewrite LA.
      destruct (Nat.eqb_spec r r0); [subst; contradiction|]. repeat split; [lia| | |exact P4].
      * intros J. apply P2. right. exact J.
      * eapply uniform_grow; [exact LC|exact P3].
    + rewrite MS. exact O1.
    + assert (ME : forall r' e, In r' rs' -> In e (list_at h r') -> meant h1 e = meant h e).
      { intros r' e I J. destruct e as [v|p v|p n]; try reflexivity. cbn [meant]. unfold now. rewrite KC; [reflexivity| |].
        - assert (exists l' : layer, uniform (public l') h (list_at h r')) as [l' U'].
          { clear - F' I. induction F' as [|x y a b [_ [_ [X _]]] _ IHf]; [destruct I|]. destruct I as [<-|I]; [exists x; exact X|exact (IHf I)]. }
          exact (meant_some h _ _ U' _ J _ _ eq_refl).
        - eapply O0; [apply in_map; exact I|exact J]. }
      exists h'. rewrite St. split; [exact E|]. repeat split.
      * cbn [map]. constructor.
        -- intros i n Hn. assert (In n (attrs l)) as In' by (eapply nth_error_In; exact Hn).
           assert (Lv : length vs = length (list_at h r)) by (apply (f_equal (@length _)) in M; rewrite !map_length in M; congruence).
           assert (Li : i < length (attrs l)) by (apply nth_error_Some; congruence).
           destruct (nth_error vs i) as [v|] eqn:Ev; [|apply nth_error_None in Ev; lia].
           destruct (nth_error (list_at h r) i) as [e|] eqn:Ee; [|apply nth_error_None in Ee; lia]. exists e, v. split; [reflexivity|]. split.
           ++ apply (f_equal (fun x => nth_error x i)) in M. rewrite !nth_error_map, Ev, Ee in M. cbn in M. congruence.
           ++ specialize (B n In'). unfold now. rewrite OK by (try lia; apply NX; exact In'). unfold h1. cbn [cells].
              rewrite (stored_own (put l) (attrs l) 0 vs _ i n v NA0 Hn Ev); [reflexivity|]. rewrite app_length. lia.
        -- unfold copied in CP. rewrite MS in CP. assert (ME' : forall es e, In es (map (list_at h) rs') -> In e es -> meant h1 e = meant h e).
           { intros es e I J. apply in_map_iff in I. destruct I as [r' [<- I]]. exact (ME r' e I J). }
           revert ME'. clear - CP. induction CP as [|x es a b P _ IHf]; intros ME'; [constructor|]. constructor; [|apply IHf; intros es' e I J; exact (ME' es' e (or_intror I) J)].
           intros i n Hn. destruct (P i n Hn) as [e [v [X [Y Z]]]]. exists e, v. split; [exact X|]. split; [|exact Z].
           rewrite <- Y. symmetry. apply (ME' es); [left; reflexivity|eapply nth_error_In; exact X].
      * intros n Ln Hn. cbn [map concat] in Hn. rewrite OK by (try lia; intros I; apply Hn, in_or_app; right; exact I). apply KC; [exact Ln|]. intros I. apply Hn, in_or_app. left. exact I.
      * intros r' Lr Hr. rewrite LK by (try lia; intros I; apply Hr; right; exact I). unfold h1. cbn [lists]. rewrite replace_nth.
        destruct (Nat.eqb_spec r r'); [subst; exfalso; apply Hr; left; reflexivity|reflexivity].
      * congruence.
      * lia.
      * constructor.
        -- exists vs. split; [exact M|]. unfold list_at. rewrite <- nth_default_eq. unfold nth_default. rewrite LK by (try lia; exact ND0).
           unfold h1. cbn [lists]. rewrite replace_nth, Nat.eqb_refl. apply Nat.ltb_lt in LR. rewrite LR. reflexivity.
        -- revert TU ME LA ND0. clear. intros TU ME LA ND0. induction TU as [|x y a b P _ IHf]; [constructor|]. constructor.
           ++ destruct P as [ws [X Y]]. exists ws. split; [|exact Y]. rewrite LA in X. destruct (Nat.eqb_spec r y); [subst; exfalso; apply ND0; left; reflexivity|].
              rewrite <- X. apply map_ext_in. intros e I. symmetry. apply (ME y); [left; reflexivity|exact I].
           ++ apply IHf; [intros r' e I J; apply (ME r'); [right; exact I|exact J]|intros I; apply ND0; right; exact I].
Qed.

Lemma lists_kept_at (h h' : heap) rs r : lists_kept h h' rs -> length (lists h) <= length (lists h') -> r < length (lists h) -> ~ In r rs -> list_at h' r = list_at h r.
Proof. intros K L Lr N. specialize (K r Lr N). rewrite !list_at_some in K by lia. congruence. Qed.
Lemma sound_kept (ls : list layer) (h h' : heap) rs : sound ls h -> lists_kept h h' rs -> length (lists h) <= length (lists h') ->
  length (cells h) <= length (cells h') -> (forall r, In r rs -> ~ In r (weights ls)) -> sound ls h'.
Proof.
  intros [S [N A]] K L C D. split; [|split; assumption]. intros l I. destruct (S l I) as [LO [EO B]]. repeat split; [lia| |intros n J; specialize (B n J); lia].
  rewrite (lists_kept_at h h' rs); auto. intros J. apply (D _ J). apply in_map. exact I.
Qed.

Lemma slices_ok (h : heap) : forall (ls : list layer) ess more, (forall l, In l ls -> list_at h (own l) = map (Var (public l)) (attrs l)) ->
  Forall2 (fun l es => length es = length (attrs l)) ls ess -> slices h ls (concat ess ++ more) = ess.
Proof.
  induction ls as [|l ls IH]; intros ess more S F; inversion F as [|? es ? ess' E F']; subst; [reflexivity|]. cbn [slices concat].
  rewrite (S l (or_introl eq_refl)), map_length, <- E, <- app_assoc, firstn_app, Nat.sub_diag, firstn_all, skipn_app, Nat.sub_diag, skipn_all.
  cbn [firstn skipn app]. rewrite app_nil_r. f_equal. apply IH; [intros; apply S; right; assumption|exact F'].
Qed.

Lemma set_flat_ok (ls : list layer) r (h : heap) ess more :
  sound ls h -> list_at h r = concat ess ++ more -> list_at h r <> [] ->
  Forall2 (fun l es => uniform (public l) h es /\ length es = length (attrs l)) ls ess -> ordered ls ess ->
  exists h', set_flat ls r h = (h', None) /\ copied h h' ls ess /\ others_kept h h' ls /\ lists_kept h h' [] /\ sound ls h'.
Proof.
  intros S E NE F O. destruct S as [S0 [NW NA]].
  assert (SL : slices h ls (list_at h r) = ess).
  { rewrite E. apply slices_ok; [intros l I; apply S0; exact I|]. eapply Forall2_in; [exact F|]. cbn beta. intros x y _ [_ X]. exact X. }
  set (n := length (lists h)). set (h1 := Heap (lists h ++ ess) (cells h)).
  assert (LE : length ess = length ls) by (clear - F; induction F; cbn; congruence).
  assert (L1 : forall x, x < n -> list_at h1 x = list_at h x).
  { intros x L. unfold list_at, h1. cbn [lists]. apply app_nth1. exact L. }
  assert (L2 : map (list_at h1) (seq n (length ls)) = ess).
  { rewrite <- LE. unfold list_at, h1, n. cbn [lists]. clear. generalize (lists h) as a. intros a.
    transitivity (map (fun x => nth x ess []) (seq 0 (length ess))).
    - replace (length a) with (length a + 0) by lia. generalize 0 as k. induction (length ess) as [|m IH]; intros k; [reflexivity|]. cbn [seq map]. rewrite app_nth2 by lia.
      f_equal; [f_equal; lia|]. rewrite <- (IH (Datatypes.S k)). f_equal. f_equal. lia.
    - clear a. induction ess as [|e ess IH]; [reflexivity|]. cbn [length seq map nth]. f_equal. rewrite <- seq_shift, map_map. exact IH. }
  assert (S1 : sound ls h1).
  { split; [|split; assumption]. intros l I. destruct (S0 l I) as [LO [EO B]]. rewrite L1 by exact LO. unfold h1. cbn [lists cells]. rewrite app_length. repeat split; [lia|exact EO|exact B]. }
  destruct (set_all_ok ls (seq n (length ls)) h1) as [h' [Q [CP [OK [LK [LL [LC _]]]]]]]; auto.
  - apply seq_NoDup.
  - assert (F2 : Forall2 (fun l x => uniform (public l) h1 (list_at h1 x) /\ length (attrs l) <= length (list_at h1 x)) ls (seq n (length ls))).
    { rewrite <- L2 in F. revert F. generalize (seq n (length ls)) as xs. intros xs F. clear - F. remember (map (list_at h1) xs) as ys eqn:Y. revert xs Y.
      induction F as [|l es ls ys [U L] _ IH]; intros [|x xs] Y; try discriminate; constructor.
      - injection Y as -> _. split; [exact U|lia].
      - injection Y as _ ->. apply IH. reflexivity. }
    eapply Forall2_in; [exact F2|]. cbn beta. intros l x I [U L]. apply in_seq in I. repeat split; auto.
    + unfold h1. cbn [lists]. rewrite app_length. fold n. lia.
    + intros J. apply in_map_iff in J. destruct J as [l' [J K]]. destruct (S0 l' K) as [LO _]. fold n in LO. lia.
  - rewrite L2. exact O.
  - exists h'. rewrite L2 in CP. split; [|split; [|split; [|split]]].
    + unfold set_flat. destruct (list_at h r) as [|e es] eqn:Er; [contradiction|]. fold n. rewrite SL. exact Q.
    + exact CP.
    + exact OK.
    + intros x L _. rewrite LK; [|unfold h1; cbn [lists]; rewrite app_length; lia|rewrite in_seq; fold n in L; lia]. unfold h1. cbn [lists]. apply nth_error_app1. exact L.
    + eapply sound_kept; [exact S1|exact LK|lia|lia|]. intros x I J. apply in_seq in I. apply in_map_iff in J. destruct J as [l' [J K]]. destruct (S0 l' K) as [LO _]. fold n in LO. lia.
Qed.

Lemma set_nested_ok (ls : list layer) rs (h : heap) :
  sound ls h -> ls <> [] -> NoDup rs -> (forall r, In r rs -> r < length (lists h) /\ ~ In r (weights ls)) ->
  Forall2 (fun l r => uniform (public l) h (list_at h r) /\ length (attrs l) <= length (list_at h r)) ls rs -> ordered ls (map (list_at h) rs) ->
  exists h', set_nested ls rs h = (h', None) /\ copied h h' ls (map (list_at h) rs) /\ others_kept h h' ls /\ lists_kept h h' rs /\ sound ls h' /\ Forall2 (turned h h') ls rs.
Proof.
  intros S NE ND D F O. destruct (set_all_ok ls rs h) as [h' [Q [CP [OK [LK [LL [LC TU]]]]]]]; auto.
  - eapply Forall2_in; [exact F|]. cbn beta. intros l r I [U L]. destruct (D r I). repeat split; auto.
  - exists h'. split; [|repeat (split; [assumption|])].
    + unfold set_nested. destruct rs; [inversion F; subst; contradiction|exact Q].
    + split; [|exact TU]. eapply sound_kept; [exact S|exact LK|lia|lia|]. intros r I. apply D. exact I.
Qed.

Lemma train_tensors (h : heap) : forall (ls : list layer) update, (forall l, In l ls -> exists p vs, list_at h (own l) = map (Tsr p) vs /\ length vs = length (attrs l)) ->
  train update ls h = (h, if forallb (fun l => match attrs l with [] => true | _ => false end) ls then None else Some AttributeError).
Proof.
  induction ls as [|l ls IH]; intros update H; [reflexivity|]. cbn [train forallb]. rewrite IH by (intros; apply H; right; assumption).
  destruct (forallb _ ls); [|rewrite andb_false_r; reflexivity]. cbn [andthen]. rewrite andb_true_r.
  destruct (H l (or_introl eq_refl)) as [p [vs [E L]]]. rewrite E. destruct vs as [|v vs]; destruct (attrs l); try discriminate; [reflexivity|].
  cbn [map length seq descend]. rewrite E. reflexivity.
Qed.

Lemma set_own (ls : list layer) : forall (h : heap), sound ls h -> (exists l, In l ls /\ attrs l <> []) ->
  exists h' l, In l ls /\ set_all ls (weights ls) h = (h', Some TypeError) /\ cells h' = cells h /\ list_at h' (own l) <> map (Var (public l)) (attrs l).
Proof.
  induction ls as [|l ls IH]; intros h [S [NW NA]] [l0 [I0 A0]]; [destruct I0|]. cbn [weights map set_all].
  destruct (S l (or_introl eq_refl)) as [LO [EO B]]. rewrite EO. destruct (attrs l) as [|n ns] eqn:A.
  - destruct I0 as [<-|I0]; [contradiction|]. cbn [map tl]. destruct (IH h) as [h' [l' [I' [Q [C D]]]]].
    + split; [intros; apply S; right; assumption|]. cbn [weights map] in NW. inversion NW; subst. split; [assumption|]. cbn [map concat] in NA. rewrite A in NA. exact NA.
    + exists l0. split; assumption.
    + exists h', l'. split; [right; exact I'|]. split; [exact Q|]. split; assumption.
  - cbn [map]. assert (exists vs, map (now h) (n :: ns) = map Some vs) as [vs N].
    { clear - B. induction (n :: ns) as [|k ks IHk]; [exists []; reflexivity|]. destruct IHk as [vs E]; [intros; apply B; right; assumption|].
      unfold now in *. assert (L : k < length (cells h)) by (apply B; left; reflexivity). cbn [map].
      destruct (nth_error (cells h) k) as [[a b]|] eqn:C; [|apply nth_error_None in C; lia]. exists (b :: vs). cbn [map]. rewrite <- E. reflexivity. }
    pose proof (each_read (public l) (own l) (n :: ns) [] vs h LO EO N) as R. cbn [length app] in R.
    unfold set_layer. rewrite EO. cbn [map accepted]. rewrite Bool.eqb_reflx. cbn [andthen]. rewrite EO. cbn [map].
    cbn [length]. rewrite map_length. rewrite R. cbn [andthen]. destruct vs as [|v vs]; [discriminate|]. cbn [map] in *.
    set (h1 := Heap (replace (own l) (Tsr (public l) v :: map (Tsr (public l)) vs) (lists h)) (cells h)).
    assert (E1 : list_at h1 (own l) = Tsr (public l) v :: map (Tsr (public l)) vs) by (unfold h1; rewrite list_at_replace by exact LO; rewrite Nat.eqb_refl; reflexivity).
    exists h1, l. split; [left; reflexivity|]. rewrite E1. cbn [length seq assign_each]. rewrite E1. cbn [nth_error content assign andthen].
    split; [reflexivity|]. split; [reflexivity|]. rewrite A. discriminate.
Qed.
End Proofs.
