(** Proofs about queues and serving. *)
From Coq Require Import List Arith Bool Lia.
From Verif Require Import QueueModel QueueSpec.
Import ListNotations.

(** ** Windows of a list: what a single queue holds *)

Definition window {A} (g n : nat) (l : list A) : list A := skipn g (firstn n l).
Lemma firstn_S {A} (l : list A) n a : nth_error l n = Some a -> firstn (S n) l = firstn n l ++ [a].
Proof. revert n. induction l as [|x l IH]; intros [|n] H; try discriminate; cbn in *; [injection H as ->; reflexivity|]. f_equal. apply IH, H. Qed.
Lemma skipn_S {A} (l : list A) n a : nth_error l n = Some a -> skipn n l = a :: skipn (S n) l.
Proof. revert n. induction l as [|x l IH]; intros [|n] H; try discriminate; [cbn in *; injection H as ->; reflexivity|]. apply IH, H. Qed.
Lemma skipn_cons {A} (l : list A) n a r : skipn n l = a :: r -> nth_error l n = Some a /\ r = skipn (S n) l.
Proof.
  intros H. assert (E : nth_error l n = Some a).
  { revert n H. induction l as [|x l IH]; intros [|n] H; try discriminate; cbn in *; [congruence|apply IH, H]. }
  split; [exact E|]. rewrite (skipn_S _ _ _ E) in H. congruence.
Qed.
Lemma window_put {A} (l : list A) g n a : g <= n -> nth_error l n = Some a -> window g n l ++ [a] = window g (S n) l.
Proof.
  intros G H. unfold window. rewrite (firstn_S _ _ _ H), skipn_app.
  assert (L : n < length l) by (apply nth_error_Some; congruence).
  rewrite firstn_length, Nat.min_l by lia. replace (g - n) with 0 by lia. reflexivity.
Qed.
Lemma nth_error_firstn {A} (l : list A) n g : nth_error (firstn n l) g = if g <? n then nth_error l g else None.
Proof. revert n g. induction l as [|x l IH]; intros [|n] [|g]; try reflexivity; [cbn; match goal with |- _ = if ?b then _ else _ => destruct b end; reflexivity|]. cbn [firstn nth_error]. rewrite IH. reflexivity. Qed.
Lemma window_get {A} (l : list A) g n a w : window g n l = a :: w -> nth_error l g = Some a /\ w = window (S g) n l /\ g < n.
Proof.
  unfold window. intros H. apply skipn_cons in H. destruct H as [H ->]. rewrite nth_error_firstn in H.
  destruct (Nat.ltb_spec g n) as [L|L]; [|discriminate]. auto.
Qed.
Lemma window_length {A} (l : list A) g n : n <= length l -> length (window g n l) = n - g.
Proof. intros L. unfold window. rewrite skipn_length, firstn_length, Nat.min_l by lia. reflexivity. Qed.
Lemma combine_firstn_map {A} (ts : list (A * A)) a b : combine (firstn a (map fst ts)) (firstn b (map snd ts)) = firstn (Nat.min a b) ts.
Proof. revert a b. induction ts as [|[x y] ts IH]; intros [|a] [|b]; cbn; try reflexivity. f_equal. apply IH. Qed.

(** ** One producer, one consumer *)

Section One.
  Variables (A : Type) (cap : nat) (md : mode) (ts : list (A * A)).
  (** Halves put and got: the state is determined by four counters. *)
  Definition at_counts (n0 n1 m0 m1 : nat) : state A :=
    State A (window m0 n0 (map fst ts)) (window m1 n1 (map snd ts))
      [(skipn n0 (map fst ts), skipn n1 (map snd ts))] [(firstn m0 (map fst ts), firstn m1 (map snd ts))].
  Definition sane (n0 n1 m0 m1 : nat) : Prop := m0 <= n0 /\ n0 <= length ts /\ m1 <= n1 /\ n1 <= length ts.
  Lemma nth_0_only {B} (x : B) p y : nth_error [x] p = Some y -> p = 0 /\ y = x.
  Proof. destruct p as [|[|p]]; cbn; try discriminate. intros E. injection E as ->. auto. Qed.
  Lemma step_counts n0 n1 m0 m1 l s : sane n0 n1 m0 m1 -> step A cap md (at_counts n0 n1 m0 m1) l = Some s ->
    exists n0' n1' m0' m1', s = at_counts n0' n1' m0' m1' /\ sane n0' n1' m0' m1' /\ n0' + n1' + m0' + m1' = S (n0 + n1 + m0 + m1).
  Proof.
    intros (H1 & H2 & H3 & H4) E. destruct l as [p|p|c|c]; unfold step in E; cbn [producers consumers q0 q1 at_counts] in E.
    - destruct (nth_error _ p) as [[[|a r0] r1]|] eqn:Ep; try discriminate. apply nth_0_only in Ep. destruct Ep as [-> Ep].
      injection Ep as E0 E1. symmetry in E0. apply skipn_cons in E0. destruct E0 as [E0 ->]. subst r1.
      destruct (_ && _); [|discriminate]. injection E as <-. exists (S n0), n1, m0, m1. split; [|split; [|lia]].
      + unfold at_counts. cbn [set]. rewrite window_put by assumption. reflexivity.
      + assert (n0 < length (map fst ts)) by (apply nth_error_Some; congruence). rewrite map_length in *. unfold sane. lia.
    - destruct (nth_error _ p) as [[r0 [|b r1]]|] eqn:Ep; try discriminate. apply nth_0_only in Ep. destruct Ep as [-> Ep].
      injection Ep as E0 E1. symmetry in E1. apply skipn_cons in E1. destruct E1 as [E1 ->]. subst r0.
      destruct (_ && _); [|discriminate]. injection E as <-. exists n0, (S n1), m0, m1. split; [|split; [|lia]].
      + unfold at_counts. cbn [set]. rewrite window_put by assumption. reflexivity.
      + assert (n1 < length (map snd ts)) by (apply nth_error_Some; congruence). rewrite map_length in *. unfold sane. lia.
    - destruct (nth_error _ c) as [[d0 d1]|] eqn:Ec; try discriminate. apply nth_0_only in Ec. destruct Ec as [-> Ec]. injection Ec as -> ->.
      destruct (window m0 n0 (map fst ts)) as [|a q] eqn:W; [discriminate|]. apply window_get in W. destruct W as (Wa & -> & L).
      destruct (may0 _ _ _); [|discriminate]. injection E as <-. exists n0, n1, (S m0), m1. split; [|split; [unfold sane; lia|lia]].
      unfold at_counts. cbn [set]. rewrite (firstn_S _ _ _ Wa). reflexivity.
    - destruct (nth_error _ c) as [[d0 d1]|] eqn:Ec; try discriminate. apply nth_0_only in Ec. destruct Ec as [-> Ec]. injection Ec as -> ->.
      destruct (window m1 n1 (map snd ts)) as [|a q] eqn:W; [discriminate|]. apply window_get in W. destruct W as (Wa & -> & L).
      destruct (may1 _ _ _); [|discriminate]. injection E as <-. exists n0, n1, m0, (S m1). split; [|split; [unfold sane; lia|lia]].
      unfold at_counts. cbn [set]. rewrite (firstn_S _ _ _ Wa). reflexivity.
  Qed.
  Lemma runs_counts l : forall n0 n1 m0 m1 s, sane n0 n1 m0 m1 -> runs A cap md (at_counts n0 n1 m0 m1) l = Some s ->
    exists n0' n1' m0' m1', s = at_counts n0' n1' m0' m1' /\ sane n0' n1' m0' m1' /\
      n0' + n1' + m0' + m1' = length l + (n0 + n1 + m0 + m1).
  Proof.
    induction l as [|x l IH]; intros n0 n1 m0 m1 s S E; cbn [runs] in E.
    - injection E as <-. exists n0, n1, m0, m1. auto.
    - destruct (step A cap md (at_counts n0 n1 m0 m1) x) as [s1|] eqn:E1; [|discriminate].
      destruct (step_counts _ _ _ _ _ _ S E1) as (a & b & c & d & -> & S1 & L1). destruct (IH _ _ _ _ _ S1 E) as (a' & b' & c' & d' & -> & S2 & L2).
      exists a', b', c', d'. split; [reflexivity|]. split; [exact S2|]. cbn [length]. lia.
  Qed.
  Lemma start_counts : start A [ts] 1 = at_counts 0 0 0 0.
  Proof. reflexivity. Qed.
  Lemma dequeued_counts n0 n1 m0 m1 : dequeued A (at_counts n0 n1 m0 m1) 0 = firstn (Nat.min m0 m1) ts.
  Proof. unfold dequeued. cbn. apply combine_firstn_map. Qed.

  (** In step with the mode, the counters of the two halves are close. *)
  Definition close (n0 n1 m0 m1 : nat) : Prop :=
    match md with
    | Eager => (n0 = n1 \/ n0 = S n1) /\ (m0 = m1 \/ m0 = S m1)
    | Grouped => n0 <= S n1 /\ n1 <= S n0 /\ m0 <= S m1 /\ m1 <= S m0
    | Free => True
    end.
  Lemma at_inj n0 n1 m0 m1 a b c d : sane n0 n1 m0 m1 -> sane a b c d -> at_counts n0 n1 m0 m1 = at_counts a b c d ->
    n0 = a /\ n1 = b /\ m0 = c /\ m1 = d.
  Proof.
    intros (H1 & H2 & H3 & H4) (I1 & I2 & I3 & I4) E. injection E as _ _ E1 E2 E3 E4.
    apply (f_equal (@length _)) in E1, E2, E3, E4. rewrite !skipn_length, !map_length in E1, E2.
    rewrite !firstn_length, !map_length in E3, E4. lia.
  Qed.
  Lemma step_close n0 n1 m0 m1 l a b c d : sane n0 n1 m0 m1 -> sane a b c d -> close n0 n1 m0 m1 ->
    step A cap md (at_counts n0 n1 m0 m1) l = Some (at_counts a b c d) -> close a b c d.
  Proof.
    intros S S' C E. destruct l as [p|p|k|k]; unfold step in E; cbn [producers consumers q0 q1 at_counts] in E.
    - destruct (nth_error _ p) as [[[|x r0] r1]|] eqn:Ep; try discriminate. apply nth_0_only in Ep. destruct Ep as [-> Ep].
      injection Ep as E0 E1. pose proof (f_equal (@length _) E0) as L0. pose proof (f_equal (@length _) E1) as L1.
      rewrite skipn_length, map_length in L0, L1. destruct (_ && _) eqn:G; [|discriminate].
      apply andb_prop in G. destruct G as [_ G]. injection E as _ _ F1 F2 F3 F4. cbn [set] in *.
      apply (f_equal (@length _)) in F1, F2, F3, F4. rewrite !skipn_length, !map_length in F1, F2. rewrite !firstn_length, !map_length in F3, F4.
      cbn [length] in *. unfold sane in *. unfold close in *. unfold may0 in G. destruct md; [apply Nat.eqb_eq in G|apply Nat.leb_le in G|]; lia.
    - destruct (nth_error _ p) as [[r0 [|x r1]]|] eqn:Ep; try discriminate. apply nth_0_only in Ep. destruct Ep as [-> Ep].
      injection Ep as E0 E1. pose proof (f_equal (@length _) E0) as L0. pose proof (f_equal (@length _) E1) as L1.
      rewrite skipn_length, map_length in L0, L1. destruct (_ && _) eqn:G; [|discriminate].
      apply andb_prop in G. destruct G as [_ G]. injection E as _ _ F1 F2 F3 F4. cbn [set] in *.
      apply (f_equal (@length _)) in F1, F2, F3, F4. rewrite !skipn_length, !map_length in F1, F2. rewrite !firstn_length, !map_length in F3, F4.
      cbn [length] in *. unfold sane in *. unfold close in *. unfold may1 in G. destruct md; [apply Nat.ltb_lt in G|apply Nat.leb_le in G|]; lia.
    - destruct (nth_error _ k) as [[d0 d1]|] eqn:Ec; try discriminate. apply nth_0_only in Ec. destruct Ec as [-> Ec]. injection Ec as -> ->.
      destruct (window m0 n0 (map fst ts)) as [|x q] eqn:W; [discriminate|].
      destruct (may0 _ _ _) eqn:G; [|discriminate]. injection E as _ _ F1 F2 F3 F4. cbn [set] in *.
      apply (f_equal (@length _)) in F1, F2, F3, F4. rewrite ?skipn_length, ?map_length in F1; rewrite ?skipn_length, ?map_length in F2. rewrite ?app_length, ?firstn_length, ?map_length in F3; rewrite ?app_length, ?firstn_length, ?map_length in F4.
      unfold may0 in G. rewrite !firstn_length, !map_length in G. cbn [length] in *. unfold sane in *. unfold close in *. destruct md; [apply Nat.eqb_eq in G|apply Nat.leb_le in G|]; lia.
    - destruct (nth_error _ k) as [[d0 d1]|] eqn:Ec; try discriminate. apply nth_0_only in Ec. destruct Ec as [-> Ec]. injection Ec as -> ->.
      destruct (window m1 n1 (map snd ts)) as [|x q] eqn:W; [discriminate|].
      destruct (may1 _ _ _) eqn:G; [|discriminate]. injection E as _ _ F1 F2 F3 F4. cbn [set] in *.
      apply (f_equal (@length _)) in F1, F2, F3, F4. rewrite ?skipn_length, ?map_length in F1; rewrite ?skipn_length, ?map_length in F2. rewrite ?app_length, ?firstn_length, ?map_length in F3; rewrite ?app_length, ?firstn_length, ?map_length in F4.
      unfold may1 in G. rewrite !firstn_length, !map_length in G. cbn [length] in *. unfold sane in *. unfold close in *. destruct md; [apply Nat.ltb_lt in G|apply Nat.leb_le in G|]; lia.
  Qed.
  Lemma runs_close l : forall n0 n1 m0 m1 a b c d, sane n0 n1 m0 m1 -> close n0 n1 m0 m1 -> sane a b c d ->
    runs A cap md (at_counts n0 n1 m0 m1) l = Some (at_counts a b c d) -> close a b c d.
  Proof.
    induction l as [|x l IH]; intros n0 n1 m0 m1 a b c d S C S' E; cbn [runs] in E.
    - injection E as E. assert (X : at_counts n0 n1 m0 m1 = at_counts a b c d) by (unfold at_counts; congruence).
      destruct (at_inj _ _ _ _ _ _ _ _ S S' X) as (-> & -> & -> & ->). exact C.
    - destruct (step A cap md (at_counts n0 n1 m0 m1) x) as [s1|] eqn:E1; [|discriminate].
      destruct (step_counts _ _ _ _ _ _ S E1) as (a1 & b1 & c1 & d1 & -> & S1 & _).
      exact (IH _ _ _ _ _ _ _ _ S1 (step_close _ _ _ _ _ _ _ _ _ S S1 C E1) S' E).
  Qed.
  (** Someone can move until everything has been delivered. *)
  Lemma progress n0 n1 m0 m1 : 0 < cap -> sane n0 n1 m0 m1 -> close n0 n1 m0 m1 ->
    (forall l, step A cap md (at_counts n0 n1 m0 m1) l = None) -> m0 = length ts /\ m1 = length ts.
  Proof.
    intros Hc S C B. pose proof (B (Put0 0)) as B0. pose proof (B (Put1 0)) as B1. pose proof (B (Get0 0)) as B2. pose proof (B (Get1 0)) as B3.
    unfold step in *. cbn [producers consumers q0 q1 at_counts nth_error] in *. destruct S as (S1 & S2 & S3 & S4).
    assert (L0 : length (window m0 n0 (map fst ts)) = n0 - m0) by (apply window_length; rewrite map_length; exact S2).
    assert (L1 : length (window m1 n1 (map snd ts)) = n1 - m1) by (apply window_length; rewrite map_length; exact S4).
    assert (K0 : n0 < length ts -> n0 - m0 >= cap \/ may0 md (length ts - n0) (length ts - n1) = false).
    { intros L. destruct (nth_error (map fst ts) n0) as [x|] eqn:X; [|apply nth_error_None in X; rewrite map_length in X; lia].
      rewrite (skipn_S _ _ _ X) in B0. rewrite <- (skipn_S _ _ _ X) in B0. rewrite !skipn_length, !map_length, L0 in B0.
      destruct (Nat.ltb_spec (n0 - m0) cap); [|left; assumption]. right. destruct (may0 _ _ _); [discriminate|reflexivity]. }
    assert (K1 : n1 < length ts -> n1 - m1 >= cap \/ may1 md (length ts - n0) (length ts - n1) = false).
    { intros L. destruct (nth_error (map snd ts) n1) as [x|] eqn:X; [|apply nth_error_None in X; rewrite map_length in X; lia].
      rewrite (skipn_S _ _ _ X) in B1. rewrite <- (skipn_S _ _ _ X) in B1. rewrite !skipn_length, !map_length, L1 in B1.
      destruct (Nat.ltb_spec (n1 - m1) cap); [|left; assumption]. right. destruct (may1 _ _ _); [discriminate|reflexivity]. }
    assert (K2 : m0 < n0 -> may0 md m1 m0 = false).
    { intros L. destruct (window m0 n0 (map fst ts)) as [|x q]; [cbn in L0; lia|]. rewrite !firstn_length, !map_length, !Nat.min_l in B2 by lia.
      destruct (may0 md m1 m0); [discriminate|reflexivity]. }
    assert (K3 : m1 < n1 -> may1 md m1 m0 = false).
    { intros L. destruct (window m1 n1 (map snd ts)) as [|x q]; [cbn in L1; lia|]. rewrite !firstn_length, !map_length, !Nat.min_l in B3 by lia.
      destruct (may1 md m1 m0); [discriminate|reflexivity]. }
    clear B B0 B1 B2 B3 L0 L1. unfold close in C. unfold may0, may1 in *. set (n := length ts) in *. clearbody n.
    destruct md.
    - destruct C as [C1 C2].
      assert (n0 < n -> n0 - m0 >= cap \/ n - n0 <> n - n1) by (intros L; destruct (K0 L) as [|K]; [auto|right; apply Nat.eqb_neq, K]).
      assert (n1 < n -> n1 - m1 >= cap \/ ~ n - n0 < n - n1) by (intros L; destruct (K1 L) as [|K]; [auto|right; apply Nat.ltb_ge in K; lia]).
      assert (m0 < n0 -> m1 <> m0) by (intros L; apply Nat.eqb_neq, K2, L).
      assert (m1 < n1 -> ~ m1 < m0) by (intros L; pose proof (K3 L) as K; apply Nat.ltb_ge in K; lia).
      clear K0 K1 K2 K3. lia.
    - assert (n0 < n -> n0 - m0 >= cap \/ n - n0 < n - n1) by (intros L; destruct (K0 L) as [|K]; [auto|right; apply Nat.leb_gt, K]).
      assert (n1 < n -> n1 - m1 >= cap \/ n - n1 < n - n0) by (intros L; destruct (K1 L) as [|K]; [auto|right; apply Nat.leb_gt, K]).
      assert (m0 < n0 -> m1 < m0) by (intros L; apply Nat.leb_gt, K2, L).
      assert (m1 < n1 -> m0 < m1) by (intros L; apply Nat.leb_gt, K3, L).
      clear K0 K1 K2 K3. lia.
    - assert (n0 < n -> n0 - m0 >= cap) by (intros L; destruct (K0 L); [auto|discriminate]).
      assert (n1 < n -> n1 - m1 >= cap) by (intros L; destruct (K1 L); [auto|discriminate]).
      assert (~ m0 < n0) by (intros L; discriminate (K2 L)).
      assert (~ m1 < n1) by (intros L; discriminate (K3 L)).
      clear K0 K1 K2 K3. lia.
  Qed.
End One.

(** ** Serving one client *)

Lemma results_nth {A B} (f : nat -> A -> B) l : forall k i, nth_error (results f k l) i = option_map (f (k + i)) (nth_error l i).
Proof.
  induction l as [|x l IH]; intros k [|i]; cbn; try reflexivity.
  - rewrite Nat.add_0_r. reflexivity.
  - rewrite IH. replace (S k + i) with (k + S i) by lia. reflexivity.
Qed.
Lemma results_length {A B} (f : nat -> A -> B) l : forall k, length (results f k l) = length l.
Proof. induction l as [|x l IH]; intros k; cbn; [reflexivity|rewrite IH; reflexivity]. Qed.
Lemma nth_map {A B} (f : A -> B) l i : nth_error (map f l) i = option_map f (nth_error l i).
Proof. revert i. induction l as [|x l IH]; intros [|i]; cbn; auto. Qed.

Section Serve.
  Variables (A : Type) (compute : nat -> A * A -> A * A) (cin cout : nat) (X : list (A * A)).
  Let R := results compute 0 X.
  Definition client_ok (c : client A) (n0 n1 r0 r1 : nat) : Prop :=
    received A c = firstn r1 R /\ sends (calls A c) = skipn n0 X /\
    match mid A c with
    | Between _ => n0 = n1 /\ r0 = r1
    | HalfSent _ b => n0 = S n1 /\ r0 = r1 /\ nth_error (map snd X) n1 = Some b
    | HalfReceived _ x => n0 = n1 /\ r0 = S r1 /\ nth_error (map fst R) r1 = Some x
    end.
  Definition half (g : option A) (t k : nat) (l : list A) : Prop :=
    match g with None => t = k | Some a => t = S k /\ nth_error l k = Some a end.
  Definition owed (p : option A) (u k : nat) (l : list A) : Prop :=
    match p with None => u = k | Some a => k = S u /\ nth_error l u = Some a end.
  Definition server_ok (s : server A) (t0 t1 u0 u1 : nat) : Prop :=
    half (g0 A s) t0 (served A s) (map fst X) /\ half (g1 A s) t1 (served A s) (map snd X) /\
    owed (p0 A s) u0 (served A s) (map fst R) /\ owed (p1 A s) u1 (served A s) (map snd R) /\
    (g0 A s = None \/ g1 A s = None) /\ (idle A s = false -> g0 A s = None /\ g1 A s = None).
  Record system_ok (s : system A) (c : client A) (n0 n1 t0 t1 u0 u1 r0 r1 : nat) : Prop := {
    so_clients : clients A s = [c];
    so_in0 : in0 A s = window t0 n0 (map fst X); so_in1 : in1 A s = window t1 n1 (map snd X);
    so_out0 : out0 A s = window r0 u0 (map fst R); so_out1 : out1 A s = window r1 u1 (map snd R);
    so_client : client_ok c n0 n1 r0 r1; so_server : server_ok (srv A s) t0 t1 u0 u1;
    so_t0 : t0 <= n0; so_t1 : t1 <= n1; so_n0 : n0 <= length X; so_n1 : n1 <= length X; so_r0 : r0 <= u0; so_r1 : r1 <= u1 }.
  Definition fine (k : nat) (s : system A) : Prop := exists c n0 n1 t0 t1 u0 u1 r0 r1,
    system_ok s c n0 n1 t0 t1 u0 u1 r0 r1 /\ k = n0 + n1 + (t0 + t1) + (u0 + u1) + (r0 + r1).
  Lemma R_length : length R = length X.
  Proof. apply results_length. Qed.
  Lemma R_nth i x : nth_error X i = Some x -> nth_error R i = Some (compute i x).
  Proof. intros H. unfold R. rewrite results_nth, H. reflexivity. Qed.
  Lemma X_pair i a b : nth_error (map fst X) i = Some a -> nth_error (map snd X) i = Some b -> nth_error X i = Some (a, b).
  Proof. rewrite !nth_map. destruct (nth_error X i) as [[x y]|]; cbn; congruence. Qed.
  Lemma R_pair i a b : nth_error (map fst R) i = Some a -> nth_error (map snd R) i = Some b -> nth_error R i = Some (a, b).
  Proof. rewrite !nth_map. destruct (nth_error R i) as [[x y]|]; cbn; congruence. Qed.

  (** The server's computation. *)
  Lemma think_ok a b k u t0 t1 : half a t0 k (map fst X) -> half b t1 k (map snd X) -> u = k ->
    server_ok (think A compute (Server A a b None None k)) t0 t1 u u.
  Proof.
    intros H0 H1 ->. unfold think. cbn [QueueModel.g0 QueueModel.g1 served]. destruct a as [a|]; [destruct b as [b|]|].
    - destruct H0 as [-> H0], H1 as [-> H1]. pose proof (R_nth k _ (X_pair k a b H0 H1)) as E. destruct (compute k (a, b)) as [x y].
      unfold server_ok, half, owed. cbn. rewrite !nth_map, E. cbn. auto 10.
    - unfold server_ok. cbn. split; [exact H0|]. split; [exact H1|]. split; [reflexivity|]. split; [reflexivity|]. split; [auto|discriminate].
    - unfold server_ok. cbn. split; [exact H0|]. split; [exact H1|]. split; [reflexivity|]. split; [reflexivity|]. split; [auto|discriminate].
  Qed.
  Lemma idle_ok s t0 t1 u0 u1 : server_ok s t0 t1 u0 u1 -> idle A s = true -> p0 A s = None /\ p1 A s = None /\ u0 = served A s /\ u1 = served A s.
  Proof.
    intros (_ & _ & O0 & O1 & _) I. unfold idle in I. destruct (p0 A s); [discriminate|]. destruct (p1 A s); [discriminate|]. auto.
  Qed.
  Lemma nth_one {B} (x y : B) i : nth_error [x] i = Some y -> i = 0 /\ x = y.
  Proof. destruct i as [|[|i]]; cbn; try discriminate. intros E. injection E as ->. auto. Qed.

  Lemma move_ok k s m s' : fine k s -> move_step A compute cin cout s m = Some s' -> fine (S k) s'.
  Proof.
    intros (c & n0 & n1 & t0 & t1 & u0 & u1 & r0 & r1 & F & KK) E. destruct F as [Fc F0 F1 G0 G1 FC FS T0 T1 N0 N1 RR0 RR1].
    destruct s as [i0 i1 o0 o1 cl sv]. cbn [clients in0 in1 out0 out1 srv] in *. subst cl i0 i1 o0 o1.
    destruct m as [i| | | |]; cbn [move_step clients in0 in1 out0 out1 srv] in E.
    - destruct (nth_error [c] i) as [c'|] eqn:Ei; [|discriminate]. apply nth_one in Ei. destruct Ei as [-> <-]. destruct c as [cs md rec].
      destruct FC as (Rc & Sc & Mc). cbn [received calls mid] in *. destruct md as [|b|x].
      + destruct Mc as [<- <-]. destruct cs as [|[[a b]|] cs]; [discriminate| |].
        * destruct (_ <? cin); [|discriminate]. injection E as <-. cbn [sends] in Sc. symmetry in Sc. apply skipn_cons in Sc. destruct Sc as [Sn Sc].
          assert (L : n0 < length X) by (apply nth_error_Some; congruence).
          exists (Client A cs (HalfSent A b) rec), (S n0), n0, t0, t1, u0, u1, r0, r0. split; [|lia]. split; cbn [clients in0 in1 out0 out1 srv set]; try reflexivity; try lia; try assumption.
          -- apply window_put; [exact T0|]. rewrite nth_map, Sn. reflexivity.
          -- split; [exact Rc|]. split; [exact Sc|]. cbn. rewrite nth_map, Sn. auto.
        * destruct (window r0 u0 (map fst R)) as [|x q] eqn:W; [discriminate|]. injection E as <-. apply window_get in W. destruct W as (Wx & -> & L).
          exists (Client A cs (HalfReceived A x) rec), n0, n0, t0, t1, u0, u1, (S r0), r0. split; [|lia]. split; cbn [clients in0 in1 out0 out1 srv set]; try reflexivity; try lia; try assumption.
          split; [exact Rc|]. split; [exact Sc|]. cbn. auto.
      + destruct Mc as (-> & <- & Mb). destruct (_ <? cin); [|discriminate]. injection E as <-.
        exists (Client A cs (Between A) rec), (S n1), (S n1), t0, t1, u0, u1, r0, r0. split; [|lia]. split; cbn [clients in0 in1 out0 out1 srv set]; try reflexivity; try lia; try assumption.
        -- apply window_put; assumption.
        -- split; [exact Rc|]. split; [exact Sc|]. cbn. auto.
      + destruct Mc as (<- & -> & Mx). destruct (window r1 u1 (map snd R)) as [|y q] eqn:W; [discriminate|]. injection E as <-.
        apply window_get in W. destruct W as (Wy & -> & L).
        exists (Client A cs (Between A) (rec ++ [(x, y)])), n0, n0, t0, t1, u0, u1, (S r1), (S r1).
        split; [|lia]. split; cbn [clients in0 in1 out0 out1 srv set]; try reflexivity; try lia; try assumption.
        split; [|split; [exact Sc|cbn; auto]]. cbn [received]. rewrite Rc, (firstn_S _ _ _ (R_pair _ _ _ Mx Wy)). reflexivity.
    - destruct (idle A sv) eqn:I; [|discriminate]. destruct (idle_ok _ _ _ _ _ FS I) as (P0 & P1 & U0 & U1).
      destruct FS as (H0 & H1 & _ & _ & _ & _). destruct (g0 A sv) as [|] eqn:Gs; [discriminate|]. cbn in H0.
      destruct (window t0 n0 (map fst X)) as [|a q] eqn:W; [discriminate|]. injection E as <-. apply window_get in W. destruct W as (Wa & -> & L).
      exists c, n0, n1, (S t0), t1, u0, u1, r0, r1. split; [|lia]. split; cbn [clients in0 in1 out0 out1 srv set]; try reflexivity; try lia; try assumption.
      subst u0 u1 t0. apply think_ok; [cbn; auto|exact H1|reflexivity].
    - destruct (idle A sv) eqn:I; [|discriminate]. destruct (idle_ok _ _ _ _ _ FS I) as (P0 & P1 & U0 & U1).
      destruct FS as (H0 & H1 & _ & _ & _ & _). destruct (g1 A sv) as [|] eqn:Gs; [discriminate|]. cbn in H1.
      destruct (window t1 n1 (map snd X)) as [|a q] eqn:W; [discriminate|]. injection E as <-. apply window_get in W. destruct W as (Wa & -> & L).
      exists c, n0, n1, t0, (S t1), u0, u1, r0, r1. split; [|lia]. split; cbn [clients in0 in1 out0 out1 srv set]; try reflexivity; try lia; try assumption.
      subst u0 u1 t1. apply think_ok; [exact H0|cbn; auto|reflexivity].
    - destruct (p0 A sv) as [x|] eqn:P; [|discriminate]. destruct (_ <? cout); [|discriminate]. injection E as <-.
      destruct FS as (H0 & H1 & O0 & O1 & Ng & Ni). rewrite P in O0. destruct O0 as [K Wx].
      assert (I : idle A sv = false) by (unfold idle; rewrite P; reflexivity). destruct (Ni I) as [E0 E1].
      exists c, n0, n1, t0, t1, (S u0), u1, r0, r1. split; [|lia]. split; cbn [clients in0 in1 out0 out1 srv set]; try reflexivity; try lia; try assumption.
      + apply window_put; assumption.
      + unfold server_ok. cbn. rewrite E0, E1 in *. split; [exact H0|]. split; [exact H1|]. split; [congruence|]. split; [exact O1|]. auto.
    - destruct (p1 A sv) as [x|] eqn:P; [|discriminate]. destruct (_ <? cout); [|discriminate]. injection E as <-.
      destruct FS as (H0 & H1 & O0 & O1 & Ng & Ni). rewrite P in O1. destruct O1 as [K Wx].
      assert (I : idle A sv = false) by (unfold idle; rewrite P; destruct (p0 A sv); reflexivity). destruct (Ni I) as [E0 E1].
      exists c, n0, n1, t0, t1, u0, (S u1), r0, r1. split; [|lia]. split; cbn [clients in0 in1 out0 out1 srv set]; try reflexivity; try lia; try assumption.
      + apply window_put; assumption.
      + unfold server_ok. cbn. rewrite E0, E1 in *. split; [exact H0|]. split; [exact H1|]. split; [exact O0|]. split; [congruence|]. auto.
  Qed.
  Lemma moves_ok l : forall k s s', fine k s -> moves A compute cin cout s l = Some s' -> fine (length l + k) s'.
  Proof.
    induction l as [|m l IH]; intros k s s' F E; cbn [moves] in E; [injection E as <-; exact F|].
    destruct (move_step A compute cin cout s m) as [s1|] eqn:E1; [|discriminate]. replace (length (m :: l) + k) with (length l + S k) by (cbn; lia).
    exact (IH (S k) s1 s' (move_ok _ _ _ _ F E1) E).
  Qed.
  Lemma opening_ok cs : sends cs = X -> fine 0 (opening A [cs]).
  Proof.
    intros E. exists (Client A cs (Between A) []), 0, 0, 0, 0, 0, 0, 0, 0. split; [|reflexivity]. split; cbn; try reflexivity; try lia.
    - split; [reflexivity|]. split; [exact E|]. cbn. auto.
    - unfold server_ok. cbn. split; [reflexivity|]. split; [reflexivity|]. split; [reflexivity|]. split; [reflexivity|]. split; [auto|discriminate].
  Qed.
  Lemma fine_received k s c : fine k s -> nth_error (clients A s) 0 = Some c -> prefix (received A c) R.
  Proof.
    intros (c' & n0 & n1 & t0 & t1 & u0 & u1 & r0 & r1 & F & _) E. rewrite (so_clients _ _ _ _ _ _ _ _ _ _ F) in E. injection E as <-.
    destruct (so_client _ _ _ _ _ _ _ _ _ _ F) as [-> _]. exists (skipn r1 R). symmetry. apply firstn_skipn.
  Qed.
  Lemma fine_bound k s : fine k s -> k <= 8 * length X.
  Proof.
    intros (c & n0 & n1 & t0 & t1 & u0 & u1 & r0 & r1 & F & ->). destruct F as [_ _ _ _ _ _ (H0 & H1 & O0 & O1 & _) T0 T1 N0 N1 RR0 RR1].
    assert (served A (srv A s) <= length X) by (clear - H1 T1 N1; unfold half in H1; destruct (g1 A (srv A s)); lia).
    assert (u0 <= length X) by (clear - O0 H; unfold owed in O0; destruct (p0 A (srv A s)); lia).
    assert (u1 <= length X) by (clear - O1 H; unfold owed in O1; destruct (p1 A (srv A s)); lia). lia.
  Qed.

  (** Calls of [run] only: one request at a time. *)
  Definition paced (c : client A) (n0 n1 r1 : nat) : Prop :=
    match mid A c with
    | Between _ => (calls A c = run_calls A (skipn r1 X) /\ n0 = r1) \/ (calls A c = None :: run_calls A (skipn (S r1) X) /\ n0 = S r1)
    | HalfSent _ _ => calls A c = None :: run_calls A (skipn (S r1) X) /\ n1 = r1
    | HalfReceived _ _ => calls A c = run_calls A (skipn (S r1) X) /\ n0 = S r1
    end.
  Definition fine' (s : system A) : Prop := exists c n0 n1 t0 t1 u0 u1 r0 r1, system_ok s c n0 n1 t0 t1 u0 u1 r0 r1 /\ paced c n0 n1 r1.
  Lemma counts_unique s c c' n0 n1 t0 t1 u0 u1 r0 r1 n0' n1' t0' t1' u0' u1' r0' r1' :
    system_ok s c n0 n1 t0 t1 u0 u1 r0 r1 -> system_ok s c' n0' n1' t0' t1' u0' u1' r0' r1' -> c = c' /\ n0 = n0' /\ n1 = n1' /\ r1 = r1'.
  Proof.
    intros F F'. assert (c = c') as <- by (pose proof (so_clients _ _ _ _ _ _ _ _ _ _ F); pose proof (so_clients _ _ _ _ _ _ _ _ _ _ F'); congruence).
    destruct F as [_ _ _ _ _ (Rc & Sc & Mc) FS T0 T1 N0 N1 RR0 RR1]. destruct F' as [_ _ _ _ _ (Rc' & Sc' & Mc') FS' T0' T1' N0' N1' RR0' RR1'].
    assert (n0 = n0'). { rewrite Sc in Sc'. apply (f_equal (@length _)) in Sc'. rewrite !skipn_length in Sc'. lia. }
    assert (B : forall sv a b v0 v1, server_ok sv a b v0 v1 -> b <= length X -> v1 <= length X).
    { intros sv a b v0 v1 (_ & H1 & _ & O1 & _) L. unfold half, owed in *. destruct (g1 A sv), (p1 A sv); lia. }
    assert (r1 = r1').
    { rewrite Rc in Rc'. apply (f_equal (@length _)) in Rc'. rewrite !firstn_length, R_length in Rc'.
      pose proof (B _ _ _ _ _ FS ltac:(lia)). pose proof (B _ _ _ _ _ FS' ltac:(lia)). lia. }
    split; [reflexivity|]. split; [assumption|]. split; [|assumption]. destruct (mid A c); lia.
  Qed.
  Lemma run_calls_cons x l : run_calls A (x :: l) = Some x :: None :: run_calls A l.
  Proof. reflexivity. Qed.
  Lemma run_calls_skip r c cs : run_calls A (skipn r X) = c :: cs -> exists x, c = Some x /\ cs = None :: run_calls A (skipn (S r) X).
  Proof.
    destruct (skipn r X) as [|x l] eqn:E; [discriminate|]. rewrite run_calls_cons. intros H. injection H as <- <-. exists x. split; [reflexivity|].
    apply skipn_cons in E. destruct E as [_ ->]. reflexivity.
  Qed.
  Lemma move_ok' s m s' : fine' s -> move_step A compute cin cout s m = Some s' -> fine' s'.
  Proof.
    intros (c & n0 & n1 & t0 & t1 & u0 & u1 & r0 & r1 & F & P) E.
    assert (F1 : fine (n0 + n1 + (t0 + t1) + (u0 + u1) + (r0 + r1)) s) by (exists c, n0, n1, t0, t1, u0, u1, r0, r1; split; [exact F|reflexivity]).
    destruct (move_ok _ s m s' F1 E) as (c' & n0' & n1' & t0' & t1' & u0' & u1' & r0' & r1' & F' & _). clear F1.
    exists c', n0', n1', t0', t1', u0', u1', r0', r1'. split; [exact F'|].
    assert (B : forall sv a b v0 v1, server_ok sv a b v0 v1 -> b <= length X -> v1 <= length X).
    { intros sv a b v0 v1 (_ & H1 & _ & O1 & _) L. unfold half, owed in *. destruct (g1 A sv), (p1 A sv); lia. }
    pose proof (so_clients _ _ _ _ _ _ _ _ _ _ F) as Fc. pose proof (so_clients _ _ _ _ _ _ _ _ _ _ F') as Fc'.
    destruct (so_client _ _ _ _ _ _ _ _ _ _ F) as (Rc & Sc & Mc). destruct (so_client _ _ _ _ _ _ _ _ _ _ F') as (Rc' & Sc' & Mc').
    pose proof (B _ _ _ _ _ (so_server _ _ _ _ _ _ _ _ _ _ F)) as U1. pose proof (B _ _ _ _ _ (so_server _ _ _ _ _ _ _ _ _ _ F')) as U1'. clear B.
    destruct F as [_ _ _ _ _ _ _ T0 T1 N0 N1 RR0 RR1]. destruct F' as [_ _ _ _ _ _ _ T0' T1' N0' N1' RR0' RR1'].
    specialize (U1 ltac:(lia)). specialize (U1' ltac:(lia)).
    assert (Q : clients A s' = clients A s -> paced c' n0' n1' r1').
    { intros Q. assert (c' = c) as -> by congruence. rewrite Sc in Sc'. rewrite Rc in Rc'. apply (f_equal (@length _)) in Sc', Rc'.
      rewrite !skipn_length in Sc'. rewrite !firstn_length, R_length in Rc'. assert (n0' = n0) as -> by lia. assert (r1' = r1) as -> by lia.
      assert (n1' = n1) as -> by (destruct (mid A c); lia). exact P. }
    destruct m as [i| | | |]; cbn [move_step] in E.
    - rewrite Fc in E. destruct (nth_error [c] i) as [d|] eqn:Ei; [|discriminate]. apply nth_one in Ei. destruct Ei as [-> <-]. destruct c as [cs md rec].
      unfold paced in P. cbn [received calls mid] in *. destruct md as [|b|x].
      + destruct cs as [|[[a b]|] cs]; [discriminate| |].
        * destruct (_ <? cin); [|discriminate]. injection E as <-. cbn [clients set] in Fc'. injection Fc' as <-. cbn [received calls mid] in *.
          unfold paced. cbn [mid calls]. destruct P as [[P Pn]|[P _]]; [|discriminate]. symmetry in P. apply run_calls_skip in P. destruct P as (x & _ & P).
          apply (f_equal (@length _)) in Rc'. rewrite Rc, !firstn_length, R_length in Rc'. assert (r1' = r1) as -> by lia.
          cbn [sends] in Sc. symmetry in Sc. apply skipn_cons in Sc. destruct Sc as [Sn Sc]. assert (n0 < length X) by (apply nth_error_Some; congruence). rewrite Sc in Sc'. apply (f_equal (@length _)) in Sc'. rewrite !skipn_length in Sc'.
          split; [exact P|]. destruct Mc as [M1 M2]. destruct Mc' as (M1' & _ & Mb). assert (n1' < length X) by (rewrite <- (map_length snd); apply nth_error_Some; congruence). lia.
        * destruct (out0 A s) as [|x q]; [discriminate|]. injection E as <-. cbn [clients set] in Fc'. injection Fc' as <-. cbn [received calls mid] in *.
          unfold paced. cbn [mid calls]. destruct P as [[P Pn]|[P Pn]]; [symmetry in P; apply run_calls_skip in P; destruct P as (? & ? & _); discriminate|]. injection P as ->.
          apply (f_equal (@length _)) in Rc'. rewrite Rc, !firstn_length, R_length in Rc'. assert (r1' = r1) as -> by lia.
          cbn [sends] in Sc. rewrite Sc in Sc'. apply (f_equal (@length _)) in Sc'. rewrite !skipn_length in Sc'. split; [reflexivity|lia].
      + destruct (_ <? cin); [|discriminate]. injection E as <-. cbn [clients set] in Fc'. injection Fc' as <-. cbn [received calls mid] in *.
        unfold paced. cbn [mid calls]. destruct P as [P Pn].
        apply (f_equal (@length _)) in Rc'. rewrite Rc, !firstn_length, R_length in Rc'. assert (r1' = r1) as -> by lia.
        rewrite Sc in Sc'. apply (f_equal (@length _)) in Sc'. rewrite !skipn_length in Sc'. right. split; [exact P|]. destruct Mc as (M1 & _). lia.
      + destruct (out1 A s) as [|y q]; [discriminate|]. injection E as <-. cbn [clients set] in Fc'. injection Fc' as <-. cbn [received calls mid] in *.
        unfold paced. cbn [mid calls]. destruct P as [P Pn].
        apply (f_equal (@length _)) in Rc'. rewrite app_length, Rc, !firstn_length, R_length in Rc'. cbn [length] in Rc'.
        destruct Mc as (M1 & M2 & Mx). assert (r1 < length X) by (rewrite <- R_length, <- (map_length fst); apply nth_error_Some; congruence). assert (r1' = S r1) as -> by lia.
        rewrite Sc in Sc'. apply (f_equal (@length _)) in Sc'. rewrite !skipn_length in Sc'. left. split; [exact P|lia].
    - destruct (idle A (srv A s)); [|discriminate]. destruct (g0 A (srv A s)); [discriminate|]. destruct (in0 A s); [discriminate|]. injection E as <-. apply Q. reflexivity.
    - destruct (idle A (srv A s)); [|discriminate]. destruct (g1 A (srv A s)); [discriminate|]. destruct (in1 A s); [discriminate|]. injection E as <-. apply Q. reflexivity.
    - destruct (p0 A (srv A s)); [|discriminate]. destruct (_ <? cout); [|discriminate]. injection E as <-. apply Q. reflexivity.
    - destruct (p1 A (srv A s)); [|discriminate]. destruct (_ <? cout); [|discriminate]. injection E as <-. apply Q. reflexivity.
  Qed.
  Lemma moves_ok' l : forall s s', fine' s -> moves A compute cin cout s l = Some s' -> fine' s'.
  Proof.
    induction l as [|m l IH]; intros s s' F E; cbn [moves] in E; [injection E as <-; exact F|].
    destruct (move_step A compute cin cout s m) as [s1|] eqn:E1; [|discriminate]. exact (IH s1 s' (move_ok' _ _ _ F E1) E).
  Qed.
  Lemma sends_run_calls l : sends (run_calls A l) = l.
  Proof. induction l as [|x l IH]; [reflexivity|]. rewrite run_calls_cons. cbn [sends]. rewrite IH. reflexivity. Qed.
  Lemma opening_ok' : fine' (opening A [run_calls A X]).
  Proof.
    exists (Client A (run_calls A X) (Between A) []), 0, 0, 0, 0, 0, 0, 0, 0. split; [|left; auto]. split; cbn; try reflexivity; try lia.
    - split; [reflexivity|]. split; [apply sends_run_calls|]. cbn. auto.
    - unfold server_ok. cbn. split; [reflexivity|]. split; [reflexivity|]. split; [reflexivity|]. split; [reflexivity|]. split; [auto|discriminate].
  Qed.
  (** Nobody can move only when every request has been answered. *)
  Lemma serve_progress s : 0 < cin -> 0 < cout -> fine' s -> (forall m, move_step A compute cin cout s m = None) ->
    exists c, clients A s = [c] /\ received A c = R.
  Proof.
    intros Hi Ho (c & n0 & n1 & t0 & t1 & u0 & u1 & r0 & r1 & F & P) B. exists c. split; [apply (so_clients _ _ _ _ _ _ _ _ _ _ F)|].
    destruct F as [Fc F0 F1 G0 G1 FC FS T0 T1 N0 N1 RR0 RR1]. destruct s as [i0 i1 o0 o1 cl sv]. cbn [clients in0 in1 out0 out1 srv] in *. subst cl i0 i1 o0 o1.
    pose proof (B (ClientMove 0)) as BC. pose proof (B (Take0)) as B0. pose proof (B (Take1)) as B1. pose proof (B Give0) as B2. pose proof (B Give1) as B3. clear B.
    cbn [move_step clients in0 in1 out0 out1 srv nth_error] in *.
    destruct FS as (H0 & H1 & O0 & O1 & Ng & Ni).
    assert (KU : served A sv <= length X) by (clear - H1 T1 N1; unfold half in H1; destruct (g1 A sv); lia).
    assert (U0 : u0 <= length X) by (clear - O0 KU; unfold owed in O0; destruct (p0 A sv); lia).
    assert (U1 : u1 <= length X) by (clear - O1 KU; unfold owed in O1; destruct (p1 A sv); lia).
    assert (Lo0 : length (window r0 u0 (map fst R)) = u0 - r0) by (apply window_length; rewrite map_length, R_length; exact U0).
    assert (Lo1 : length (window r1 u1 (map snd R)) = u1 - r1) by (apply window_length; rewrite map_length, R_length; exact U1).
    assert (Li0 : length (window t0 n0 (map fst X)) = n0 - t0) by (apply window_length; rewrite map_length; exact N0).
    assert (Li1 : length (window t1 n1 (map snd X)) = n1 - t1) by (apply window_length; rewrite map_length; exact N1).
    rewrite Lo0 in B2. rewrite Lo1 in B3.
    assert (K2 : p0 A sv <> None -> u0 - r0 >= cout). { intros H. destruct (p0 A sv); [|congruence]. destruct (Nat.ltb_spec (u0 - r0) cout); [discriminate|lia]. }
    assert (K3 : p1 A sv <> None -> u1 - r1 >= cout). { intros H. destruct (p1 A sv); [|congruence]. destruct (Nat.ltb_spec (u1 - r1) cout); [discriminate|lia]. }
    assert (K0 : idle A sv = true -> g0 A sv = None -> n0 = t0).
    { intros I G. rewrite I, G in B0. destruct (window t0 n0 (map fst X)); [cbn in Li0; lia|discriminate]. }
    assert (K1 : idle A sv = true -> g1 A sv = None -> n1 = t1).
    { intros I G. rewrite I, G in B1. destruct (window t1 n1 (map snd X)); [cbn in Li1; lia|discriminate]. }
    destruct FC as (Rc & Sc & Mc). destruct c as [cs md rec]. unfold paced in P. cbn [received calls mid] in *.
    assert (ID : idle A sv = true \/ (idle A sv = false /\ (p0 A sv <> None \/ p1 A sv <> None))).
    { unfold idle. destruct (p0 A sv), (p1 A sv); auto; right; split; auto; try (left; discriminate); right; discriminate. }
    (* the order r <= u <= k <= t <= n for both halves, and at most one request under way *)
    unfold half, owed in *. destruct md as [|b|x].
    - destruct Mc as [-> ->]. destruct P as [[P Pn]|[P Pn]].
      + (* nothing under way: the client could send *)
        destruct (skipn r1 X) as [|y l] eqn:Es.
        * assert (length X <= r1) by (apply (f_equal (@length _)) in Es; rewrite skipn_length in Es; cbn in Es; lia).
          rewrite Rc. apply firstn_all2. rewrite R_length. lia.
        * rewrite run_calls_cons in P. subst cs. destruct y as [a b]. rewrite Li0 in BC. exfalso.
          assert (n1 - t0 < cin). { destruct (g0 A sv), (p0 A sv); lia. }
          destruct (Nat.ltb_spec (n1 - t0) cin); [discriminate|lia].
      + (* waiting for the answer *)
        subst cs. exfalso. destruct (window r1 u0 (map fst R)); [|discriminate]. cbn in Lo0.
        destruct ID as [I|[I [Q|Q]]].
        * specialize (K0 I). specialize (K1 I). unfold idle in I. destruct (p0 A sv); [discriminate|]. destruct (p1 A sv); [discriminate|].
          destruct (g0 A sv) eqn:E0, (g1 A sv) eqn:E1; destruct Ng as [Ng|Ng]; try discriminate; try specialize (K0 eq_refl); try specialize (K1 eq_refl); lia.
        * specialize (K2 Q). destruct (p0 A sv); [lia|congruence].
        * specialize (K3 Q). destruct (Ni I) as [E0 E1]. rewrite E0, E1 in *. destruct (p1 A sv); [|congruence].
          destruct (p0 A sv); [specialize (K2 ltac:(discriminate)); lia|]. lia.
    - destruct Mc as (-> & -> & Mb). destruct P as [-> ->]. exfalso. rewrite Li1 in BC.
      assert (r1 - t1 < cin). { destruct (g1 A sv), (p1 A sv); lia. }
      destruct (Nat.ltb_spec (r1 - t1) cin); [discriminate|lia].
    - destruct Mc as (-> & -> & Mx). destruct P as [-> ->]. exfalso. destruct (window r1 u1 (map snd R)); [|discriminate]. cbn in Lo1.
      destruct (Ng) as [Ng'|Ng'].
      + destruct (p1 A sv) as [y|] eqn:E1p; [specialize (K3 ltac:(discriminate)); lia|]. destruct (g0 A sv), (p0 A sv); try discriminate; lia.
      + destruct (p1 A sv) as [y|] eqn:E1p; [specialize (K3 ltac:(discriminate)); lia|]. destruct (g1 A sv), (g0 A sv), (p0 A sv); try discriminate; lia.
  Qed.
End Serve.
