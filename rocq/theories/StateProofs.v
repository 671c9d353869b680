(** Proofs about variables, configurations, the active protocol and the namespace. *)
From Coq Require Import ZArith List Bool String NArith Lia Decimal DecimalString DecimalNat.
From Verif Require Import Base StateModel StateSpec.
Import ListNotations.

(** ** Variables *)

Lemma update_length {A} (l : list A) i x : List.length (update l i x) = List.length l.
Proof. revert i. induction l as [|y l IH]; intros [|i]; cbn; auto. Qed.
Lemma update_nth {A} (l : list A) i j x : nth_error (update l i x) j =
  if Nat.eqb j i then option_map (fun _ => x) (nth_error l j) else nth_error l j.
Proof. revert i j. induction l as [|y l IH]; intros [|i] [|j]; cbn; try reflexivity; try apply IH. destruct (Nat.eqb j i); reflexivity. Qed.
Lemma same_class_ok a b : same_class a b = true <->
  match b, a with Public2, Public2 | Private2, Private2 | Public3, Public3 | Private3 _, Private3 _ => True | _, _ => False end.
Proof. destruct a, b; cbn; split; auto; discriminate. Qed.
Lemma legal_ok v t : same_class (vcls v) (cls t) && Bool.eqb (vscaled v) (scaled t) = true <-> legal v t.
Proof.
  unfold legal. rewrite andb_true_iff, Bool.eqb_true_iff, same_class_ok. split; intros [A B]; split; auto.
Qed.

(** What never changes about a variable, and its contents. *)
Definition like (v v0 : variable) : Prop :=
  built v = built v0 /\ vscaled v = vscaled v0 /\ vcls v = vcls v0 /\ raising v = raising v0.
Lemma assign_like v t v0 : like v v0 -> like (fst (assign v t)) v0.
Proof.
  intros (A & B & C & D). unfold assign. destruct (_ && _); [|repeat split; assumption].
  destruct (raising v) eqn:E; cbn [fst]; unfold like; cbn; rewrite <- ?D; auto.
Qed.
Definition alike (vs vs0 : list variable) : Prop := Forall2 like vs vs0.
Lemma alike_nth vs vs0 i : alike vs vs0 ->
  match nth_error vs i, nth_error vs0 i with Some v, Some v0 => like v v0 | None, None => True | _, _ => False end.
Proof. intros H. revert i. induction H as [|v v0 vs vs0 Hv H IH]; intros [|i]; cbn; auto. apply IH. Qed.
Lemma alike_refl vs : alike vs vs.
Proof. induction vs; constructor; [unfold like; auto|assumption]. Qed.
Lemma alike_update vs vs0 i v : alike vs vs0 -> (forall v0, nth_error vs0 i = Some v0 -> like v v0) -> alike (update vs i v) vs0.
Proof.
  intros H. revert i. induction H as [|u u0 vs vs0 Hu H IH]; intros [|i] Hv; cbn [update]; try constructor; try assumption.
  - apply Hv. reflexivity.
  - apply IH. exact Hv.
Qed.
Lemma step_alike vs vs0 s : alike vs vs0 -> alike (fst (step vs s)) vs0.
Proof.
  intros H. destruct s as [i src|i|i]; cbn [step]; try exact H.
  pose proof (alike_nth vs vs0 i H) as N. destruct (nth_error vs i) as [v|] eqn:Ei; [|exact H].
  match goal with |- context [match ?x with Some t => _ | None => _ end] => destruct x as [t|]; [|exact H] end.
  destruct (assign v t) as [v1 r] eqn:E. cbn [fst]. apply alike_update; [exact H|]. intros v0 E0. rewrite E0 in N.
  replace v1 with (fst (assign v t)) by (rewrite E; reflexivity). apply assign_like, N.
Qed.
Lemma steps_alike l : forall vs vs0, alike vs vs0 -> alike (fst (steps vs l)) vs0.
Proof.
  induction l as [|s l IH]; intros vs vs0 H; [exact H|]. cbn [steps]. pose proof (step_alike vs vs0 s H) as H1.
  destruct (step vs s) as [vs1 r]. cbn [fst] in H1. specialize (IH vs1 vs0 H1). destruct (steps vs1 l). exact IH.
Qed.
Lemma right_side_now vs vs0 src : alike vs vs0 ->
  match src with FromTensor t => Some t | FromVariable j => option_map as_tensor (nth_error vs j) end = right_side vs0 src.
Proof.
  intros H. destruct src as [t|j]; [reflexivity|]. cbn [right_side]. pose proof (alike_nth vs vs0 j H) as N.
  destruct (nth_error vs j) as [v|], (nth_error vs0 j) as [v0|]; try contradiction; [|reflexivity].
  cbn. destruct N as (A & B & C & D). unfold as_tensor. rewrite A, B, C. reflexivity.
Qed.
Lemma legal_like v v0 t : like v v0 -> legal v t <-> legal v0 t.
Proof. intros (_ & B & C & _). unfold legal. rewrite B, C. reflexivity. Qed.
Lemma legal_dec v t : legal v t \/ ~ legal v t.
Proof. rewrite <- legal_ok. destruct (_ && _); auto. Qed.

Lemma steps_last vs0 v0 i : Forall (fun v => raising v = false) vs0 -> nth_error vs0 i = Some v0 ->
  forall l vs v, alike vs vs0 -> nth_error vs i = Some v ->
  exists v', nth_error (fst (steps vs l)) i = Some v' /\ last_assigned vs0 v0 i l (now v) (now v').
Proof.
  intros NR E0. induction l as [|s l IH]; intros vs v H Ev; [exists v; split; [exact Ev|constructor]|].
  cbn [steps]. pose proof (step_alike vs vs0 s H) as H1. destruct (step vs s) as [vs1 r] eqn:Es. cbn [fst] in H1.
  assert (P : forall v1, nth_error vs1 i = Some v1 -> (forall c', last_assigned vs0 v0 i l (now v1) c' -> last_assigned vs0 v0 i (s :: l) (now v) c') ->
    exists v', nth_error (fst (let '(vs2, rs) := steps vs1 l in (vs2, r :: rs))) i = Some v' /\ last_assigned vs0 v0 i (s :: l) (now v) (now v')).
  { intros v1 E1 K. destruct (IH vs1 v1 H1 E1) as (v' & Ev' & L). exists v'. destruct (steps vs1 l). cbn [fst] in *. split; [exact Ev'|apply K, L]. }
  destruct s as [k src|k|k]; cbn [step] in Es.
  - rewrite (right_side_now vs vs0 src H) in Es.
    destruct (Nat.eq_dec k i) as [->|Nk].
    + rewrite Ev in Es. destruct (right_side vs0 src) as [t|] eqn:Et.
      * pose proof (alike_nth vs vs0 i H) as N. rewrite Ev, E0 in N. unfold assign in Es.
        assert (R : raising v = false).
        { destruct N as (_ & _ & _ & ->). rewrite Forall_forall in NR. apply NR, (nth_error_In _ _ E0). }
        rewrite R in Es. destruct (same_class (vcls v) (cls t) && Bool.eqb (vscaled v) (scaled t)) eqn:L.
        -- injection Es as <- <-. apply (P (MkVar (cells t) (built v) (vscaled v) (vcls v) false)).
           ++ rewrite update_nth, Nat.eqb_refl, Ev. reflexivity.
           ++ intros c' K. cbn [now] in K. eapply la_hit; [exact Et| |exact K]. apply legal_ok in L. apply (legal_like v v0 t N), L.
        -- injection Es as <- <-. apply (P v).
           ++ rewrite update_nth, Nat.eqb_refl, Ev. reflexivity.
           ++ intros c' K. eapply la_illegal; [exact Et| |exact K]. intros C. apply (legal_like v v0 t N) in C. apply legal_ok in C. congruence.
      * injection Es as <- <-. apply (P v Ev). intros c' K. apply la_unknown; [exact Et|exact K].
    + apply (P v); [|intros c' K; apply la_other; assumption]. destruct (nth_error vs k) as [u|]; [|injection Es as <- _; exact Ev].
      destruct (right_side vs0 src) as [t|]; [|injection Es as <- _; exact Ev]. destruct (assign u t) as [u1 r1]. injection Es as <- _.
      rewrite update_nth. destruct (Nat.eqb_spec i k); [congruence|exact Ev].
  - injection Es as <- <-. apply (P v Ev). intros c' K. apply la_read, K.
  - injection Es as <- <-. apply (P v Ev). intros c' K. apply la_use, K.
Qed.

(** ** Configurations *)

Lemma digits_inj a b : digits a = digits b -> a = b.
Proof.
  unfold digits. intros E. apply Unsigned.to_uint_inj. pose proof (f_equal NilEmpty.uint_of_string E) as F.
  rewrite !NilEmpty.usu in F. injection F as F. exact F.
Qed.
Lemma append_inj_l (s a b : string) : (s ++ a)%string = (s ++ b)%string -> a = b.
Proof. induction s as [|c s IH]; cbn; [auto|]. intros E. injection E as E. apply IH, E. Qed.
Lemma append_length a b : String.length (a ++ b)%string = (String.length a + String.length b)%nat.
Proof. induction a as [|c a IH]; cbn; [reflexivity|rewrite IH; reflexivity]. Qed.
Lemma append_inj_r (s a b : string) : (a ++ s)%string = (b ++ s)%string -> a = b.
Proof.
  revert b. induction a as [|c a IH]; intros [|d b] E; cbn in E.
  - reflexivity.
  - exfalso. pose proof (f_equal String.length E) as L. cbn in L. rewrite append_length in L. lia.
  - exfalso. pose proof (f_equal String.length E) as L. cbn in L. rewrite append_length in L. lia.
  - injection E as -> E. f_equal. apply IH, E.
Qed.
Lemma device_inj j a b : device_name j a = device_name j b -> a = b.
Proof. unfold device_name. intros E. do 3 apply append_inj_l in E. apply append_inj_r in E. apply digits_inj, E. Qed.

Lemma find_name_app n l m : find_name n (l ++ m) = match find_name n l with Some p => Some p | None => find_name n m end.
Proof. unfold find_name. induction l as [|p l IH]; [reflexivity|]. cbn [app find]. destruct (String.eqb (name p) n); [reflexivity|exact IH]. Qed.
Lemma find_name_some n l p : find_name n l = Some p -> In p l /\ name p = n.
Proof. intros H. apply find_some in H. destruct H as [H E]. apply String.eqb_eq in E. auto. Qed.
Lemma find_name_none n l : find_name n l = None -> ~ In n (map name l).
Proof.
  intros H I. apply in_map_iff in I. destruct I as (p & E & I). pose proof (find_none _ _ H p I) as F. cbn in F.
  rewrite E, String.eqb_refl in F. discriminate.
Qed.
(** Players are numbered in order. *)
Definition numbered (l : list player) : Prop := forall i p, nth_error l i = Some p -> index p = i.
Lemma add_player_spec c n : numbered (players c) ->
  numbered (players (fst (add_player c n))) /\ exists p, players (fst (add_player c n)) = players c ++ [p] /\ snd (add_player c n) = p /\
  name p = n /\ device p = device_name (job c) 0 /\ host p = None /\ job (fst (add_player c n)) = job c /\ auto (fst (add_player c n)) = auto c.
Proof.
  intros N. unfold add_player. cbn [fst snd players]. split.
  - intros i p H. destruct (Nat.lt_ge_cases i (List.length (players c))) as [L|L].
    + rewrite nth_error_app1 in H by exact L. apply N, H.
    + rewrite nth_error_app2 in H by exact L. destruct (i - List.length (players c))%nat as [|k] eqn:E; cbn in H; [|destruct k; discriminate].
      injection H as <-. cbn. lia.
  - eexists. split; [reflexivity|]. cbn. auto 10.
Qed.
(** What a lookup does. *)
Lemma get_player_spec c n : numbered (players c) ->
  let '(c', r) := get_player c n in
  numbered (players c') /\ auto c' = auto c /\ job c' = job c /\
  (exists more, players c' = players c ++ more /\ (NoDup (map name (players c)) -> NoDup (map name (players c')))) /\
  (auto c = true -> exists p, r = Some p) /\ (auto c = false -> c' = c) /\ r = find_name n (players c').
Proof.
  intros N. unfold get_player. destruct (find_name n (players c)) as [p|] eqn:F.
  - split; [exact N|]. split; [reflexivity|]. split; [reflexivity|]. split; [exists []; rewrite app_nil_r; auto|]. split; [eauto|].
    split; [reflexivity|]. symmetry. exact F.
  - destruct (auto c) eqn:A.
    + destruct (add_player_spec c n N) as (N' & p & E1 & E2 & E3 & E4 & E5 & E6 & E7). destruct (add_player c n) as [c' q]. cbn [fst snd] in *.
      subst q. split; [exact N'|]. split; [congruence|]. split; [exact E6|]. split.
      * exists [p]. split; [exact E1|]. intros ND. rewrite E1, map_app. cbn [map]. rewrite E3. clear - ND F. apply find_name_none in F.
        induction (map name (players c)) as [|x l IH]; cbn; [repeat constructor; auto|]. inversion_clear ND as [|? ? Nx ND']. constructor.
        -- rewrite in_app_iff. cbn. intros [H|[H|[]]]; [exact (Nx H)|]. subst. apply F. left. reflexivity.
        -- apply IH; [|exact ND']. intros H. apply F. right. exact H.
      * split; [eauto|]. split; [discriminate|]. rewrite E1, find_name_app, F. unfold find_name. cbn. rewrite E3, String.eqb_refl. reflexivity.
    + split; [exact N|]. split; [exact A|]. split; [reflexivity|]. split; [exists []; rewrite app_nil_r; auto|]. split; [discriminate|].
      split; [reflexivity|]. symmetry. exact F.
Qed.
Lemma lookups_spec l : forall c, numbered (players c) ->
  let '(c', rs) := lookups c l in
  numbered (players c') /\ auto c' = auto c /\ (exists more, players c' = players c ++ more) /\
  (NoDup (map name (players c)) -> NoDup (map name (players c'))) /\
  Forall2 (fun n r => (auto c = true -> r <> None) /\ (auto c = false \/ r = find_name n (players c')) /\
                      (auto c = false -> r = find_name n (players c))) l rs.
Proof.
  induction l as [|n l IH]; intros c N; cbn [lookups].
  - split; [exact N|]. split; [reflexivity|]. split; [exists []; rewrite app_nil_r; reflexivity|]. split; [auto|constructor].
  - pose proof (get_player_spec c n N) as G. destruct (get_player c n) as [c1 r]. destruct G as (N1 & A1 & J1 & (m1 & E1 & D1) & S1 & S1' & R1).
    specialize (IH c1 N1). destruct (lookups c1 l) as [c2 rs]. destruct IH as (N2 & A2 & (m2 & E2) & D2 & F2).
    split; [exact N2|]. split; [congruence|]. split; [exists (m1 ++ m2); rewrite E2, E1, app_assoc; reflexivity|]. split; [auto|]. constructor.
    + split; [intros A; destruct (S1 A) as [p ->]; discriminate|]. split; [|intros A; rewrite R1, (S1' A); reflexivity].
      destruct (auto c) eqn:A; [right|left; reflexivity]. destruct (S1 eq_refl) as [p Ep]. rewrite E2, find_name_app, <- R1, Ep. reflexivity.
    + rewrite A1 in F2. clear - F2 S1'. induction F2 as [|x y l rs (H1 & H2 & H3) F IH]; constructor; [|exact IH]. split; [exact H1|]. split; [exact H2|].
      intros A. rewrite (H3 A), (S1' A). reflexivity.
Qed.
Lemma local_config_numbered names j a : numbered (players (local_config names j a)) /\ map name (players (local_config names j a)) = names /\
  auto (local_config names j a) = a /\ job (local_config names j a) = j.
Proof.
  unfold local_config. assert (H : forall c, numbered (players c) ->
    let c' := fold_left (fun c n => fst (add_player c n)) names c in
    numbered (players c') /\ map name (players c') = map name (players c) ++ names /\ auto c' = auto c /\ job c' = job c).
  { induction names as [|n names IH]; intros c N; cbn [fold_left]; [rewrite app_nil_r; auto|].
    destruct (add_player_spec c n N) as (N' & p & E1 & E2 & E3 & E4 & E5 & E6 & E7). destruct (IH _ N') as (B1 & B2 & B3 & B4).
    split; [exact B1|]. split; [|split; congruence]. rewrite B2, E1, map_app. cbn [map]. rewrite E3, <- app_assoc. reflexivity. }
  apply (H (Local j a [])). intros i p E. destruct i; discriminate.
Qed.
Lemma devices_local l : forall c, (forall p, In p (players c) -> device p = device_name (job c) 0) ->
  let c' := fst (lookups c l) in job c' = job c /\ forall p, In p (players c') -> device p = device_name (job c) 0.
Proof.
  induction l as [|n l IH]; intros c D; cbn [lookups]; [auto|]. unfold get_player. destruct (find_name n (players c)).
  - specialize (IH c D). destruct (lookups c l). exact IH.
  - destruct (auto c).
    + unfold add_player. specialize (IH (Local (job c) (auto c) (players c ++ [Player n (List.length (players c)) (device_name (job c) 0) None]))).
      cbn [players job] in IH. destruct (lookups _ l). apply IH. intros p H. apply in_app_or in H. destruct H as [H|[<-|[]]]; [apply D, H|reflexivity].
    + specialize (IH c D). destruct (lookups c l). exact IH.
Qed.

Lemma enumerate_nth j hosts : forall i k, nth_error (enumerate j i hosts) k =
  option_map (fun p => Player (fst p) (i + k) (device_name j (i + k)) (Some (snd p))) (nth_error hosts k).
Proof.
  induction hosts as [|[n h] hosts IH]; intros i [|k]; cbn; try reflexivity.
  - rewrite Nat.add_0_r. reflexivity.
  - rewrite IH. replace (S i + k)%nat with (i + S k)%nat by lia. reflexivity.
Qed.
Lemma enumerate_names j i hosts : map name (enumerate j i hosts) = map fst hosts.
Proof. revert i. induction hosts as [|[n h] hosts IH]; intros i; cbn; [reflexivity|rewrite IH; reflexivity]. Qed.
Lemma enumerate_hosts j i hosts : map (fun p => (name p, match host p with Some h => h | None => EmptyString end)) (enumerate j i hosts) = hosts.
Proof. revert i. induction hosts as [|[n h] hosts IH]; intros i; cbn; [reflexivity|rewrite IH; reflexivity]. Qed.
Lemma find_name_nth n l p : NoDup (map name l) -> In p l -> name p = n -> find_name n l = Some p.
Proof.
  intros ND I E. induction l as [|q l IH]; [destruct I|]. cbn [map] in ND. inversion_clear ND as [|? ? Nq ND']. unfold find_name. cbn [find].
  destruct (String.eqb_spec (name q) n) as [Eq|Ne].
  - destruct I as [->|I]; [reflexivity|]. exfalso. apply Nq. rewrite Eq, <- E. apply in_map, I.
  - destruct I as [->|I]; [contradiction|]. apply IH; assumption.
Qed.

(** ** The active protocol *)

Section CodeInd.
  Variable P : code -> Prop.
  Hypothesis HW : forall p body, Forall P body -> P (With p body).
  Hypothesis HS : forall q, P (SetProtocol q).
  Hypothesis HC : P SetConfig.
  Hypothesis HR : P Raise.
  Fixpoint code_ind' (c : code) : P c :=
    match c with
    | With p body => HW p body ((fix go l := match l return Forall P l with [] => Forall_nil _ | c :: l => Forall_cons c (code_ind' c) (go l) end) body)
    | SetProtocol q => HS q
    | SetConfig => HC
    | Raise => HR
    end.
End CodeInd.
Lemma exec1_with p body s : exec1 (With p body) s = (leave p (fst (exec body (enter p s))), snd (exec body (enter p s))).
Proof.
  cbn [exec1].
  assert (E : forall l s, (fix go l s := match l with [] => (s, false) | c :: l => let '(s, r) := exec1 c s in if r : bool then (s, true) else go l s end) l s = exec l s).
  { induction l as [|c l IH]; intros t; [reflexivity|]. cbn [exec]. destruct (exec1 c t) as [t' r]. destruct r; [reflexivity|apply IH]. }
  rewrite E. destruct (exec body (enter p s)). reflexivity.
Qed.
(** Code that does not enter [p] leaves its attribute alone. *)
Lemma exec1_last p : forall c, ~ enters p c -> forall s, last (fst (exec1 c s)) p = last s p.
Proof.
  induction c as [q body IH|q| |] using code_ind'; intros NE s; try reflexivity.
  rewrite exec1_with. cbn [fst leave last]. assert (Nq : p <> q) by (intros ->; apply NE; constructor).
  assert (B : forall l, (forall c, In c l -> In c body) -> forall t, last (fst (exec l t)) p = last t p).
  { induction l as [|c l IHl]; intros Inc t; [reflexivity|]. cbn [exec]. rewrite Forall_forall in IH.
    pose proof (IH c (Inc c (or_introl eq_refl)) (fun H => NE (enters_inside p q body c (Inc c (or_introl eq_refl)) H)) t) as E.
    destruct (exec1 c t) as [t' r]. cbn [fst] in E. destruct r; [exact E|]. rewrite IHl; [exact E|]. intros d Hd. apply Inc. right. exact Hd. }
  rewrite (B body (fun _ H => H)). cbn [enter last]. destruct (N.eqb_spec p q); [contradiction|reflexivity].
Qed.
Lemma exec_last p l : Forall (fun c => ~ enters p c) l -> forall s, last (fst (exec l s)) p = last s p.
Proof.
  induction 1 as [|c l Hc H IH]; intros s; [reflexivity|]. cbn [exec]. pose proof (exec1_last p c Hc s) as E. destruct (exec1 c s) as [t r].
  cbn [fst] in E. destruct r; [exact E|]. rewrite IH. exact E.
Qed.
Lemma with_restores p body s : Forall (fun c => ~ enters p c) body -> current (fst (exec1 (With p body) s)) = current s.
Proof. intros H. rewrite exec1_with. cbn [fst leave current]. rewrite (exec_last p body H). cbn [enter last]. rewrite N.eqb_refl. reflexivity. Qed.

(** ** The namespace *)

Lemma rebinds_last all methods l q n : rebinds all methods (l ++ [q]) n =
  match q with
  | Some p => if existsb (String.eqb n) (methods p) then Method p
              else if existsb (String.eqb n) all then Stub else rebinds all methods l n
  | None => if existsb (String.eqb n) all then Stub else rebinds all methods l n
  end.
Proof. unfold rebinds. rewrite fold_left_app. cbn [fold_left]. unfold rebind at 1. destruct q; reflexivity. Qed.
Lemma existsb_in n l : existsb (String.eqb n) l = true <-> In n l.
Proof. rewrite existsb_exists. split; [intros (x & I & E); apply String.eqb_eq in E; congruence|intros I; exists n; split; [exact I|apply String.eqb_refl]]. Qed.
