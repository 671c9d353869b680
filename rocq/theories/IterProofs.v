(** Proofs about [iterate]. *)
From Coq Require Import Lia Permutation.
From Verif Require Import Base TensorModel Aby3Model Aby3Spec IterModel IterSpec.

(** ** Shuffling positions *)

(** The positions of a source: all numbers, or those below a limit. *)
Definition upto (L : option nat) (t : nat) : option nat := match L with None => Some t | Some N => if (t <? N)%nat then Some t else None end.

Lemma fill_map {A} (f : nat -> A) (src : nat -> option A) (src0 : nat -> option nat) cap : (forall t, src t = option_map f (src0 t)) ->
  forall fuel buf next, fill fuel cap src (map f buf) next = (map f (fst (fill fuel cap src0 buf next)), snd (fill fuel cap src0 buf next)).
Proof.
  intros E. induction fuel as [|fuel IH]; intros buf next; [reflexivity|]. cbn [fill]. rewrite map_length. destruct (length buf <? cap)%nat; [|reflexivity].
  rewrite E. destruct (src0 next) as [a|]; [|reflexivity]. cbn [option_map]. rewrite <- IH, map_app. reflexivity.
Qed.
Lemma put_map {A B} (f : A -> B) i a l : put i (f a) (map f l) = map f (put i a l).
Proof. revert i. induction l as [|b l IH]; intros [|i]; cbn; try reflexivity. rewrite IH. reflexivity. Qed.
Lemma draws_map {A} (f : nat -> A) (src : nat -> option A) (src0 : nat -> option nat) cap pick : (forall t, src t = option_map f (src0 t)) ->
  forall k t buf next, draws cap pick src k t (map f buf) next = map f (draws cap pick src0 k t buf next).
Proof.
  intros E. induction k as [|k IH]; intros t buf next; [reflexivity|]. cbn [draws]. rewrite (fill_map f src src0 cap E).
  destruct (fill cap cap src0 buf next) as [b n]. cbn [fst snd]. destruct b as [|h b]; [reflexivity|]. cbn [map]. f_equal.
  - cbn [length]. rewrite map_length. change (f h :: map f b) with (map f (h :: b)). apply map_nth.
  - cbn [length]. rewrite map_length. change (f h :: map f b) with (map f (h :: b)). rewrite put_map, <- IH. f_equal. destruct (put _ h (h :: b)); reflexivity.
Qed.

Lemma fill_spec L cap fuel : forall buf next, exists m, fst (fill fuel cap (upto L) buf next) = buf ++ seq next m /\ snd (fill fuel cap (upto L) buf next) = (next + m)%nat /\
  (length buf + m <= Nat.max (length buf) cap)%nat /\ (match L with Some N => (m = 0 \/ next + m <= N)%nat | None => True end) /\
  ((cap <= fuel + length buf)%nat -> (cap <= length buf + m)%nat \/ upto L (next + m) = None).
Proof.
  induction fuel as [|fuel IH]; intros buf next.
  { exists 0%nat. cbn [fill fst snd seq]. rewrite app_nil_r. repeat split; try lia. destruct L; auto. }
  cbn [fill]. destruct (length buf <? cap)%nat eqn:C.
  - apply Nat.ltb_lt in C. destruct (upto L next) as [a|] eqn:U.
    + assert (a = next) as -> by (unfold upto in U; destruct L as [N|]; [destruct (next <? N)%nat|]; congruence).
      destruct (IH (buf ++ [next]) (S next)) as (m & E1 & E2 & B & H & F). rewrite app_length in *. cbn [length] in *. exists (S m). rewrite E1, E2, <- app_assoc. cbn [seq].
      split; [reflexivity|]. split; [lia|]. split; [lia|]. split.
      * destruct L as [N|]; [|exact I]. unfold upto in U. destruct (next <? N)%nat eqn:V; [|discriminate]. apply Nat.ltb_lt in V. lia.
      * intro G. replace (next + S m)%nat with (S next + m)%nat by lia. destruct F as [F|F]; [lia|left; lia|right; exact F].
    + exists 0%nat. cbn [fst snd seq]. rewrite app_nil_r, Nat.add_0_r. repeat split; try lia. { destruct L; auto. } intros _. right. exact U.
  - apply Nat.ltb_ge in C. exists 0%nat. cbn [fst snd seq]. rewrite app_nil_r. repeat split; try lia. destruct L; auto.
Qed.
Lemma put_perm (buf : list nat) h r i : buf = h :: r -> (i < length buf)%nat -> Permutation buf (nth i buf h :: tl (put i h buf)).
Proof.
  intros -> H. destruct i as [|i]; [apply Permutation_refl|]. cbn [nth put tl]. cbn in H. assert (Hi : (i < length r)%nat) by lia. clear H.
  revert i Hi. induction r as [|b r IH]; intros i Hi; [cbn in Hi; lia|]. destruct i as [|i]; cbn [nth put]; [apply perm_swap|].
  transitivity (b :: h :: r); [apply perm_swap|]. cbn in Hi. rewrite (IH i) by lia. apply perm_swap.
Qed.

(** The buffer of a state: distinct positions already read, [t] of which are gone. *)
Definition sane (cap t : nat) (buf : list nat) (next : nat) : Prop :=
  NoDup buf /\ (forall b, In b buf -> (b < next)%nat) /\ (length buf + t = next)%nat /\ (length buf <= cap)%nat.
Lemma step_sane L cap t buf next : (0 < cap)%nat -> sane cap t buf next -> (match L with Some N => (next <= N)%nat | None => True end) ->
  let b := fst (fill cap cap (upto L) buf next) in let n := snd (fill cap cap (upto L) buf next) in
  sane cap t b n /\ (next <= n)%nat /\ (forall o, In o b -> In o buf \/ (next <= o)%nat) /\ (match L with Some N => (n <= N)%nat | None => True end) /\
  (b = [] -> match L with Some N => t = N | None => False end).
Proof.
  intros Hc (D & B & E & C) HL b n. destruct (fill_spec L cap cap buf next) as (m & E1 & E2 & M & H & F). unfold b, n. rewrite E1, E2. clear b n E1 E2.
  assert (I1 : forall o, In o (buf ++ seq next m) -> In o buf \/ (next <= o < next + m)%nat) by (intros o Ho; apply in_app_iff in Ho; rewrite in_seq in Ho; exact Ho).
  split; [split; [|split; [|rewrite app_length, seq_length; lia]]|split; [lia|split; [intros o Ho; destruct (I1 o Ho); [auto|right; lia]|split]]].
  - clear -D B. induction m as [|m IH] in next, B |- *; [cbn; rewrite app_nil_r; exact D|]. cbn [seq]. apply NoDup_Add with (a := next) (l := buf ++ seq (S next) m).
    { apply Add_app. } split.
    + apply IH. intros b Hb. specialize (B b Hb). lia.
    + intro Hn. apply in_app_iff in Hn. rewrite in_seq in Hn. destruct Hn as [Hn|Hn]; [specialize (B _ Hn)|]; lia.
  - intros o Ho. destruct (I1 o Ho) as [Ho'|Ho']; [specialize (B o Ho')|]; lia.
  - destruct L; [lia|exact I].
  - intro Z. apply app_eq_nil in Z. destruct Z as [Z1 Z2]. subst buf. cbn [length] in *. assert (m = 0%nat) as -> by (destruct m; [reflexivity|discriminate]).
    destruct F as [F|F]; [lia|lia|]. rewrite Nat.add_0_r in F. unfold upto in F. destruct L as [N|]; [|discriminate]. destruct (next <? N)%nat eqn:V; [discriminate|]. apply Nat.ltb_ge in V. lia.
Qed.
Lemma next_sane cap t b n h r i : sane cap t b n -> b = h :: r -> (i < length b)%nat -> sane cap (S t) (tl (put i h b)) n /\ (nth i b h < t + cap)%nat /\
  (nth i b h < n)%nat /\ In (nth i b h) b /\ (forall o, In o (tl (put i h b)) -> In o b) /\ ~ In (nth i b h) (tl (put i h b)).
Proof.
  intros (D & B & E & C) Hb Hi. pose proof (put_perm b h r i Hb Hi) as P. pose proof (Permutation_length P) as LP. cbn [length] in LP.
  pose proof (Permutation_NoDup P D) as D2. inversion D2 as [|? ? X Y]; subst. assert (I1 : In (nth i (h :: r) h) (h :: r)) by (apply nth_In; exact Hi).
  assert (I2 : forall o, In o (tl (put i h (h :: r))) -> In o (h :: r)) by (intros o Ho; eapply Permutation_in; [symmetry; exact P|right; exact Ho]).
  split; [split; [exact Y|split; [intros o Ho; apply B, I2, Ho|lia]]|]. pose proof (B _ I1). cbn [length] in *. repeat split; auto; lia.
Qed.

Definition low (L : option nat) (n : nat) : Prop := match L with Some N => (n <= N)%nat | None => True end.
Section DRAWS.
Context (L : option nat) (cap : nat) (pick : nat -> nat) (Hcap : (0 < cap)%nat).
Lemma draws_distinct : forall k t buf next, sane cap t buf next -> low L next ->
  NoDup (draws cap pick (upto L) k t buf next) /\ (forall o, In o (draws cap pick (upto L) k t buf next) -> In o buf \/ (next <= o)%nat) /\
  (forall i, (i < length (draws cap pick (upto L) k t buf next))%nat -> (nth i (draws cap pick (upto L) k t buf next) 0 < t + i + cap)%nat) /\
  (forall o, In o (draws cap pick (upto L) k t buf next) -> match L with Some N => (o < N)%nat | None => True end) /\
  (match L with Some N => (k <= N - t)%nat | None => True end -> length (draws cap pick (upto L) k t buf next) = k).
Proof.
  induction k as [|k IH]; intros t buf next S0 H0; [cbn; repeat split; try (intros; contradiction); try constructor; intros; lia|].
  cbn [draws]. pose proof (step_sane L cap t buf next Hcap S0 H0) as (S1 & N1 & I1 & H1 & Z1). destruct (fill cap cap (upto L) buf next) as [b n]. cbn [fst snd] in *.
  destruct b as [|h r] eqn:Eb.
  { split; [constructor|]. split; [intros o []|]. split; [intros i Hi; cbn in Hi; lia|]. split; [intros o []|]. intro G. specialize (Z1 eq_refl). destruct L; [lia|contradiction]. }
  rewrite <- Eb in *. assert (Hi : (pick t mod length b < length b)%nat) by (apply Nat.mod_upper_bound; rewrite Eb; discriminate).
  destruct (next_sane cap t b n h r _ S1 Eb Hi) as (S2 & C2 & N2 & In2 & Sub & Out). destruct (IH (S t) (tl (put (pick t mod length b) h b)) n S2 H1) as (D & I2 & C & B & G).
  set (x := nth (pick t mod length b) b h) in *. set (rest := draws cap pick (upto L) k (S t) (tl (put (pick t mod length b) h b)) n) in *.
  split; [constructor; [|exact D]|split; [|split; [|split]]].
  - intro Hx. destruct (I2 x Hx) as [Hx'|Hx']; [exact (Out Hx')|lia].
  - intros o [<-|Ho]; [exact (I1 _ In2)|]. destruct (I2 o Ho) as [Ho'|Ho']; [exact (I1 _ (Sub _ Ho'))|right; lia].
  - intros [|i] Hl; cbn [nth length] in *; [lia|]. specialize (C i ltac:(lia)). lia.
  - intros o [<-|Ho]; [|exact (B o Ho)]. unfold low in H1. destruct L; [lia|exact I].
  - intro K. cbn [length]. f_equal. apply G. destruct L; [lia|exact I].
Qed.
Lemma draws_prefix : forall k k' t buf next i, (i < k)%nat -> (i < k')%nat ->
  nth_error (draws cap pick (upto L) k t buf next) i = nth_error (draws cap pick (upto L) k' t buf next) i.
Proof.
  induction k as [|k IH]; intros [|k'] t buf next i H H'; try lia. cbn [draws]. destruct (fill cap cap (upto L) buf next) as [b n]. destruct b as [|h r]; [reflexivity|].
  destruct i as [|i]; [reflexivity|]. cbn [nth_error]. apply IH; lia.
Qed.
End DRAWS.
Lemma start_sane L cap : sane cap 0 [] 0 /\ low L 0.
Proof. split; [repeat split; try constructor; try (intros ? []); cbn; lia|]. unfold low. destruct L; [lia|exact I]. Qed.

(** ** Streams *)
Lemma source_once {A} (l : list A) d t : source false l t = option_map (fun i => nth i l d) (upto (Some (length l)) t).
Proof.
  unfold source, upto. destruct (t <? length l)%nat eqn:E; cbn; [apply Nat.ltb_lt in E; exact (nth_error_nth' l d E)|apply Nat.ltb_ge in E; apply nth_error_None; exact E].
Qed.
Lemma source_repeat {A} (l : list A) d t : l <> [] -> source true l t = option_map (fun i => nth (i mod length l) l d) (upto None t).
Proof.
  intro H. unfold source, upto. destruct l as [|a l]; [congruence|]. cbn [option_map]. apply nth_error_nth'. apply Nat.mod_upper_bound. discriminate.
Qed.
(** The positions drawn from an endless source, and the order of a finite one. *)
Definition place (pick : nat -> nat) (t : nat) : nat := nth t (draws 512 pick (upto None) (S t) 0 [] 0) 0%nat.
Definition order (pick : nat -> nat) (N : nat) : list nat := draws 512 pick (upto (Some N)) N 0 [] 0.

Lemma cap_pos : (0 < 512)%nat. Proof. apply Nat.ltb_lt. reflexivity. Qed.
Lemma place_bound pick t : (place pick t < t + 512)%nat.
Proof.
  destruct (start_sane None 512) as [S H]. destruct (draws_distinct None 512 pick cap_pos (Datatypes.S t) 0 [] 0 S H) as (_ & _ & C & _ & G).
  specialize (C t). rewrite (G I) in C. specialize (C (Nat.lt_succ_diag_r t)). exact C.
Qed.
Lemma place_nth pick t k : (t < k)%nat -> nth_error (draws 512 pick (upto None) k 0 [] 0) t = Some (place pick t).
Proof.
  intro H. destruct (start_sane None 512) as [S0 H0]. destruct (draws_distinct None 512 pick cap_pos (S t) 0 [] 0 S0 H0) as (_ & _ & _ & _ & G).
  rewrite (draws_prefix None 512 pick cap_pos k (S t)) by lia. unfold place. apply nth_error_nth'. rewrite (G I). lia.
Qed.
Lemma place_inj pick s t : place pick s = place pick t -> s = t.
Proof.
  intro E. destruct (start_sane None 512) as [S0 H0]. set (k := S (Nat.max s t)). destruct (draws_distinct None 512 pick cap_pos k 0 [] 0 S0 H0) as (D & _ & _ & _ & G).
  apply (proj1 (NoDup_nth_error _) D s t); [rewrite (G I); unfold k; lia|]. rewrite !place_nth by (unfold k; lia). congruence.
Qed.
Lemma order_perm pick N : Permutation (order pick N) (seq 0 N).
Proof.
  destruct (start_sane (Some N) 512) as [S0 H0]. destruct (draws_distinct (Some N) 512 pick cap_pos N 0 [] 0 S0 H0) as (D & _ & _ & B & G).
  apply NoDup_Permutation_bis; [exact D|rewrite seq_length; unfold order; rewrite G by lia; lia|]. intros o Ho. apply in_seq. specialize (B o Ho). cbn in B. lia.
Qed.
Lemma stream_repeat {A} pick (l : list A) d t : l <> [] -> stream true true pick l t = Some (nth (place pick t mod length l) l d).
Proof.
  intro H. unfold stream. pose proof (draws_map (fun i => nth (i mod length l) l d) (source true l) (upto None) 512 pick (fun t => source_repeat l d t H) (S t) 0 [] 0) as E. cbn [map] in E. rewrite E. clear E.
  rewrite nth_error_map, (place_nth pick t (S t)) by lia. reflexivity.
Qed.
Lemma stream_once {A} pick (l : list A) d t : stream false true pick l t = option_map (fun i => nth i l d) (nth_error (order pick (length l)) t).
Proof.
  unfold stream. pose proof (draws_map (fun i => nth i l d) (source false l) (upto (Some (length l))) 512 pick (source_once l d) (S t) 0 [] 0) as E. cbn [map] in E. rewrite E. clear E. rewrite nth_error_map. f_equal.
  destruct (Nat.lt_ge_cases t (length l)) as [H|H]; [apply draws_prefix; [exact cap_pos|lia|lia]|]. unfold order.
  destruct (start_sane (Some (length l)) 512) as [S0 H0].
  assert (X : forall k, (length (draws 512 pick (upto (Some (length l))) k 0 [] 0) <= length l)%nat).
  { intro k. destruct (draws_distinct (Some (length l)) 512 pick cap_pos k 0 [] 0 S0 H0) as (D & _ & _ & B & _).
    pose proof (NoDup_incl_length D (l' := seq 0 (length l))) as Q. rewrite seq_length in Q. apply Q. intros o Ho. apply in_seq. specialize (B o Ho). cbn in B. lia. }
  pose proof (X (S t)). pose proof (X (length l)). rewrite (proj2 (nth_error_None _ t)) by lia. symmetry. apply nth_error_None. lia.
Qed.

(** ** Batches *)
Lemma collect_all {A} (s : nat -> option A) (g : nat -> A) b t : (forall i, (i < b)%nat -> s (t + i)%nat = Some (g (t + i)%nat)) -> collect s b t = map (fun i => g (t + i)%nat) (seq 0 b).
Proof.
  revert t. induction b as [|b IH]; intros t H; [reflexivity|]. cbn [collect seq map]. pose proof (H 0%nat ltac:(lia)) as H0. rewrite Nat.add_0_r in H0. rewrite H0, Nat.add_0_r. f_equal.
  rewrite <- seq_shift, map_map. rewrite (IH (S t)); [apply map_ext; intro i; f_equal; lia|]. intros i Hi. replace (S t + i)%nat with (t + S i)%nat by lia. apply H. lia.
Qed.
Lemma collect_short {A} (s : nat -> option A) b t m : (m < b)%nat -> (forall i, (i < m)%nat -> s (t + i)%nat <> None) -> s (t + m)%nat = None -> length (collect s b t) = m.
Proof.
  revert t m. induction b as [|b IH]; intros t m Hm H E; [lia|]. cbn [collect]. destruct m as [|m].
  - rewrite Nat.add_0_r in E. rewrite E. reflexivity.
  - pose proof (H 0%nat ltac:(lia)) as H0. rewrite Nat.add_0_r in H0. destruct (s t); [|congruence]. cbn [length]. f_equal. apply IH; [lia| |].
    + intros i Hi. replace (S t + i)%nat with (t + S i)%nat by lia. apply H. lia.
    + replace (S t + m)%nat with (t + S m)%nat by lia. exact E.
Qed.
Lemma batch_full {A} B rp sh pick (l : list A) j (g : nat -> A) : let b := Z.to_nat (Z.max 1 B) in
  (forall i, (i < b)%nat -> stream rp sh pick l (j * b + i) = Some (g (j * b + i)%nat)) -> batch B rp sh pick l j = Ok (map (fun i => g (j * b + i)%nat) (seq 0 b)).
Proof.
  intros b H. unfold batch. fold b. rewrite (collect_all _ g b (j * b) H). assert (Hb : (0 < b)%nat) by (unfold b; lia).
  rewrite map_length, seq_length, Nat.eqb_refl. destruct b; [lia|reflexivity].
Qed.
Lemma batch_end {A} B rp sh pick (l : list A) j m : let b := Z.to_nat (Z.max 1 B) in (m < b)%nat ->
  (forall i, (i < m)%nat -> stream rp sh pick l (j * b + i) <> None) -> stream rp sh pick l (j * b + m) = None ->
  batch B rp sh pick l j = Err (if Nat.eqb m 0 then OutOfRange else InvalidArgument).
Proof.
  intros b Hm H E. unfold batch. fold b. pose proof (collect_short _ b (j * b) m Hm H E) as Lc. destruct (collect _ b (j * b)) as [|a r]; [rewrite <- Lc; reflexivity|].
  rewrite Lc. destruct m as [|m]; [discriminate|]. cbn [Nat.eqb]. destruct b as [|b']; [lia|]. replace (Nat.eqb m b') with false by (symmetry; apply Nat.eqb_neq; lia). reflexivity.
Qed.

(** All six shares are dealt out alike. *)
Lemma rows_len l vs : Forall2 (fun r v : row => length r = length v) l vs -> length l = length vs.
Proof. intro F. induction F; cbn; congruence. Qed.
Lemma rows_nth l vs : Forall2 (fun r v : row => length r = length v) l vs -> forall i, length (nth i l []) = length (nth i vs []).
Proof. intro F. induction F as [|r v l vs H _ IH]; intros [|i]; cbn; auto. Qed.
Lemma iterate_ok P g x vs B rp sh pick j (s : nat -> nat) : let b := Z.to_nat (Z.max 1 B) in holds P x vs -> mfc x = g ->
  (forall i, (i < b)%nat -> (s i < length vs)%nat) ->
  (forall (l : list row), length l = length vs -> batch B rp sh pick l j = Ok (map (fun i => nth (s i) l []) (seq 0 b))) ->
  exists z, iterate g x B rp sh pick j = Ok z /\ holds P z (chosen vs s b) /\ msc z = msc x /\ mty z = mty x /\ mfc z = mfc x.
Proof.
  intros b (Sh & Hc) Hg Hs Hb. unfold shape_ok in Sh.
  pose proof (fun l => rows_len l vs) as Len. pose proof (fun l => rows_nth l vs) as Rows.
  assert (Dealt : forall l, Forall2 (fun r v : row => length r = length v) l vs -> Forall2 (fun r v : row => length r = length v) (map (fun i => nth (s i) l []) (seq 0 b)) (chosen vs s b)).
  { intros l F. unfold chosen. clear -Rows F. induction (seq 0 b) as [|i q IH]; cbn; constructor; auto. }
  unfold iterate. inversion Sh as [|? ? F00 S1]; subst. inversion S1 as [|? ? F01 S2]; subst. inversion S2 as [|? ? F10 S3]; subst. inversion S3 as [|? ? F11 S4]; subst.
  inversion S4 as [|? ? F20 S5]; subst. inversion S5 as [|? ? F21 _]; subst. rewrite !Hb by (apply Len; assumption). eexists. split; [reflexivity|].
  split; [|cbn; auto]. split; [unfold shape_ok; cbn [m00 m01 m10 m11 m20 m21]; repeat constructor; apply Dealt; assumption|].
  intros i e Hi He. unfold chosen in *. rewrite map_length, seq_length in Hi.
  assert (N : forall l : list row, nth i (map (fun i => nth (s i) l []) (seq 0 b)) [] = nth (s i) l []).
  { intro l. rewrite (nth_indep _ [] (nth (s 0%nat) l [])) by (rewrite map_length, seq_length; exact Hi). rewrite (map_nth (fun i => nth (s i) l [])). rewrite seq_nth by exact Hi. reflexivity. }
  rewrite N in *. unfold cell. cbn [m00 m01 m10 m11 m20 m21 msc mty mfc]. rewrite !N. exact (Hc (s i) e (Hs i Hi) He).
Qed.
Lemma iterate_err g x B rp sh pick j e : batch B rp sh pick (m00 x) j = Err e -> iterate g x B rp sh pick j = Err e.
Proof. intro H. unfold iterate. rewrite H. reflexivity. Qed.
