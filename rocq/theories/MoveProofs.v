(** Lemmas about moving entries. *)
From Coq Require Import Permutation Lia.
From Verif Require Import Base TensorModel Aby3Model Aby3Spec StoreModel StoreSpec MoveModel MoveSpec.
Local Open Scope nat_scope.

Lemma same_len {A B} (R : A -> B -> Prop) l m : Forall2 R l m -> length l = length m.
Proof. intros H. induction H; cbn; congruence. Qed.
Lemma volume_cons n d : volume (n :: d) = n * volume d. Proof. reflexivity. Qed.
Lemma pos_acc : forall d ix acc, length ix = length d ->
  fold_left (fun acc p => acc * snd p + fst p) (combine ix d) acc = acc * volume d + ravel d ix.
Proof.
  induction d as [|n d IH]; intros [|i ix] acc H; try discriminate; [cbn; lia|].
  cbn [combine fold_left fst snd ravel]. rewrite IH by (cbn in H; lia). rewrite volume_cons. lia.
Qed.
Lemma valid_len d ix : valid d ix -> length ix = length d. Proof. apply same_len. Qed.
Lemma pos_ravel d ix : valid d ix -> pos d ix = ravel d ix.
Proof. intros H. unfold pos. rewrite pos_acc by exact (valid_len _ _ H). lia. Qed.
Lemma ravel_lt : forall d ix, valid d ix -> ravel d ix < volume d.
Proof.
  intros d ix H. induction H as [|i n ix d Hi H IH]; [cbn; lia|]. cbn [ravel]. rewrite volume_cons. nia.
Qed.
Lemma unravel_ravel : forall d ix, valid d ix -> unravel d (ravel d ix) = ix.
Proof.
  intros d ix H. induction H as [|i n ix d Hi H IH]; [reflexivity|]. cbn [ravel unravel].
  pose proof (ravel_lt _ _ H).
  rewrite Nat.div_add_l, Nat.div_small, Nat.add_0_r by lia.
  rewrite Nat.add_comm, Nat.mod_add, Nat.mod_small by lia. rewrite IH. reflexivity.
Qed.
Lemma unravel_valid : forall d e, e < volume d -> valid d (unravel d e).
Proof.
  induction d as [|n d IH]; intros e H; [constructor|]. rewrite volume_cons in H. cbn [unravel].
  assert (volume d <> 0) by (intros E; rewrite E in H; lia).
  constructor; [apply Nat.div_lt_upper_bound; lia|]. apply IH. apply Nat.mod_upper_bound. assumption.
Qed.
Lemma ravel_unravel : forall d e, e < volume d -> ravel d (unravel d e) = e.
Proof.
  induction d as [|n d IH]; intros e H; [cbn in *; lia|]. rewrite volume_cons in H. cbn [unravel ravel].
  assert (volume d <> 0) by (intros E; rewrite E in H; lia).
  rewrite IH by (apply Nat.mod_upper_bound; assumption). pose proof (Nat.div_mod e (volume d)). lia.
Qed.
Lemma same_refl d : same_shape d d = true.
Proof. unfold same_shape. destruct (list_eq_dec Nat.eq_dec d d); congruence. Qed.
Lemma same_eq d e : same_shape d e = true -> d = e.
Proof. unfold same_shape. destruct (list_eq_dec Nat.eq_dec d e); congruence. Qed.

Definition none : raw := Raw [] [].
Definition good (ds : list (list nat)) (d : list nat) (src : list nat -> nat * list nat) : Prop :=
  forall ix, valid d ix -> fst (src ix) < length ds /\ valid (nth (fst (src ix)) ds []) (snd (src ix)).

Definition moved (ts : list raw) (d : list nat) (src : list nat -> nat * list nat) : list Z :=
  map (fun e => let '(t, jx) := src (unravel d e) in
                let x := nth t ts none in nth (ravel (dims x) jx) (data x) 0%Z) (seq 0 (volume d)).
Lemma apply_ok k ts d src : k (map dims ts) = Ok (d, src) -> apply k ts = Ok (Raw d (moved ts d src)).
Proof. intros H. unfold apply. rewrite H. reflexivity. Qed.
Lemma moved_len ts d src : length (moved ts d src) = volume d.
Proof. unfold moved. rewrite map_length, seq_length. reflexivity. Qed.
Lemma moved_nth ts d src e : e < volume d -> nth e (moved ts d src) 0%Z =
  (let '(t, jx) := src (unravel d e) in let x := nth t ts none in nth (ravel (dims x) jx) (data x) 0%Z).
Proof.
  intros H. unfold moved.
  set (F := fun e : nat => let '(t, jx) := src (unravel d e) in let x := nth t ts none in nth (ravel (dims x) jx) (data x) 0%Z).
  rewrite (nth_indep _ 0%Z (F 0)) by (rewrite map_length, seq_length; exact H).
  rewrite map_nth, seq_nth by exact H. reflexivity.
Qed.
Lemma moved_value ts d src ix : good (map dims ts) d src -> valid d ix ->
  value (Raw d (moved ts d src)) ix = value (nth (fst (src ix)) ts none) (snd (src ix)).
Proof.
  intros G V. unfold value. cbn [dims data]. rewrite (pos_ravel _ _ V).
  rewrite moved_nth by (apply ravel_lt; exact V). rewrite unravel_ravel by exact V.
  destruct (G ix V) as [L Vj]. destruct (src ix) as [t jx]. cbn [fst snd] in *.
  rewrite map_length in L. change (@nil nat) with (dims none) in Vj. rewrite map_nth in Vj.
  rewrite (pos_ravel _ _ Vj). reflexivity.
Qed.

Lemma secret_get k sc xs ws t : Forall2 (secret k sc) xs ws -> t < length ws ->
  exists x, nth_error xs t = Some x /\ secret k sc x (nth t ws none).
Proof.
  intros H. revert t. induction H as [|x w xs ws Hx H IH]; intros t L; [cbn in L; lia|].
  destruct t as [|t]; [exists x; split; [reflexivity|exact Hx]|]. apply (IH t). cbn in L. lia.
Qed.
Lemma moved_share xs (g : tens -> list Z) t x : nth_error xs t = Some x ->
  nth t (map (fun x => Raw (tdims x) (g x)) xs) none = Raw (tdims x) (g x).
Proof. intros H. apply (map_nth_error (fun x => Raw (tdims x) (g x))) in H. apply nth_error_nth. exact H. Qed.
Lemma shapes_of k sc xs ws (g : tens -> list Z) : Forall2 (secret k sc) xs ws ->
  map dims (map (fun x => Raw (tdims x) (g x)) xs) = map dims ws.
Proof.
  intros H. induction H as [|x w xs ws Hx H IH]; [reflexivity|]. cbn [map]. rewrite IH. f_equal. exact (proj1 Hx).
Qed.

Theorem shares_ok kr k sc xs ws d src : Forall2 (secret k sc) xs ws -> kr (map dims ws) = Ok (d, src) ->
  good (map dims ws) d src ->
  exists y, on_shares kr xs sc (kty k) (kfc k) = Ok y /\ secret k sc y (Raw d (moved ws d src)).
Proof.
  intros HF HK G. unfold on_shares.
  assert (R : forall g : tens -> list Z, apply kr (map (fun x => Raw (tdims x) (g x)) xs) =
              Ok (Raw d (moved (map (fun x => Raw (tdims x) (g x)) xs) d src))).
  { intros g. apply apply_ok. rewrite (shapes_of k sc xs ws g HF). exact HK. }
  rewrite !R. cbn [bind dims data forallb]. rewrite same_refl. cbn [andb].
  eexists. split; [reflexivity|].
  unfold secret. cbn [tdims tsc tty tfc t00 t01 t10 t11 t20 t21 dims data].
  rewrite moved_len. do 5 (split; [reflexivity|]). split.
  { repeat constructor; apply moved_len. }
  intros e He. rewrite moved_nth by exact He.
  destruct (G (unravel d e) (unravel_valid d e He)) as [L V].
  destruct (src (unravel d e)) as [t jx] eqn:E. cbn [fst snd] in L, V.
  rewrite map_length in L. destruct (secret_get k sc xs ws t HF L) as (x & Nx & Sx).
  change (@nil nat) with (dims none) in V. rewrite map_nth in V.
  cbv zeta. destruct Sx as (D & F1 & F2 & F3 & Len & _ & P).
  specialize (P (ravel (dims (nth t ws none)) jx)). rewrite Len in P. specialize (P (ravel_lt _ _ V)).
  unfold entry in *. cbn [t00 t01 t10 t11 t20 t21 tsc tty tfc].
  rewrite !moved_nth by exact He. rewrite E. cbv zeta.
  rewrite !(moved_share xs _ t x Nx). cbn [dims data]. rewrite D. rewrite F1, F2, F3 in P. exact P.
Qed.

Theorem copies_ok kr f sc xs ws d src : Forall2 (known f sc) xs ws -> kr (map dims ws) = Ok (d, src) ->
  exists y, on_copies kr xs sc f = Ok y /\ known f sc y (Raw d (moved ws d src)).
Proof.
  intros HF HK. unfold on_copies.
  assert (R : forall g : ptens -> list Z, (forall x w, known f sc x w -> g x = data w) ->
              map (fun x => Raw (udims x) (g x)) xs = ws).
  { intros g Hg. clear HK. induction HF as [|x w xs ws Hx H IH]; [reflexivity|]. cbn [map]. rewrite IH.
    rewrite (proj1 Hx), (Hg x w Hx). destruct w; reflexivity. }
  rewrite (R u0), (R u1), (R u2) by (intros x w K; apply K).
  rewrite (apply_ok _ _ _ _ HK). cbn [bind dims data forallb]. rewrite same_refl. cbn [andb].
  eexists. split; [reflexivity|]. unfold known. cbn [udims usc ufc u0 u1 u2 dims data].
  repeat split; try reflexivity. apply moved_len.
Qed.

(** Indices that are cut at an axis. *)
Lemma valid_app p q ix : valid (p ++ q) ix -> exists ip iq, ix = ip ++ iq /\ length ip = length p /\ valid p ip /\ valid q iq.
Proof.
  intros H. unfold valid in H. apply Forall2_app_inv_r in H. destruct H as (ip & iq & H1 & H2 & ->).
  exists ip, iq. split; [reflexivity|]. split; [exact (same_len _ _ _ H1)|]. split; assumption.
Qed.
Lemma valid_mk p q ip iq : valid p ip -> valid q iq -> valid (p ++ q) (ip ++ iq).
Proof. apply Forall2_app. Qed.
Lemma valid_cons n q ix : valid (n :: q) ix -> exists i iq, ix = i :: iq /\ i < n /\ valid q iq.
Proof. intros H. inversion H; subst. eauto. Qed.
Lemma valid_mid p n q ix : valid (p ++ n :: q) ix ->
  exists ip i iq, ix = ip ++ i :: iq /\ length ip = length p /\ valid p ip /\ i < n /\ valid q iq.
Proof.
  intros H. apply valid_app in H as (ip & iq & -> & L & V1 & V2). apply valid_cons in V2 as (i & iq' & -> & Hi & V2).
  exists ip, i, iq'. auto.
Qed.
Lemma valid_mid_mk p n q ip i iq : valid p ip -> i < n -> valid q iq -> valid (p ++ n :: q) (ip ++ i :: iq).
Proof. intros. apply valid_mk; [assumption|]. constructor; assumption. Qed.
Lemma firstn_mid {A} (p q : list A) : firstn (length p) (p ++ q) = p.
Proof. rewrite firstn_app, Nat.sub_diag, firstn_all. cbn. apply app_nil_r. Qed.
Lemma skipn_mid {A} (p q : list A) : skipn (length p) (p ++ q) = q.
Proof. rewrite skipn_app, Nat.sub_diag, skipn_all. reflexivity. Qed.
Lemma skipn_mid1 {A} (p q : list A) n : skipn (S (length p)) (p ++ n :: q) = q.
Proof. replace (S (length p)) with (length (p ++ [n])) by (rewrite app_length; cbn; lia).
  replace (p ++ n :: q) with ((p ++ [n]) ++ q) by (rewrite <- app_assoc; reflexivity). apply skipn_mid. Qed.
Lemma at_axis_mid (f : nat -> nat) p n q : at_axis (length p) f (p ++ n :: q) = p ++ f n :: q.
Proof. unfold at_axis. rewrite firstn_mid, skipn_mid1, nth_middle. reflexivity. Qed.
Lemma mid_lt {A} (p q : list A) n : (length p <? length (p ++ n :: q)) = true.
Proof. apply Nat.ltb_lt. rewrite app_length. cbn. lia. Qed.

Lemma valid_nth d ix : length ix = length d -> (forall i, i < length d -> nth i ix 0 < nth i d 0) -> valid d ix.
Proof.
  revert ix. induction d as [|n d IH]; intros [|i ix] L H; try discriminate; constructor.
  - exact (H 0 ltac:(cbn; lia)).
  - apply IH; [cbn in L; lia|]. intros j Hj. exact (H (S j) ltac:(cbn; lia)).
Qed.
Lemma nth_valid d ix i : valid d ix -> i < length d -> nth i ix 0 < nth i d 0.
Proof.
  intros H. revert i. induction H as [|j n ix d Hj H IH]; intros [|i] L; cbn in *; try lia. apply IH. lia.
Qed.
Lemma find_in i l : In i l -> find_at i l < length l /\ nth (find_at i l) l 0 = i.
Proof.
  induction l as [|j l IH]; [intros []|]. intros H. cbn [find_at]. destruct (Nat.eqb_spec i j) as [->|N].
  - cbn. split; [lia|reflexivity].
  - destruct IH as [A B]; [destruct H as [H|H]; [congruence|exact H]|]. cbn. split; [lia|exact B].
Qed.
Lemma find_nth l t : NoDup l -> t < length l -> find_at (nth t l 0) l = t.
Proof.
  intros N L. destruct (find_in (nth t l 0) l (nth_In l 0 L)) as [A B].
  exact (proj1 (NoDup_nth l 0) N _ _ A L B).
Qed.
Lemma map_nth0 (f : nat -> nat) l i : i < length l -> nth i (map f l) 0 = f (nth i l 0).
Proof.
  intros H. rewrite (nth_indep _ 0 (f 0)) by (rewrite map_length; exact H). apply map_nth.
Qed.

Lemma transpose_ok d perm : Permutation perm (seq 0 (length d)) ->
  exists f, kernel_of (Transpose perm) d = Ok (map (fun i => nth i d 0) perm, f) /\
  forall ix, valid (map (fun i => nth i d 0) perm) ix -> valid d (f ix) /\ from (Transpose perm) d ix (f ix).
Proof.
  intros H. assert (L : length perm = length d) by (rewrite (Permutation_length H); apply seq_length).
  assert (N : NoDup perm) by (apply (Permutation_NoDup (Permutation_sym H)); apply seq_NoDup).
  assert (I : forall i, i < length d -> In i perm) by (intros i Hi; apply (Permutation_in i (Permutation_sym H)); apply in_seq; lia).
  assert (J : forall i, In i perm -> i < length d) by (intros i Hi; apply (Permutation_in i H) in Hi; apply in_seq in Hi; lia).
  cbn [kernel_of]. rewrite L, Nat.eqb_refl.
  replace (forallb (fun i => existsb (Nat.eqb i) perm) (seq 0 (length d))) with true.
  2:{ symmetry. apply forallb_forall. intros i Hi. apply existsb_exists. exists i. split; [|apply Nat.eqb_refl].
      apply I. apply in_seq in Hi. lia. }
  cbn [andb]. eexists. split; [reflexivity|]. intros ix V.
  assert (Li : length ix = length d) by (rewrite (valid_len _ _ V), map_length; exact L).
  set (jx := map (fun i => nth (find_at i perm) ix 0) (seq 0 (length d))).
  assert (E : forall i, i < length d -> nth i jx 0 = nth (find_at i perm) ix 0).
  { intros i Hi. unfold jx. rewrite map_nth0 by (rewrite seq_length; exact Hi). rewrite seq_nth by exact Hi. reflexivity. }
  split.
  - apply valid_nth; [unfold jx; rewrite map_length, seq_length; reflexivity|]. intros i Hi. rewrite (E i Hi).
    destruct (find_in i perm (I i Hi)) as [A B].
    pose proof (nth_valid _ _ (find_at i perm) V ltac:(rewrite map_length; exact A)) as Q.
    rewrite map_nth0, B in Q by exact A. exact Q.
  - replace ix with (map (fun i => nth i jx 0) perm); [constructor|].
    apply (nth_ext _ _ 0 0); [rewrite map_length; lia|]. rewrite map_length. intros t Ht.
    rewrite map_nth0 by exact Ht. rewrite E by (apply J, nth_In; exact Ht). rewrite find_nth by assumption. reflexivity.
Qed.

Lemma tile_ok : forall ms d d' ix, length ms = length d -> Forall2 (fun '(m, n) n' => n' = m * n) (combine ms d) d' ->
  zip_with Nat.mul ms d = d' /\
  (valid d' ix -> valid d (zip_with Nat.modulo ix d) /\
   Forall2 (fun '(i, n) j => exists q, i = q * n + j) (combine ix d) (zip_with Nat.modulo ix d)).
Proof.
  unfold zip_with. induction ms as [|m ms IH]; intros [|n d] d' ix L H; try discriminate; cbn [combine] in H; inversion H; subst.
  - split; [reflexivity|]. intros V. inversion V; subst. split; constructor.
  - destruct (IH d l' (tl ix) ltac:(cbn in L; lia) H4) as [E K]. cbn [combine map fst snd]. split; [rewrite E; reflexivity|].
    intros V. inversion V; subst. cbn [tl combine map fst snd] in *. destruct (K H5) as [K1 K2].
    assert (n <> 0) by (intros ->; rewrite Nat.mul_0_r in H3; lia).
    split; constructor; try assumption; [apply Nat.mod_upper_bound; assumption|].
    exists (x / n). pose proof (Nat.div_mod x n). lia.
Qed.

Lemma kernel_ok o d d' : legal o d d' -> exists f, kernel_of o d = Ok (d', f) /\
  forall ix, valid d' ix -> valid d (f ix) /\ from o d ix (f ix).
Proof.
  intros H. destruct H as [d s H|d perm H|p q|p q|p n q idx H|p n q|p n q start count step H C S|d ms d' H L].
  - cbn [kernel_of]. change (volume s = volume d) in H. rewrite H, Nat.eqb_refl. eexists. split; [reflexivity|].
    intros ix V. assert (K : ravel s ix < volume d) by (rewrite <- H; apply ravel_lt; exact V).
    pose proof (unravel_valid d _ K) as V'. split; [exact V'|]. constructor.
    rewrite !pos_ravel by assumption. rewrite ravel_unravel by exact K. reflexivity.
  - apply transpose_ok. exact H.
  - cbn [kernel_of]. rewrite (proj2 (Nat.leb_le (length p) (length (p ++ q)))) by (rewrite app_length; lia).
    rewrite firstn_mid, skipn_mid. eexists. split; [reflexivity|].
    intros ix V. apply valid_mid in V as (ip & i & iq & -> & L & V1 & Hi & V2). rewrite <- L.
    rewrite firstn_mid, skipn_mid1. split; [apply valid_mk; assumption|]. replace i with 0 by lia. constructor.
  - cbn [kernel_of]. rewrite mid_lt, nth_middle. cbn [andb Nat.eqb]. rewrite firstn_mid, skipn_mid1. eexists. split; [reflexivity|].
    intros ix V. apply valid_app in V as (ip & iq & -> & L & V1 & V2). rewrite <- L.
    rewrite firstn_mid, skipn_mid. split; [apply valid_mid_mk; auto with arith|]. constructor.
  - cbn [kernel_of]. rewrite mid_lt, nth_middle.
    replace (forallb (fun i => i <? n) idx) with true
      by (symmetry; apply forallb_forall; intros i Hi; apply Nat.ltb_lt; rewrite Forall_forall in H; exact (H i Hi)).
    cbn [andb]. rewrite at_axis_mid. eexists. split; [reflexivity|].
    intros ix V. apply valid_mid in V as (ip & i & iq & -> & L & V1 & Hi & V2). rewrite <- L.
    rewrite at_axis_mid. split; [|constructor]. apply valid_mid_mk; try assumption.
    rewrite Forall_forall in H. apply H. apply nth_In. exact Hi.
  - cbn [kernel_of]. rewrite mid_lt, nth_middle. eexists. split; [reflexivity|].
    intros ix V. apply valid_mid in V as (ip & i & iq & -> & L & V1 & Hi & V2). rewrite <- L.
    rewrite at_axis_mid. split; [apply valid_mid_mk; try assumption; lia|]. constructor; [exact L|lia].
  - cbn [kernel_of]. rewrite mid_lt, nth_middle.
    rewrite (proj2 (Nat.ltb_lt (start + count * step) (n + step))) by (specialize (H (count - 1) ltac:(lia)); nia).
    cbn [andb]. rewrite at_axis_mid. eexists. split; [reflexivity|].
    intros ix V. apply valid_mid in V as (ip & i & iq & -> & L' & V1 & Hi & V2). rewrite <- L'.
    rewrite at_axis_mid. split; [|constructor]. apply valid_mid_mk; auto.
  - cbn [kernel_of]. rewrite L, Nat.eqb_refl. rewrite (proj1 (tile_ok ms d d' [] L H)). eexists. split; [reflexivity|].
    intros ix V. destruct (proj2 (tile_ok ms d d' ix L H) V) as [A B]. split; [exact A|]. constructor. exact B.
Qed.

(** Joins. *)
Lemma locate_ok : forall ns t i j, t < length ns -> j < nth t ns 0 ->
  locate ns (fold_right Nat.add 0 (firstn t ns) + j) i = (i + t, j).
Proof.
  induction ns as [|n ns IH]; intros t i j L H; [cbn in L; lia|]. destruct t as [|t]; cbn [firstn fold_right nth locate] in *.
  - rewrite (proj2 (Nat.ltb_lt (0 + j) n)) by lia. f_equal; lia.
  - rewrite (proj2 (Nat.ltb_ge _ n)) by lia.
    replace (n + fold_right Nat.add 0 (firstn t ns) + j - n) with (fold_right Nat.add 0 (firstn t ns) + j) by lia.
    rewrite IH by (try assumption; cbn in L; lia). f_equal; lia.
Qed.
Lemma locate_split : forall ns j, j < fold_right Nat.add 0 ns ->
  exists t j', t < length ns /\ j' < nth t ns 0 /\ j = fold_right Nat.add 0 (firstn t ns) + j'.
Proof.
  induction ns as [|n ns IH]; intros j H; [cbn in H; lia|]. cbn [fold_right] in H.
  destruct (Nat.lt_ge_cases j n) as [A|A].
  - exists 0, j. cbn. repeat split; lia.
  - destruct (IH (j - n) ltac:(lia)) as (t & j' & B & C & D). exists (S t), j'. cbn. repeat split; lia.
Qed.
Lemma concat_k_ok p q ns : ns <> [] -> exists src,
  concat_k (length p) (map (fun n => p ++ n :: q) ns) = Ok (p ++ list_sum ns :: q, src) /\
  forall ip t j iq, length ip = length p -> t < length ns -> j < nth t ns 0 ->
    src (ip ++ list_sum (firstn t ns) + j :: iq) = (t, ip ++ j :: iq).
Proof.
  intros NE. destruct ns as [|n0 ns]; [congruence|]. clear NE. unfold concat_k.
  set (l := n0 :: ns). change (nth 0 (map (fun n => p ++ n :: q) l) []) with (p ++ n0 :: q). rewrite mid_lt.
  replace (forallb _ (map (fun n => p ++ n :: q) l)) with true.
  2:{ symmetry. apply forallb_forall. intros e He. apply in_map_iff in He as (n & <- & _).
      rewrite mid_lt, !at_axis_mid, same_refl. reflexivity. }
  cbn [andb]. rewrite at_axis_mid.
  replace (map (fun e => nth (length p) e 0) (map (fun n => p ++ n :: q) l)) with l.
  2:{ rewrite map_map. rewrite <- (map_id l) at 1. apply map_ext. intros n. rewrite nth_middle. reflexivity. }
  eexists. split; [reflexivity|]. intros ip t j iq L T J. rewrite <- L, at_axis_mid, nth_middle.
  unfold list_sum. rewrite locate_ok by assumption. reflexivity.
Qed.
Lemma stack_k_ok {A} p q (ws : list A) : ws <> [] -> exists src,
  stack_k (length p) (map (fun _ => p ++ q) ws) = Ok (p ++ length ws :: q, src) /\
  forall ip t iq, length ip = length p -> src (ip ++ t :: iq) = (t, ip ++ iq).
Proof.
  intros NE. destruct ws as [|w0 ws]; [congruence|]. clear NE. unfold stack_k.
  set (l := w0 :: ws). change (nth 0 (map (fun _ => p ++ q) l) []) with (p ++ q).
  rewrite (proj2 (Nat.leb_le (length p) (length (p ++ q)))) by (rewrite app_length; lia).
  replace (forallb _ (map (fun _ => p ++ q) l)) with true.
  2:{ symmetry. apply forallb_forall. intros e He. apply in_map_iff in He as (n & <- & _). apply same_refl. }
  cbn [andb]. rewrite firstn_mid, skipn_mid, map_length. eexists. split; [reflexivity|].
  intros ip t iq L. rewrite <- L, firstn_mid, skipn_mid1, nth_middle. reflexivity.
Qed.
Lemma split_k_ok p q num m t : 0 < num -> exists src,
  split_k num (length p) t [p ++ num * m :: q] = Ok (p ++ m :: q, src) /\
  forall ip j iq, length ip = length p -> src (ip ++ j :: iq) = (0, ip ++ t * m + j :: iq).
Proof.
  intros H. unfold split_k. cbn [nth]. rewrite mid_lt, nth_middle, (proj2 (Nat.ltb_lt 0 num) H).
  rewrite (Nat.mul_comm num m), Nat.mod_mul, Nat.div_mul by lia. cbn [andb Nat.eqb]. rewrite at_axis_mid.
  eexists. split; [reflexivity|]. intros ip j iq L. rewrite <- L, at_axis_mid. reflexivity.
Qed.
Lemma concat_good p q ns src : (forall ip t j iq, length ip = length p -> t < length ns -> j < nth t ns 0 ->
    src (ip ++ list_sum (firstn t ns) + j :: iq) = (t, ip ++ j :: iq)) ->
  good (map (fun n => p ++ n :: q) ns) (p ++ list_sum ns :: q) src.
Proof.
  intros H ix V. apply valid_mid in V as (ip & i & iq & -> & L & V1 & Hi & V2).
  destruct (locate_split ns i Hi) as (t & j & T & J & ->). change (fold_right Nat.add 0 (firstn t ns)) with (list_sum (firstn t ns)).
  rewrite H by assumption. cbn [fst snd]. rewrite map_length. split; [exact T|].
  rewrite (nth_indep _ [] (p ++ 0 :: q)) by (rewrite map_length; exact T).
  rewrite (map_nth (fun n => p ++ n :: q)). apply valid_mid_mk; assumption.
Qed.
Lemma stack_good {A} p q (ws : list A) src : (forall ip t iq, length ip = length p -> src (ip ++ t :: iq) = (t, ip ++ iq)) ->
  good (map (fun _ => p ++ q) ws) (p ++ length ws :: q) src.
Proof.
  intros H ix V. apply valid_mid in V as (ip & i & iq & -> & L & V1 & Hi & V2).
  rewrite H by assumption. cbn [fst snd]. rewrite map_length. split; [exact Hi|].
  replace (nth i (map (fun _ : A => p ++ q) ws) []) with (p ++ q); [apply valid_mk; assumption|].
  symmetry. assert (K : In (nth i (map (fun _ : A => p ++ q) ws) []) (map (fun _ => p ++ q) ws)) by (apply nth_In; rewrite map_length; exact Hi).
  apply in_map_iff in K as (? & K & _). congruence.
Qed.
Lemma split_good p q num m t src : t < num -> (forall ip j iq, length ip = length p -> src (ip ++ j :: iq) = (0, ip ++ t * m + j :: iq)) ->
  good [p ++ num * m :: q] (p ++ m :: q) src.
Proof.
  intros T H ix V. apply valid_mid in V as (ip & i & iq & -> & L & V1 & Hi & V2).
  rewrite H by assumption. cbn [fst snd nth length]. split; [lia|]. apply valid_mid_mk; try assumption. nia.
Qed.

Lemma aon_same (l : list bool) sc : Forall (eq sc) l -> all_or_none l = true.
Proof.
  intros H. unfold all_or_none. destruct sc.
  - replace (forallb (fun b => b) l) with true; [reflexivity|]. symmetry. apply forallb_forall. rewrite Forall_forall in H.
    intros b Hb. symmetry. exact (H b Hb).
  - apply Bool.orb_true_iff. right. apply forallb_forall. rewrite Forall_forall in H. intros b Hb. rewrite <- (H b Hb). reflexivity.
Qed.
Lemma fac_refl f : fac_eqb f f = true.
Proof. destruct f as [|n]; [reflexivity|]. cbn. apply Z.eqb_refl. Qed.
Lemma privates_map xs : privates (map Pr xs) = Some xs.
Proof. induction xs as [|x xs IH]; [reflexivity|]. cbn. rewrite IH. reflexivity. Qed.
Lemma publics_map xs : publics (map Pu xs) = Some xs.
Proof. induction xs as [|x xs IH]; [reflexivity|]. cbn. rewrite IH. reflexivity. Qed.
Lemma join_private_ok kr k sc xs ws d src : Forall2 (secret k sc) xs ws -> ws <> [] -> kr (map dims ws) = Ok (d, src) ->
  good (map dims ws) d src ->
  exists y, join kr (map Pr xs) = Ok (Pr y) /\ secret k sc y (Raw d (moved ws d src)).
Proof.
  intros HF NE HK G. destruct (shares_ok kr k sc xs ws d src HF HK G) as (y & E & S). exists y. split; [|exact S].
  assert (A : Forall (fun x => tsc x = sc /\ tty x = kty k /\ tfc x = kfc k) xs).
  { clear -HF. induction HF as [|x w xs ws Hx H IH]; constructor; [|exact IH]. destruct Hx as (_ & a & b & c & _). auto. }
  unfold join. destruct xs as [|x xs]; [inversion HF; subst; congruence|].
  change (publics (map Pr (x :: xs))) with (@None (list ptens)). cbv iota. rewrite privates_map. unfold join_private.
  rewrite (aon_same _ sc).
  2:{ apply Forall_map. eapply Forall_impl; [|exact A]. cbn. intros z (a & _). congruence. }
  inversion A as [|? ? (a & b & c) A']; subst.
  replace (forallb (fun y0 => same_factory (tfc y0) (tfc x)) (x :: xs)) with true.
  2:{ symmetry. apply forallb_forall. intros z Hz. rewrite Forall_forall in A. destruct (A z Hz) as (_ & _ & Hc).
      rewrite Hc, c. apply fac_refl. }
  rewrite b, c, E. reflexivity.
Qed.
Lemma join_public_ok kr f sc xs ws d src : Forall2 (known f sc) xs ws -> ws <> [] -> kr (map dims ws) = Ok (d, src) ->
  exists y, join kr (map Pu xs) = Ok (Pu y) /\ known f sc y (Raw d (moved ws d src)).
Proof.
  intros HF NE HK. destruct (copies_ok kr f sc xs ws d src HF HK) as (y & E & S). exists y. split; [|exact S].
  assert (A : Forall (fun x => usc x = sc /\ ufc x = f) xs).
  { clear -HF. induction HF as [|x w xs ws Hx H IH]; constructor; [|exact IH]. destruct Hx as (_ & a & b & _). auto. }
  unfold join. rewrite publics_map. unfold join_public.
  rewrite (aon_same _ sc).
  2:{ apply Forall_map. eapply Forall_impl; [|exact A]. cbn. intros z (a & _). congruence. }
  destruct xs as [|x xs]; [inversion HF; subst; congruence|].
  inversion A as [|? ? (a & c) A']; subst.
  replace (forallb (fun y0 => same_factory (ufc y0) (ufc x)) (x :: xs)) with true.
  2:{ symmetry. apply forallb_forall. intros z Hz. rewrite Forall_forall in A. destruct (A z Hz) as (_ & Hc).
      rewrite Hc. apply fac_refl. }
  rewrite E. reflexivity.
Qed.

(** Zeros. *)
Lemma repeat_zero m e : nth e (repeat 0%Z m) 0%Z = 0%Z.
Proof. revert e. induction m as [|m IH]; intros [|e]; cbn; auto. Qed.
Lemma word_zero k : sensible k -> word (kfc k) 0%Z.
Proof.
  destruct k as [n|[|n]]; cbn; intros H; [|left; reflexivity|]; split; try lia;
    pose proof (Z.pow_pos_nonneg 2 (n - 1)); lia.
Qed.
Lemma zeros_secret k sc s : sensible k ->
  secret k sc (Tens s sc (kty k) (kfc k) (repeat 0%Z (volume s)) (repeat 0%Z (volume s)) (repeat 0%Z (volume s))
                    (repeat 0%Z (volume s)) (repeat 0%Z (volume s)) (repeat 0%Z (volume s))) (Raw s (repeat 0%Z (volume s))).
Proof.
  intros H. pose proof (word_zero k H) as W. unfold secret. cbn [tdims tsc tty tfc t00 t01 t10 t11 t20 t21 dims data].
  do 4 (split; [reflexivity|]). split; [apply repeat_length|]. split; [repeat constructor|].
  intros e _. unfold entry. cbn [t00 t01 t10 t11 t20 t21 tsc tty tfc]. rewrite !repeat_zero.
  destruct k as [n|f]; cbn [shares kty kfc] in *.
  - split; [repeat split|]. unfold arith_vals, replicated. cbn [pty pfc p00 p01 p10 p11 p20 p21 vz].
    repeat split; try reflexivity; apply W.
  - split; [repeat split|]. unfold bool_vals, replicated. cbn [pty pfc p00 p01 p10 p11 p20 p21 vz]. repeat split; try reflexivity; apply W.
Qed.
Lemma zeros_value s ix : value (Raw s (repeat 0%Z (volume s))) ix = 0%Z.
Proof. unfold value. cbn [dims data]. apply repeat_zero. Qed.
Lemma shapes_all p q ws ns : Forall2 (fun w n => dims w = p ++ n :: q) ws ns -> map dims ws = map (fun n => p ++ n :: q) ns.
Proof. intros H. induction H as [|w n ws ns Hw H IH]; [reflexivity|]. cbn [map]. rewrite Hw, IH. reflexivity. Qed.

Lemma concat_private k sc p q xs ws ns : Forall2 (secret k sc) xs ws -> Forall2 (fun w n => dims w = p ++ n :: q) ws ns -> ws <> [] ->
  exists y w, concat_ (map Pr xs) (length p) = Ok (Pr y) /\ secret k sc y w /\ dims w = p ++ list_sum ns :: q /\
  forall t ip j iq, t < length ws -> valid p ip -> j < nth t ns 0 -> valid q iq ->
    value w (ip ++ list_sum (firstn t ns) + j :: iq) = value (nth t ws none) (ip ++ j :: iq).
Proof.
  intros HF HD NE. pose proof (same_len _ _ _ HD) as LN. pose proof (shapes_all p q ws ns HD) as SH.
  destruct (concat_k_ok p q ns ltac:(intros ->; destruct ws; [congruence|discriminate])) as (src & E & Hs).
  pose proof (concat_good p q ns src Hs) as G.
  rewrite <- SH in E, G. destruct (join_private_ok _ k sc xs ws _ src HF NE E G) as (y & Ey & Sy).
  exists y, (Raw (p ++ list_sum ns :: q) (moved ws (p ++ list_sum ns :: q) src)).
  split; [exact Ey|]. split; [exact Sy|]. split; [reflexivity|].
  intros t ip j iq T V1 J V2. rewrite moved_value; [|exact G|].
  - rewrite Hs by (rewrite <- ?LN; try assumption; exact (valid_len _ _ V1)). reflexivity.
  - apply valid_mid_mk; [assumption| |assumption]. rewrite LN in T. clear -T J.
    unfold list_sum. revert t T J. induction ns as [|n ns IH]; intros [|t] T J; cbn [firstn fold_right nth length] in *; try lia.
    specialize (IH t ltac:(lia) J). lia.
Qed.

Lemma set_axis_len p n q amt : padshape amt (length p) (p ++ n :: q) = p ++ amt :: q.
Proof. unfold padshape. rewrite mid_lt, at_axis_mid. reflexivity. Qed.
Lemma append_ok k sc p n q x w amt : sensible k -> secret k sc x w -> dims w = p ++ n :: q ->
  exists y w', append_zeros (Pr x) amt (length p) = Ok (Pr y) /\ secret k sc y w' /\ dims w' = p ++ n + amt :: q /\
  forall ip i iq, valid p ip -> i < n + amt -> valid q iq ->
    value w' (ip ++ i :: iq) = if i <? n then value w (ip ++ i :: iq) else 0%Z.
Proof.
  intros K S D. unfold append_zeros. destruct (Nat.eqb_spec amt 0) as [->|N].
  { exists x, w. split; [reflexivity|]. split; [exact S|]. rewrite Nat.add_0_r. split; [exact D|].
    intros ip i iq _ Hi _. rewrite (proj2 (Nat.ltb_lt i n) Hi). reflexivity. }
  destruct (S) as (Dx & F1 & F2 & F3 & _). cbn [shape zeros_like bind]. rewrite Dx, D, set_axis_len, F1, F2, F3.
  set (s := p ++ amt :: q).
  set (z := (Tens s sc (kty k) (kfc k) (repeat 0%Z (volume s)) (repeat 0%Z (volume s)) (repeat 0%Z (volume s)) (repeat 0%Z (volume s)) (repeat 0%Z (volume s)) (repeat 0%Z (volume s)))).
  destruct (concat_private k sc p q [x; z] [w; Raw s (repeat 0%Z (volume s))] [n; amt]) as (y & w' & E & Sy & Dy & V).
  { constructor; [exact S|]. constructor; [apply zeros_secret; exact K|constructor]. }
  { constructor; [exact D|]. constructor; [reflexivity|constructor]. }
  { discriminate. }
  exists y, w'. split; [exact E|]. split; [exact Sy|]. cbn [list_sum fold_right] in Dy. rewrite Nat.add_0_r in Dy. split; [exact Dy|].
  intros ip i iq V1 Hi V2. destruct (Nat.ltb_spec i n) as [L|L].
  - exact (V 0 ip i iq ltac:(cbn; lia) V1 L V2).
  - pose proof (V 1 ip (i - n) iq ltac:(cbn; lia) V1 ltac:(cbn; lia) V2) as Q. cbn [firstn list_sum fold_right nth] in Q.
    replace (n + 0 + (i - n)) with i in Q by lia. rewrite Q. apply zeros_value.
Qed.
Lemma prepend_ok k sc p n q x w amt : sensible k -> secret k sc x w -> dims w = p ++ n :: q ->
  exists y w', prepend_zeros (Pr x) amt (length p) = Ok (Pr y) /\ secret k sc y w' /\ dims w' = p ++ amt + n :: q /\
  forall ip i iq, valid p ip -> i < amt + n -> valid q iq ->
    value w' (ip ++ i :: iq) = if amt <=? i then value w (ip ++ i - amt :: iq) else 0%Z.
Proof.
  intros K S D. unfold prepend_zeros. destruct (Nat.eqb_spec amt 0) as [->|N].
  { exists x, w. split; [reflexivity|]. split; [exact S|]. split; [exact D|].
    intros ip i iq _ Hi _. rewrite Nat.sub_0_r. reflexivity. }
  destruct (S) as (Dx & F1 & F2 & F3 & _). cbn [shape zeros_like bind]. rewrite Dx, D, set_axis_len, F1, F2, F3.
  set (s := p ++ amt :: q).
  set (z := (Tens s sc (kty k) (kfc k) (repeat 0%Z (volume s)) (repeat 0%Z (volume s)) (repeat 0%Z (volume s)) (repeat 0%Z (volume s)) (repeat 0%Z (volume s)) (repeat 0%Z (volume s)))).
  destruct (concat_private k sc p q [z; x] [Raw s (repeat 0%Z (volume s)); w] [amt; n]) as (y & w' & E & Sy & Dy & V).
  { constructor; [apply zeros_secret; exact K|]. constructor; [exact S|constructor]. }
  { constructor; [reflexivity|]. constructor; [exact D|constructor]. }
  { discriminate. }
  exists y, w'. split; [exact E|]. split; [exact Sy|]. cbn [list_sum fold_right] in Dy. rewrite Nat.add_0_r in Dy. split; [exact Dy|].
  intros ip i iq V1 Hi V2. destruct (Nat.leb_spec amt i) as [L|L].
  - pose proof (V 1 ip (i - amt) iq ltac:(cbn; lia) V1 ltac:(cbn; lia) V2) as Q. cbn [firstn list_sum fold_right nth] in Q.
    replace (amt + 0 + (i - amt)) with i in Q by lia. exact Q.
  - pose proof (V 0 ip i iq ltac:(cbn; lia) V1 L V2) as Q. cbn [firstn list_sum fold_right nth] in Q. cbn [Nat.add] in Q.
    rewrite Q. apply zeros_value.
Qed.
Lemma inside_valid : forall ps d ix jx, valid (padded ps d) ix -> inside ps d ix = Some jx -> valid d jx.
Proof.
  induction ps as [|[b a] ps IH]; intros [|n d] ix jx V E; cbn [padded inside] in *.
  1-3: injection E as <-; exact V.
  apply valid_cons in V as (i & iq & -> & Hi & V). destruct (Nat.leb_spec b i); cbn [andb] in E; [|discriminate].
  destruct (Nat.ltb_spec i (b + n)); [|discriminate]. destruct (inside ps d iq) as [l|] eqn:El; [|discriminate].
  injection E as <-. constructor; [lia|]. exact (IH d iq l V El).
Qed.
Lemma pad_from_ok k sc : sensible k -> forall ps p d x w, secret k sc x w -> dims w = p ++ d -> length ps <= length d ->
  exists y w', pad_from (length p) ps (Pr x) = Ok (Pr y) /\ secret k sc y w' /\ dims w' = p ++ padded ps d /\
  forall ip ix, valid p ip -> valid (padded ps d) ix ->
    value w' (ip ++ ix) = match inside ps d ix with Some jx => value w (ip ++ jx) | None => 0%Z end.
Proof.
  intros K. induction ps as [|[b a] ps IH]; intros p d x w S D L.
  { exists x, w. cbn [pad_from padded inside]. repeat (split; [assumption||reflexivity|]). reflexivity. }
  destruct d as [|n d]; [cbn in L; lia|]. cbn [pad_from padded].
  destruct (append_ok k sc p n d x w a K S D) as (x1 & w1 & E1 & S1 & D1 & V1).
  destruct (prepend_ok k sc p (n + a) d x1 w1 b K S1 D1) as (x2 & w2 & E2 & S2 & D2 & V2).
  rewrite E1. cbn [bind]. rewrite E2. cbn [bind].
  destruct (IH (p ++ [b + (n + a)]) d x2 w2 S2) as (y & w' & E & Sy & Dy & V).
  { rewrite <- app_assoc. exact D2. }
  { cbn in L. lia. }
  rewrite app_length in E. cbn [length] in E. rewrite Nat.add_1_r in E.
  exists y, w'. split; [exact E|]. split; [exact Sy|]. split.
  { rewrite Dy, <- app_assoc. cbn [app]. rewrite Nat.add_assoc. reflexivity. }
  intros ip ix Vp Vx. apply valid_cons in Vx as (i & iq & -> & Hi & Vq).
  specialize (V (ip ++ [i]) iq). rewrite <- !app_assoc in V. cbn [app] in V.
  rewrite V; [|apply valid_mid_mk; [assumption|lia|constructor]|exact Vq].
  cbn [inside]. destruct (inside ps d iq) as [jx|] eqn:EI.
  - rewrite <- app_assoc. cbn [app]. pose proof (inside_valid _ _ _ _ Vq EI) as Vj.
    rewrite V2 by (assumption || lia). destruct (Nat.leb_spec b i) as [B|B]; [|reflexivity]. cbn [andb].
    rewrite V1 by (assumption || lia). destruct (Nat.ltb_spec (i - b) n), (Nat.ltb_spec i (b + n)); try lia; reflexivity.
  - destruct ((b <=? i) && (i <? b + n)); reflexivity.
Qed.
