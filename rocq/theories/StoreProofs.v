(** Proofs about tensors on disk. *)
From Coq Require Import String Ascii.
From Verif Require Import Base TensorModel TensorProofs Aby3Model Aby3Spec StoreModel StoreSpec.
Local Open Scope Z_scope.

(** ** Names *)

Lemma append_inj (s s' : string) : String.length s = String.length s' -> forall p p', (p ++ s = p' ++ s')%string -> p = p' /\ s = s'.
Proof.
  intros L. assert (LA : forall a b : string, String.length (a ++ b) = (String.length a + String.length b)%nat) by (induction a; intros; cbn; auto).
  induction p as [|c p IH]; intros [|c' p'] E; cbn in E; auto.
  - exfalso. apply (f_equal String.length) in E. cbn in E. rewrite LA in E. lia.
  - exfalso. apply (f_equal String.length) in E. cbn in E. rewrite LA in E. lia.
  - injection E as -> E. destruct (IH _ E) as [-> ->]. auto.
Qed.
Lemma eqb_file p p' a b : In a places -> In b places ->
  String.eqb (file p (fst a) (snd a)) (file p' (fst b) (snd b)) = String.eqb p p' && (Nat.eqb (fst a) (fst b) && Nat.eqb (snd a) (snd b)).
Proof.
  intros Ha Hb.
  assert (D : forall a b, In a places -> In b places -> (Nat.eqb (fst a) (fst b) && Nat.eqb (snd a) (snd b) = true -> a = b) /\
    ("_share" ++ digit (fst a) ++ digit (snd a) = "_share" ++ digit (fst b) ++ digit (snd b) -> a = b)%string).
  { clear. assert (F : forallb (fun a => forallb (fun b => implb (Nat.eqb (fst a) (fst b) && Nat.eqb (snd a) (snd b) || String.eqb ("_share" ++ digit (fst a) ++ digit (snd a)) ("_share" ++ digit (fst b) ++ digit (snd b)))
      (Nat.eqb (fst a) (fst b) && Nat.eqb (snd a) (snd b))) places) places = true) by (vm_compute; reflexivity).
    intros a b Ha Hb. rewrite forallb_forall in F. specialize (F a Ha). cbv beta in F. rewrite forallb_forall in F. specialize (F b Hb). cbv beta in F.
    assert (G : Nat.eqb (fst a) (fst b) && Nat.eqb (snd a) (snd b) = true -> a = b).
    { intros H. apply andb_prop in H. destruct H as [H1 H2]. apply Nat.eqb_eq in H1, H2. destruct a, b. cbn in *. congruence. }
    split; [exact G|]. intros E. apply G. rewrite E, String.eqb_refl, orb_true_r in F. exact F. }
  destruct (D a b Ha Hb) as [D1 D2].
  destruct (String.eqb_spec (file p (fst a) (snd a)) (file p' (fst b) (snd b))) as [E|E].
  - unfold file in E. destruct (append_inj _ _ (eq_refl : String.length ("_share" ++ digit (fst a) ++ digit (snd a)) = String.length ("_share" ++ digit (fst b) ++ digit (snd b))) _ _ E) as [-> E2].
    rewrite (D2 E2), String.eqb_refl, !Nat.eqb_refl. reflexivity.
  - destruct (String.eqb_spec p p') as [->|N]; [|reflexivity]. cbn [andb]. destruct (Nat.eqb (fst a) (fst b) && Nat.eqb (snd a) (snd b)) eqn:F; [|reflexivity].
    exfalso. apply E. rewrite (D1 eq_refl). reflexivity.
Qed.

(** ** What is on the disk *)

Definition ser (a : nat * nat) (x : tens) : rec := serialize (tfc x) (tdims x) (share_at x (fst a) (snd a)).
Definition old (d : disk) (f : string) : list rec := match d f with Some l => l | None => [] end.
Lemma write_at x p ap d p' a : In a places ->
  write x p ap d (file p' (fst a) (snd a)) =
  if String.eqb p' p then Some ((if ap then old d (file p' (fst a) (snd a)) else []) ++ [ser a x]) else d (file p' (fst a) (snd a)).
Proof.
  intros Ha. unfold write. cbn [places fold_left]. unfold write_record at 1 2 3 4 5 6.
  assert (E : forall i j, In (i, j) places -> String.eqb (file p' (fst a) (snd a)) (file p i j) = String.eqb p' p && (Nat.eqb (fst a) i && Nat.eqb (snd a) j)).
  { intros i j H. exact (eqb_file p' p a (i, j) Ha H). }
  cbn [fst snd]. rewrite !E by (cbn; tauto). destruct (String.eqb_spec p' p) as [->|N]; cbn [andb]; [|reflexivity].
  assert (F : forall i j k l, In (i, j) places -> In (k, l) places -> String.eqb (file p i j) (file p k l) = Nat.eqb i k && Nat.eqb j l).
  { intros i j k l H H'. pose proof (eqb_file p p (i, j) (k, l) H H') as G. rewrite String.eqb_refl in G. exact G. }
  cbn in Ha. unfold ser, old.
  repeat (destruct Ha as [<-|Ha]; [cbn [fst snd Nat.eqb andb]; unfold write_record; rewrite ?F by (cbn; tauto); cbn [Nat.eqb andb]; reflexivity|]); contradiction.
Qed.
Definition there (a : nat * nat) (p : string) (d : disk) (l : list tens) : Prop :=
  match l with [] => d (file p (fst a) (snd a)) = None | _ => d (file p (fst a) (snd a)) = Some (map (ser a) l) end.
Definition step (p : string) (l : list tens) (o : wcall) : list tens := let '(p', a, x) := o in if String.eqb p' p then (if a then l else []) ++ [x] else l.
Lemma there_step a p d l q ap x : In a places -> there a p d l -> there a p (write x q ap d) (step p l (q, ap, x)).
Proof.
  intros Ha H. unfold step. unfold there. rewrite (write_at x q ap d p a Ha), (String.eqb_sym q p). destruct (String.eqb p q); [|exact H].
  assert (O : old d (file p (fst a) (snd a)) = map (ser a) l) by (unfold old; destruct l; cbn in H; rewrite H; reflexivity).
  destruct ap; [|reflexivity]. rewrite O. destruct l; cbn [app map]; [reflexivity|]. rewrite map_app. reflexivity.
Qed.
Lemma there_written a p ops : In a places -> forall d l, there a p d l -> there a p (written ops d) (fold_left (step p) ops l).
Proof.
  intros Ha. induction ops as [|[[q ap] x] ops IH]; intros d l H; [exact H|]. cbn [written fold_left]. apply IH, there_step; assumption.
Qed.
Lemma clean_there a p ops d : In a places -> clean ops d p -> there a p (written ops d) (stored ops p).
Proof.
  intros Ha [[x Hx]|H].
  - apply in_split in Hx. destruct Hx as (o1 & o2 & ->). unfold stored. fold (step p). rewrite fold_left_app. cbn [fold_left].
    assert (W : forall o d, written (o ++ (p, false, x) :: o2) d = written o2 (write x p false (written o d))) by (induction o as [|[[q ap] y] o IH]; intros; [reflexivity|]; cbn; apply IH).
    rewrite W. apply there_written; [exact Ha|]. unfold step at 1. rewrite String.eqb_refl. unfold there. cbn [app]. rewrite write_at, String.eqb_refl by exact Ha. reflexivity.
  - apply there_written; [exact Ha|]. apply H.
Qed.
Lemma records_ok a ps ops d : In a places -> (forall p, In p ps -> clean ops d p /\ stored ops p <> []) ->
  all_records ps (fst a) (snd a) (written ops d) = Some (map (ser a) (flat_map (stored ops) ps)).
Proof.
  intros Ha. induction ps as [|p ps IH]; intros H; [reflexivity|]. cbn [all_records flat_map]. rewrite IH by (intros q Hq; apply H; right; exact Hq).
  destruct (H p (or_introl eq_refl)) as [C N]. pose proof (clean_there a p ops d Ha C) as T. unfold there in T. destruct (stored ops p) as [|x l] eqn:E; [congruence|].
  rewrite T, map_app. reflexivity.
Qed.

(** ** Words *)

Definition words (w : width) (l : list Z) : list Z := match w with W64 => l | W128 => flat_map limbs l end.
Lemma words_length w l : List.length (words w l) = ((match w with W64 => 1 | W128 => 2 end) * List.length l)%nat.
Proof. destruct w; cbn [words]; [lia|]. induction l; cbn [flat_map limbs app List.length]; lia. Qed.
Lemma entries_words w l : Forall (in_s (bits w)) l -> entries w (words w l) = l.
Proof.
  destruct w; [reflexivity|]. cbn [entries words bits]. intros H. induction H as [|v l Hv H IH]; [reflexivity|]. cbn [flat_map limbs app unlimb]. f_equal; [|exact IH].
  assert (E : swrap 64 v mod 2 ^ 64 = v mod 2 ^ 64).
  { unfold swrap. replace ((v + 2 ^ (64 - 1)) mod 2 ^ 64 - 2 ^ (64 - 1)) with (v + ((v + 2 ^ (64 - 1)) / 2 ^ 64 * -1) * 2 ^ 64); [apply Z.mod_add; discriminate|].
    pose proof (Z.div_mod (v + 2 ^ (64 - 1)) (2 ^ 64) ltac:(discriminate)). lia. }
  rewrite E. pose proof (Z.div_mod v (2 ^ 64) ltac:(discriminate)). lia.
Qed.

(** ** Batches *)

Definition wdims (w : width) (d : list nat) : list nat := match w with W64 => d | W128 => d ++ [2%nat] end.
Lemma volume_app d e : volume (d ++ e) = (volume d * volume e)%nat.
Proof.
  induction d as [|a d IH]; [cbn [app]; change (volume []) with 1%nat; lia|]. cbn [app]. change (volume (a :: d ++ e)) with (a * volume (d ++ e))%nat.
  change (volume (a :: d)) with (a * volume d)%nat. rewrite IH. lia.
Qed.
Lemma volume_wdims w d : volume (wdims w d) = ((match w with W64 => 1 | W128 => 2 end) * volume d)%nat.
Proof. destruct w; cbn [wdims]; [lia|]. rewrite volume_app. cbn. lia. Qed.
Definition sh (a : nat * nat) (x : tens) : list Z := share_at x (fst a) (snd a).

Section W.
Context (w : width) (dims : list nat).
Notation n := (bits w).
Lemma n_pos : 0 < n. Proof. destruct w; reflexivity. Qed.
Lemma ser_ok a x vs : holds n dims x vs -> ser a x = Rec Int64 (wdims w dims) (words w (sh a x)).
Proof. intros (D & _ & F & _). unfold ser, serialize, sh. rewrite D, F. destruct w; reflexivity. Qed.
Lemma sh_length a x vs : In a places -> holds n dims x vs -> List.length (sh a x) = volume dims.
Proof.
  intros Ha (_ & _ & _ & L & F & _). rewrite Forall_forall in F. unfold volume. rewrite <- L. apply F. cbn in Ha.
  repeat (destruct Ha as [<-|Ha]; [cbn; tauto|]); contradiction.
Qed.
Lemma arith_word x v a : In a places -> arith n x v -> in_s n (vz (match a with (0, 0) => p00 x | (0, _) => p01 x | (1, 0) => p10 x | (1, _) => p11 x | (_, 0) => p20 x | (_, _) => p21 x end)%nat).
Proof.
  intros Ha (_ & _ & _ & (R1 & R2 & R3) & W0 & W1 & W2 & _). unfold word in *. unfold in_s. cbn in Ha.
  repeat (destruct Ha as [<-|Ha]; [cbn; lia|]); contradiction.
Qed.
Lemma sh_range a x vs : In a places -> holds n dims x vs -> Forall (in_s n) (sh a x).
Proof.
  intros Ha H. pose proof (sh_length a x vs Ha H) as SL. destruct H as (_ & _ & _ & L & _ & A). apply Forall_forall. intros z Hz.
  destruct (In_nth _ _ 0 Hz) as (e & He & <-). rewrite SL in He. fold (volume dims) in L. rewrite <- L in He. pose proof (arith_word _ _ a Ha (A e He)) as W. clear - W Ha. cbn in Ha.
  repeat (destruct Ha as [<-|Ha]; [exact W|]); contradiction.
Qed.
Lemma part_Forall2 {A B} (R : A -> B -> Prop) q b l l' : Forall2 R l l' -> Forall2 R (part q b l) (part q b l').
Proof.
  intros H. unfold part.
  assert (S : forall k l l', Forall2 R l l' -> Forall2 R (skipn k l) (skipn k l')) by (induction k; intros m m' Hm; [exact Hm|]; destruct Hm; cbn; [constructor|auto]).
  assert (F : forall k l l', Forall2 R l l' -> Forall2 R (firstn k l) (firstn k l')) by (induction k; intros m m' Hm; [constructor|]; destruct Hm; cbn; constructor; auto).
  apply F, S, H.
Qed.
Lemma part_map {A B} (f : A -> B) q b l : part q b (map f l) = map f (part q b l).
Proof. unfold part. rewrite skipn_map, firstn_map. reflexivity. Qed.

Lemma datas a pl pv : In a places -> Forall2 (holds n dims) pl pv ->
  flat_map rdata (map (ser a) pl) = words w (flat_map (sh a) pl) /\ List.length (flat_map (sh a) pl) = (List.length pl * volume dims)%nat /\
  Forall (fun r => rtype r = Int64 /\ rdims r = wdims w dims) (map (ser a) pl) /\ Forall (in_s n) (flat_map (sh a) pl).
Proof.
  intros Ha H. induction H as [|x vs pl pv Hx H (I1 & I2 & I3 & I4)]; [repeat split; try constructor; destruct w; reflexivity|].
  cbn [map flat_map List.length]. rewrite (ser_ok a x vs Hx), I1. cbn [rdata]. repeat split.
  - destruct w; cbn [words]; [reflexivity|]. symmetry. apply flat_map_app.
  - rewrite app_length, I2, (sh_length a x vs Ha Hx). lia.
  - constructor; [split; reflexivity|exact I3].
  - apply Forall_app. split; [exact (sh_range a x vs Ha Hx)|exact I4].
Qed.
Lemma batch_ok q odims b all vss a : In a places -> Forall2 (holds n dims) all vss ->
  batch_at q (wdims w odims) (map (ser a) all) b =
  if Nat.eqb (List.length (part q b all) * volume dims) (volume odims) then Ok (words w (flat_map (sh a) (part q b all))) else Err InvalidArgument.
Proof.
  intros Ha H. pose proof (part_Forall2 _ q b _ _ H) as P. destruct (datas a _ _ Ha P) as (D1 & D2 & D3 & D4).
  unfold batch_at. cbv zeta. fold (part q b (map (ser a) all)). rewrite part_map, D1, words_length, volume_wdims, D2.
  set (rs := map (ser a) (part q b all)) in *.
  assert (F1 : forallb (fun r => match rtype r with Int64 => true | Boolean => false end) rs = true).
  { apply forallb_forall. intros r Hr. rewrite Forall_forall in D3. destruct (D3 r Hr) as [-> _]. reflexivity. }
  assert (F2 : forallb (fun r => same_shape (rdims r) (match rs with r0 :: _ => rdims r0 | [] => [] end)) rs = true).
  { apply forallb_forall. intros r Hr. rewrite Forall_forall in D3. destruct (D3 r Hr) as [_ E]. rewrite E. unfold same_shape.
    destruct rs as [|r0 rs']; [contradiction|]. destruct (D3 r0 (or_introl eq_refl)) as [_ ->]. destruct (list_eq_dec Nat.eq_dec (wdims w dims) (wdims w dims)); congruence. }
  rewrite F1, F2. cbn [andb]. destruct (Nat.eqb_spec (List.length (part q b all) * volume dims) (volume odims)) as [E|E].
  - rewrite E, Nat.eqb_refl. reflexivity.
  - destruct (Nat.eqb_spec ((match w with W64 => 1 | W128 => 2 end) * (List.length (part q b all) * volume dims)) ((match w with W64 => 1 | W128 => 2 end) * volume odims)) as [E2|E2]; [|reflexivity].
    exfalso. apply E. destruct w; lia.
Qed.

(** The rows put together. *)
Definition joined (odims : list nat) (pl : list tens) : tens :=
  Tens odims true Arith (FI n) (flat_map t00 pl) (flat_map t01 pl) (flat_map t10 pl) (flat_map t11 pl) (flat_map t20 pl) (flat_map t21 pl).
Lemma locate pl pv e : Forall2 (holds n dims) pl pv -> (e < List.length (concat pv))%nat -> exists x vs e', holds n dims x vs /\ (e' < List.length vs)%nat /\
  nth e (concat pv) 0 = nth e' vs 0 /\ forall a, In a places -> nth e (flat_map (sh a) pl) 0 = nth e' (sh a x) 0.
Proof.
  intros H. revert e. induction H as [|x vs pl pv Hx H IH]; intros e He; [cbn in He; lia|]. cbn [concat flat_map] in *. rewrite app_length in He.
  assert (LV : List.length vs = volume dims) by apply Hx.
  destruct (Nat.lt_ge_cases e (List.length vs)) as [C|C].
  - exists x, vs, e. split; [exact Hx|split; [exact C|]]. split; [apply app_nth1, C|]. intros a Ha. apply app_nth1. rewrite (sh_length a x vs Ha Hx). lia.
  - destruct (IH (e - List.length vs)%nat ltac:(lia)) as (y & us & e' & A1 & A2 & A3 & A4). exists y, us, e'. split; [exact A1|split; [exact A2|]].
    split; [rewrite app_nth2 by lia; exact A3|]. intros a Ha. rewrite app_nth2 by (rewrite (sh_length a x vs Ha Hx); lia). rewrite (sh_length a x vs Ha Hx), <- LV. apply A4, Ha.
Qed.
Lemma concat_length pl pv : Forall2 (holds n dims) pl pv -> List.length (concat pv) = (List.length pl * volume dims)%nat.
Proof. intros H. induction H as [|x vs pl pv Hx H IH]; [reflexivity|]. cbn [concat List.length]. rewrite app_length, IH. assert (List.length vs = volume dims) by apply Hx. lia. Qed.
Lemma joined_holds odims pl pv : Forall2 (holds n dims) pl pv -> (List.length pl * volume dims = volume odims)%nat -> holds n odims (joined odims pl) (concat pv).
Proof.
  intros H E. pose proof (concat_length pl pv H) as CL. unfold holds. cbn [joined tdims tsc tfc t00 t01 t10 t11 t20 t21]. fold (volume odims).
  split; [reflexivity|split; [reflexivity|split; [reflexivity|split; [lia|split]]]].
  - assert (L : forall a, In a places -> List.length (flat_map (sh a) pl) = List.length (concat pv)) by (intros a Ha; rewrite CL; apply (datas a pl pv Ha H)).
    repeat constructor; [apply (L (0, 0)%nat)|apply (L (0, 1)%nat)|apply (L (1, 0)%nat)|apply (L (1, 1)%nat)|apply (L (2, 0)%nat)|apply (L (2, 1)%nat)]; cbn; tauto.
  - intros e He. destruct (locate pl pv e H He) as (x & vs & e' & Hx & He' & E1 & E2). rewrite E1.
    assert (A : arith n (entry x e') (nth e' vs 0)) by (apply Hx; exact He').
    assert (T : tty x = Arith) by apply A. assert (F : tfc x = FI n) by apply A. assert (S : tsc x = true) by apply Hx.
    replace (entry (joined odims pl) e) with (entry x e'); [exact A|]. unfold entry. cbn [joined tsc tty tfc t00 t01 t10 t11 t20 t21].
    assert (Q1 : nth e (flat_map t00 pl) 0 = nth e' (t00 x) 0) by exact (E2 (0, 0)%nat ltac:(cbn; tauto)).
    assert (Q2 : nth e (flat_map t01 pl) 0 = nth e' (t01 x) 0) by exact (E2 (0, 1)%nat ltac:(cbn; tauto)).
    assert (Q3 : nth e (flat_map t10 pl) 0 = nth e' (t10 x) 0) by exact (E2 (1, 0)%nat ltac:(cbn; tauto)).
    assert (Q4 : nth e (flat_map t11 pl) 0 = nth e' (t11 x) 0) by exact (E2 (1, 1)%nat ltac:(cbn; tauto)).
    assert (Q5 : nth e (flat_map t20 pl) 0 = nth e' (t20 x) 0) by exact (E2 (2, 0)%nat ltac:(cbn; tauto)).
    assert (Q6 : nth e (flat_map t21 pl) 0 = nth e' (t21 x) 0) by exact (E2 (2, 1)%nat ltac:(cbn; tauto)).
    rewrite Q1, Q2, Q3, Q4, Q5, Q6, T, F, S. reflexivity.
Qed.

(** ** The generator *)

Definition at_pos (q : nat) (odims : list nat) (recs : nat -> nat -> option (list rec)) (t : option nat) : gen := Gen w q (wdims w odims) recs t.
Lemma out_wdims odims : out_dims w (wdims w odims) = odims.
Proof. destruct w; cbn; [reflexivity|]. apply removelast_last. Qed.
Lemma next_ok q odims recs all vss t : all <> [] -> Forall2 (holds n dims) all vss -> (forall a, In a places -> recs (fst a) (snd a) = Some (map (ser a) all)) ->
  let pl := part q (t mod nbatches q (List.length all)) all in
  next (at_pos q odims recs (Some t)) =
  if Nat.eqb (List.length pl * volume dims) (volume odims) then (at_pos q odims recs (Some (S t)), Ok (joined odims pl)) else (at_pos q odims recs None, Err InvalidArgument).
Proof.
  intros N H R pl. assert (S : forall a, In a places -> stream q (wdims w odims) (recs (fst a) (snd a)) t =
    if Nat.eqb (List.length pl * volume dims) (volume odims) then Ok (words w (flat_map (sh a) pl)) else Err InvalidArgument).
  { intros a Ha. rewrite (R a Ha). unfold stream. rewrite map_length. destruct (Nat.eqb_spec (List.length all) 0) as [Z|Z]; [destruct all; [congruence|discriminate Z]|].
    apply (batch_ok q odims _ all vss a Ha H). }
  unfold next, at_pos. cbn [gpos gq gout grecs gw]. cbv zeta.
  pose proof (S (0, 0)%nat ltac:(cbn; tauto)) as Q1. pose proof (S (0, 1)%nat ltac:(cbn; tauto)) as Q2. pose proof (S (1, 0)%nat ltac:(cbn; tauto)) as Q3.
  pose proof (S (1, 1)%nat ltac:(cbn; tauto)) as Q4. pose proof (S (2, 0)%nat ltac:(cbn; tauto)) as Q5. pose proof (S (2, 1)%nat ltac:(cbn; tauto)) as Q6.
  cbn [fst snd] in *. rewrite Q1, Q2, Q3, Q4, Q5, Q6. destruct (Nat.eqb _ _); [|reflexivity]. rewrite out_wdims.
  assert (EN : forall a, In a places -> entries w (words w (flat_map (sh a) pl)) = flat_map (sh a) pl) by (intros a Ha; apply entries_words, (datas a pl (part q (t mod nbatches q (List.length all)) vss) Ha), part_Forall2, H).
  rewrite (EN (0, 0)%nat ltac:(cbn; tauto)), (EN (0, 1)%nat ltac:(cbn; tauto)), (EN (1, 0)%nat ltac:(cbn; tauto)), (EN (1, 1)%nat ltac:(cbn; tauto)), (EN (2, 0)%nat ltac:(cbn; tauto)), (EN (2, 1)%nat ltac:(cbn; tauto)). reflexivity.
Qed.
End W.

Lemma calls_at (g : nat -> gen) k t i : (i < k)%nat -> (forall s, (t <= s < t + i)%nat -> fst (next (g s)) = g (S s)) ->
  nth_error (calls k (g t)) i = Some (snd (next (g (t + i)%nat))).
Proof.
  revert t i. induction k as [|k IH]; intros t i Hi H; [lia|]. cbn [calls]. destruct (next (g t)) as [g' r] eqn:E. destruct i as [|i].
  - rewrite Nat.add_0_r, E. reflexivity.
  - cbn [nth_error]. assert (G : g' = g (S t)) by (rewrite <- (H t) by lia; rewrite E; reflexivity). rewrite G, (IH (S t) i) by (try lia; intros s Hs; apply H; lia).
    do 4 f_equal. lia.
Qed.
Lemma calls_ended g k i : (i < k)%nat -> gpos g = None -> nth_error (calls k g) i = Some (Err StopIteration).
Proof.
  intros Hi P. revert i Hi. induction k as [|k IH]; intros i Hi; [lia|]. cbn [calls]. unfold next. rewrite P. destruct i; [reflexivity|]. apply IH. lia.
Qed.
Lemma calls_after (g : nat -> gen) k t i : (i < k)%nat -> (forall s, (s < t)%nat -> fst (next (g s)) = g (S s)) -> gpos (fst (next (g t))) = None -> (t < i)%nat ->
  nth_error (calls k (g 0%nat)) i = Some (Err StopIteration).
Proof.
  intros Hi H P L. assert (A : forall k s i, (s <= t)%nat -> (t - s < i)%nat -> (i < k)%nat -> nth_error (calls k (g s)) i = Some (Err StopIteration)).
  { clear k i Hi L. induction k as [|k IH]; intros s i Hs L Hi; [lia|]. cbn [calls]. destruct (next (g s)) as [g' r] eqn:E. destruct i as [|i]; [lia|]. cbn [nth_error].
    destruct (Nat.eq_dec s t) as [->|N]; [rewrite E in P; apply calls_ended; [lia|exact P]|].
    assert (G : g' = g (S s)) by (rewrite <- (H s) by lia; rewrite E; reflexivity). rewrite G. apply IH; lia. }
  apply A; lia.
Qed.

Lemma nbatches_mult q c : (0 < q)%nat -> nbatches q (c * q) = c.
Proof. intros H. unfold nbatches. replace (c * q + q - 1)%nat with (q - 1 + c * q)%nat by lia. rewrite Nat.div_add by lia. rewrite Nat.div_small by lia. lia. Qed.
Lemma nbatches_rest q m : (0 < q)%nat -> (m mod q <> 0)%nat -> nbatches q m = S (m / q).
Proof.
  intros H N. unfold nbatches. pose proof (Nat.div_mod m q ltac:(lia)) as E. pose proof (Nat.mod_upper_bound m q ltac:(lia)).
  replace (m + q - 1)%nat with (m mod q - 1 + (S (m / q)) * q)%nat by (set (c := (m / q)%nat) in *; set (r := (m mod q)%nat) in *; nia).
  rewrite Nat.div_add by lia. rewrite Nat.div_small by lia. lia.
Qed.
Lemma part_length {A} q b (l : list A) : List.length (part q b l) = Nat.min q (List.length l - b * q).
Proof. unfold part. rewrite firstn_length, skipn_length. reflexivity. Qed.

Lemma read_ok w ps fb o rest d : (fb <> 0)%nat -> (0 < o / fb)%nat ->
  read w ps fb (o :: rest) d = (wdims w (o :: rest), Ok (at_pos w (o / fb) (o :: rest) (fun i j => all_records ps i j d) (Some 0%nat))).
Proof.
  intros Hf Hq. unfold read, at_pos. assert (E : match w with W64 => o :: rest | W128 => (o :: rest) ++ [2%nat] end = wdims w (o :: rest)) by (destruct w; reflexivity).
  cbv zeta. rewrite E. destruct (wdims w (o :: rest)) as [|o' r'] eqn:F; [destruct w; discriminate F|]. assert (o' = o) by (destruct w; injection F; auto). subst o'.
  destruct (Nat.eqb_spec fb 0); [lia|]. destruct (Nat.eqb_spec (o / fb) 0); [lia|]. reflexivity.
Qed.
