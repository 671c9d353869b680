(** Proofs about training, prediction and evaluation loops. *)
From Coq Require Import List Arith Bool Lia.
From Verif Require Import FitModel FitSpec.
Import ListNotations.

(** Number of batches. *)
Definition count (n b : nat) : nat := (n + b - 1) / b.
Lemma count_0 b : 0 < b -> count 0 b = 0.
Proof. intros B. unfold count. apply Nat.div_small. lia. Qed.
Lemma count_step n b : 0 < b -> 0 < n -> count n b = S (count (n - b) b).
Proof.
  intros B N. unfold count. destruct (le_lt_dec b n) as [H|H].
  - replace (n + b - 1) with (n - b + b - 1 + 1 * b) by lia. rewrite Nat.div_add by lia. lia.
  - replace (n - b) with 0 by lia. replace ((0 + b - 1) / b) with 0 by (symmetry; apply Nat.div_small; lia).
    symmetry. apply (Nat.div_unique (n + b - 1) b 1 (n - 1)); lia.
Qed.
Lemma count_bound n b : 0 < b -> n <= count n b * b < n + b.
Proof.
  intros B. unfold count. pose proof (Nat.div_mod (n + b - 1) b ltac:(lia)) as E. pose proof (Nat.mod_upper_bound (n + b - 1) b ltac:(lia)). nia.
Qed.
Lemma count_pos n b : 0 < b -> 0 < n -> 0 < count n b.
Proof. intros B N. rewrite count_step by easy. lia. Qed.

Lemma iter_spec {X} fuel bound b (cut : nat -> option nat -> X) start : 0 < b -> bound < start + fuel ->
  iter_over_data fuel bound (Some b) cut start =
  (map (fun i => cut (start + i * b) (Some (start + i * b + b))) (seq 0 (count (bound - start) b)), Stop).
Proof.
  intros B. revert start. induction fuel as [|fuel IH]; intros start F; cbn [iter_over_data].
  - replace (bound - start) with 0 by lia. now rewrite count_0.
  - destruct (Nat.ltb_spec start bound) as [L|L].
    + rewrite IH by lia. cbn [fst snd]. rewrite (count_step (bound - start)) by lia. cbn [seq map].
      rewrite Nat.mul_0_l, Nat.add_0_r. f_equal. f_equal. rewrite <- seq_shift, map_map.
      replace (bound - (start + b)) with (bound - start - b) by lia. apply map_ext. intros i. f_equal; [lia|f_equal; lia].
    + replace (bound - start) with 0 by lia. now rewrite count_0.
Qed.
Lemma slice_chunk {X} (t : tensor X) i b : slice t i (Some (i + b)) = firstn b (skipn i (rows t)).
Proof. unfold slice. now replace (i + b - i) with b by lia. Qed.
Definition chunk {X} (b : nat) (l : list X) (i : nat) : list X := firstn b (skipn (i * b) l).
Lemma firstn_plus {X} (l : list X) a b : firstn (a + b) l = firstn a l ++ firstn b (skipn a l).
Proof. revert l. induction a as [|a IH]; intros [|x l]; cbn; try easy. - now rewrite firstn_nil. - now rewrite IH. Qed.
Lemma concat_chunks {X} b (l : list X) k : concat (map (chunk b l) (seq 0 k)) = firstn (k * b) l.
Proof.
  induction k as [|k IH]; [reflexivity|]. rewrite seq_S, map_app, concat_app, IH. cbn [map concat]. rewrite app_nil_r.
  unfold chunk. replace (S k * b) with (k * b + b) by lia. now rewrite firstn_plus.
Qed.
Lemma chunks_consecutive {X} b (l : list X) : 0 < b -> consecutive b l (map (chunk b l) (seq 0 (count (length l) b))).
Proof.
  intros B. pose proof (count_bound (length l) b B) as C. split.
  - rewrite concat_chunks. apply firstn_all2. lia.
  - intros i c E. assert (I : i < count (length l) b).
    { rewrite <- (seq_length (count (length l) b) 0), <- (map_length (chunk b l)). apply nth_error_Some. congruence. }
    rewrite map_length, seq_length. rewrite nth_error_map, (nth_error_nth' _ 0) in E by now rewrite seq_length.
    rewrite seq_nth in E by easy. cbn in E. inversion E. unfold chunk. rewrite firstn_length, skipn_length. nia.
Qed.
Lemma chunk_len {X} b (l : list X) i : length (chunk b l i) = min b (length l - i * b).
Proof. unfold chunk. now rewrite firstn_length, skipn_length. Qed.

Section FIT.
Context {A B : Type}.
(** ** Batches *)
Lemma wrap_private (x : tensor A) (y : tensor B) w b : 0 < b -> rows x <> [] -> dim1 x = Some w ->
  data_wrap (FromPrivate x y) (Some b) = (map (fun i => (One (chunk b (rows x) i), chunk b (rows y) i)) (seq 0 (count w b)), Stop).
Proof.
  intros P N D. unfold data_wrap. destruct (rows x) as [|a l] eqn:E; [easy|]. rewrite D, iter_spec by lia. rewrite Nat.sub_0_r. f_equal.
  apply map_ext. intros i. cbn [Nat.add]. rewrite !slice_chunk. unfold chunk. now rewrite E.
Qed.
Lemma wrap_list (x : tensor A) xs (y : tensor B) b : 0 < b ->
  data_wrap (FromList (x :: xs) y) (Some b) =
  (map (fun i => (Many (map (fun x => chunk b (rows x) i) (x :: xs)), chunk b (rows y) i)) (seq 0 (count (length (rows x)) b)), Stop).
Proof.
  intros P. unfold data_wrap. rewrite iter_spec by lia. rewrite Nat.sub_0_r. f_equal. apply map_ext. intros i. cbn [Nat.add]. rewrite slice_chunk. f_equal.
  f_equal. apply map_ext. intros z. now rewrite slice_chunk.
Qed.
Lemma xwrap_private (x : tensor A) b : 0 < b ->
  xdata_wrap (XPrivate x) (Some b) = (map (fun i => One (chunk b (rows x) i)) (seq 0 (count (length (rows x)) b)), Stop).
Proof.
  intros P. unfold xdata_wrap. rewrite iter_spec by lia. rewrite Nat.sub_0_r. f_equal. apply map_ext. intros i. cbn [Nat.add]. now rewrite slice_chunk.
Qed.
Lemma xwrap_list (x : tensor A) xs b : 0 < b ->
  xdata_wrap (XList (x :: xs)) (Some b) =
  (map (fun i => Many (map (fun x => chunk b (rows x) i) (x :: xs))) (seq 0 (count (length (rows x)) b)), Stop).
Proof.
  intros P. unfold xdata_wrap. rewrite iter_spec by lia. rewrite Nat.sub_0_r. f_equal. apply map_ext. intros i. cbn [Nat.add].
  f_equal. apply map_ext. intros z. now rewrite slice_chunk.
Qed.

(** ** Epochs *)
Context {W : Type} (f : W -> xbatch A * list B -> W).
Let step w b := Ok (f w b).
Lemma epoch_none l w i : epoch step None i l Stop w = Ok (fold_left f l w, ([], Stop)).
Proof. revert w i. induction l as [|b l IH]; intros w i; [reflexivity|]. cbn. apply IH. Qed.
Lemma epoch_some k l w i : S i <= k -> epoch step (Some k) i l Stop w = Ok (fold_left f (firstn (k - i) l) w, (skipn (k - i) l, Stop)).
Proof.
  revert w i. induction l as [|b l IH]; intros w i H; cbn [epoch].
  - now rewrite firstn_nil, skipn_nil.
  - unfold step at 1. unfold enough. replace (k - i) with (S (k - S i)) by lia. cbn [firstn skipn fold_left]. destruct (Nat.leb_spec k (i + 1)).
    + replace (k - S i) with 0 by lia. reflexivity.
    + apply IH. lia.
Qed.
Lemma epoch_zero l w : epoch step (Some 0) 0 l Stop w = Ok (fold_left f (firstn 1 l) w, (skipn 1 l, Stop)).
Proof. destruct l; reflexivity. Qed.
Lemma skipn_plus {X} a b (l : list X) : skipn a (skipn b l) = skipn (b + a) l.
Proof. revert l. induction b as [|b IH]; intros [|x l]; cbn; try easy. now rewrite skipn_nil. Qed.
(** What an epoch count and a step count take from the generator. *)
Definition taken {X} (epochs : nat) (steps : option nat) (l : list X) : list X :=
  match steps with
  | None => if epochs =? 0 then [] else l
  | Some k => firstn (epochs * max 1 k) l
  end.
Lemma epochs_taken epochs steps l w : epochs_loop step epochs steps (l, Stop) w = Ok (fold_left f (taken epochs steps l) w).
Proof.
  destruct steps as [k|]; cbn [taken].
  - revert l w. induction epochs as [|n IH]; intros l w; [reflexivity|]. cbn [epochs_loop fst snd].
    assert (E : epoch step (Some k) 0 l Stop w = Ok (fold_left f (firstn (max 1 k) l) w, (skipn (max 1 k) l, Stop))).
    { destruct k; [apply epoch_zero|]. rewrite epoch_some by lia. now rewrite Nat.sub_0_r. }
    rewrite E, IH. f_equal. rewrite <- fold_left_app. f_equal. replace (S n * max 1 k) with (max 1 k + n * max 1 k) by lia. now rewrite firstn_plus.
  - destruct epochs as [|n]; [reflexivity|]. cbn [epochs_loop fst snd Nat.eqb]. rewrite epoch_none.
    generalize (fold_left f l w). clear. intros w. induction n as [|n IH]; [reflexivity|apply IH].
Qed.
End FIT.
Lemma fold_record {A B} (l seen : list (xbatch A * list B)) : fold_left (fun s b => s ++ [b]) l seen = seen ++ l.
Proof. revert seen. induction l as [|b l IH]; intros seen; cbn; [now rewrite app_nil_r|]. rewrite IH, <- app_assoc. reflexivity. Qed.
Lemma fit_record {A B} (s : source A B) bs epochs steps l : data_wrap s bs = (l, Stop) -> fit record s bs epochs steps [] = Ok (taken epochs steps l).
Proof.
  intros E. unfold fit. rewrite E. etransitivity; [exact (epochs_taken (fun s b => s ++ [b]) epochs steps l [])|]. now rewrite fold_record.
Qed.
