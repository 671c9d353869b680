(** Theorems on training, prediction and evaluation loops. *)
From Coq Require Import List Arith Bool Lia.
From Verif Require Import FitModel FitSpec FitProofs.
Import ListNotations.

(** ** C64: batches *)

(** The batches of predict are consecutive and cover the data. *)
Theorem C64_predict_batches {A} (x : tensor A) b : 0 < b ->
  exists cs, xdata_wrap (XPrivate x) (Some b) = (map One cs, Stop) /\ consecutive b (rows x) cs.
Proof.
  intros B. exists (map (chunk b (rows x)) (seq 0 (count (length (rows x)) b))). split; [|now apply chunks_consecutive].
  rewrite xwrap_private by easy. now rewrite map_map.
Qed.
Print Assumptions C64_predict_batches.

(** Models with several inputs get matching batches of every input. *)
Theorem C64_predict_batches_list {A} (xs : list (tensor A)) n b : 0 < b -> xs <> [] -> Forall (fun x => length (rows x) = n) xs ->
  exists ms, xdata_wrap (XList xs) (Some b) = (map Many ms, Stop) /\ Forall (fun m => length m = length xs) ms /\
  forall j x, nth_error xs j = Some x -> consecutive b (rows x) (map (fun m => nth j m []) ms).
Proof.
  intros B N F. destruct xs as [|x xs]; [easy|]. clear N. assert (L : length (rows x) = n) by now inversion F.
  exists (map (fun i => map (fun x => chunk b (rows x) i) (x :: xs)) (seq 0 (count n b))). split; [|split].
  - rewrite xwrap_list, L by easy. now rewrite map_map.
  - apply Forall_forall. intros m M. apply in_map_iff in M. destruct M as [i [<- _]]. now rewrite map_length.
  - intros j z Z. rewrite map_map. assert (R : length (rows z) = n) by (rewrite Forall_forall in F; eapply F, nth_error_In, Z).
    erewrite map_ext; [rewrite <- R; now apply chunks_consecutive|].
    intros i. cbn beta. apply nth_error_nth. now rewrite nth_error_map, Z.
Qed.
Print Assumptions C64_predict_batches_list.

Lemma collect_singles {O} r (l : list (list O)) : l <> [] -> collect r r (map Single l) = Ok (Single (concat l)).
Proof.
  intros N. assert (K : forallb (fun y : out O => match y with Single _ => true | _ => false end) (map Single l) = true) by (clear N; now induction l).
  assert (M : map (fun y : out O => match y with Single l => l | Multi _ => [] end) (map Single l) = l) by (rewrite map_map; apply map_id).
  destruct l as [|a l]; [easy|]. unfold collect. change (map Single (a :: l)) with (Single a :: map Single l) in *. cbv iota. now rewrite eqb_reflx, K, M.
Qed.
(** predict on a model that treats samples one by one is the model on all the data, for every batch size. *)
Theorem C64_predict {A O} (call : xbatch A -> out O) (g : A -> O) (x : tensor A) b cached reveal : 0 < b -> rows x <> [] ->
  (forall l, call (One l) = Single (map g l)) -> cached = None \/ cached = Some reveal ->
  exists opened, snd (predict call cached (XPrivate x) (Some b) reveal) = Ok (MkAns (Single (map g (rows x))) reveal opened).
Proof.
  intros B N G C. unfold predict. rewrite xwrap_private by easy. cbn [fst snd].
  assert (M : (match cached with Some r => r | None => reveal end) = reveal) by (destruct C; subst; reflexivity). rewrite M. clear M C cached.
  rewrite map_map. erewrite map_ext; [|intros i; apply G].
  assert (E : collect reveal reveal (map (fun i => Single (map g (chunk b (rows x) i))) (seq 0 (count (length (rows x)) b))) = Ok (Single (map g (rows x)))).
  { pose proof (count_pos (length (rows x)) b B ltac:(destruct (rows x); cbn; [easy|lia])) as P.
    rewrite <- (map_map (fun i => map g (chunk b (rows x) i)) Single), collect_singles.
    - rewrite <- (map_map (chunk b (rows x)) (map g)), <- concat_map. now rewrite (proj1 (chunks_consecutive b (rows x) B)).
    - destruct (count (length (rows x)) b); [lia|discriminate]. }
  rewrite E. eexists. reflexivity.
Qed.
Print Assumptions C64_predict.

(** The same with several outputs. *)
Theorem C64_predict_outputs {A O} (call : xbatch A -> out O) (gs : list (A -> O)) (x : tensor A) b cached reveal : 0 < b -> rows x <> [] ->
  (forall l, call (One l) = Multi (map (fun g => map g l) gs)) -> cached = None \/ cached = Some reveal ->
  exists opened, snd (predict call cached (XPrivate x) (Some b) reveal) = Ok (MkAns (Multi (map (fun g => map g (rows x)) gs)) reveal opened).
Proof.
  intros B N G C. unfold predict. rewrite xwrap_private by easy. cbn [fst snd].
  assert (M : (match cached with Some r => r | None => reveal end) = reveal) by (destruct C; subst; reflexivity). rewrite M. clear M C cached.
  rewrite map_map. erewrite map_ext; [|intros i; apply G].
  pose proof (count_pos (length (rows x)) b B ltac:(destruct (rows x); cbn; [easy|lia])) as P.
  pose proof (proj1 (chunks_consecutive b (rows x) B)) as H. set (k := count (length (rows x)) b) in *.
  set (ys := map (fun i => Multi (map (fun g => map g (chunk b (rows x) i)) gs)) (seq 0 k)).
  assert (E : collect reveal reveal ys = Ok (Multi (map (fun g => map g (rows x)) gs))).
  { assert (K : forallb (fun y : out O => match y with Multi l => length gs <=? length l | _ => false end) ys = true).
    { apply forallb_forall. intros y Y. apply in_map_iff in Y. destruct Y as [i [<- _]]. rewrite map_length. apply Nat.leb_refl. }
    assert (J : map (fun j => concat (map (fun y : out O => match y with Multi l => nth j l [] | Single _ => [] end) ys)) (seq 0 (length gs)) = map (fun g => map g (rows x)) gs).
    { apply nth_ext with (d := []) (d' := []); rewrite !map_length, seq_length; [easy|]. intros j J.
      rewrite nth_indep with (d' := concat (map (fun y : out O => match y with Multi l => nth j l [] | Single _ => [] end) ys)) by now rewrite map_length, seq_length.
      rewrite (map_nth (fun j => concat (map (fun y : out O => match y with Multi l => nth j l [] | Single _ => [] end) ys))) with (d := j).
      rewrite seq_nth by easy. cbn [Nat.add]. unfold ys. rewrite map_map.
      destruct (nth_error gs j) as [g|] eqn:Q; [|apply nth_error_None in Q; lia].
      erewrite map_ext; [|intros i; apply nth_error_nth; rewrite nth_error_map, Q; reflexivity].
      erewrite (nth_error_nth (map _ gs)); [|rewrite nth_error_map, Q; reflexivity].
      rewrite <- (map_map (chunk b (rows x)) (map g)), <- concat_map. now rewrite H. }
    unfold collect. destruct k as [|k]; [lia|]. unfold ys in *. cbn [seq map] in *. rewrite map_length, K, eqb_reflx. cbn [orb]. now rewrite J. }
  rewrite E. eexists. reflexivity.
Qed.
Print Assumptions C64_predict_outputs.
(** With no samples predict raises IndexError instead of returning no predictions. *)
Theorem C64_predict_empty {A O} (call : xbatch A -> out O) (x : tensor A) bs cached reveal : rows x = [] ->
  snd (predict call cached (XPrivate x) bs reveal) = Err IndexError.
Proof. intros E. unfold predict, xdata_wrap. rewrite E. reflexivity. Qed.
Print Assumptions C64_predict_empty.

(** Training from a list of inputs: the first epoch sees every sample once, in order, with its label; later epochs see nothing. *)
Theorem C64_fit_list {A B} (x : tensor A) xs (y : tensor B) b epochs : 0 < b -> 0 < epochs -> length (rows y) = length (rows x) ->
  exists seen, fit record (FromList (x :: xs) y) (Some b) epochs None [] = Ok seen /\ samples seen = rows x /\ labels seen = rows y /\
  consecutive b (rows y) (map snd seen).
Proof.
  intros B' E L. eexists. split; [exact (fit_record _ _ epochs None _ (wrap_list x xs y b B'))|]. unfold taken. replace (epochs =? 0) with false by (symmetry; apply Nat.eqb_neq; lia).
  unfold samples, labels. rewrite !map_map. cbn [fst snd map hd].
  pose proof (chunks_consecutive b (rows x) B') as [CX _]. pose proof (chunks_consecutive b (rows y) B') as CY. rewrite L in CY.
  split; [exact CX|]. split; [apply CY|exact CY].
Qed.
Print Assumptions C64_fit_list.

(** Training from one private tensor of [w] features: exactly the first ceil(w/b) batches are used, whatever the number of samples and of epochs. *)
Theorem C64_fit_private {A B} (x : tensor A) (y : tensor B) w b epochs : 0 < b -> 0 < epochs -> rows x <> [] -> dim1 x = Some w ->
  exists k seen, w <= k * b < w + b /\ fit record (FromPrivate x y) (Some b) epochs None [] = Ok seen /\ length seen = k /\
  samples seen = firstn (k * b) (rows x) /\ labels seen = firstn (k * b) (rows y).
Proof.
  intros B' E N D. exists (count w b). eexists. split; [now apply count_bound|]. split; [exact (fit_record _ _ epochs None _ (wrap_private x y w b B' N D))|].
  unfold taken. replace (epochs =? 0) with false by (symmetry; apply Nat.eqb_neq; lia).
  unfold samples, labels. rewrite !map_map. cbn [fst snd]. rewrite map_length, seq_length, !concat_chunks. easy.
Qed.
Print Assumptions C64_fit_private.
(** So samples are missed when there are more of them than features, and empty batches are trained on when there are far fewer. *)
Theorem C64_fit_private_refuted {A B} (x : tensor A) (y : tensor B) w b epochs seen : 0 < b -> 0 < epochs -> rows x <> [] -> dim1 x = Some w ->
  fit record (FromPrivate x y) (Some b) epochs None [] = Ok seen ->
  (w + b <= length (rows x) -> samples seen <> rows x) /\ (length (rows x) + b <= w -> exists l, In (One [], l) seen).
Proof.
  intros B' E N D F. rewrite (fit_record _ _ epochs None _ (wrap_private x y w b B' N D)) in F. unfold taken in F.
  replace (epochs =? 0) with false in F by (symmetry; apply Nat.eqb_neq; lia). inversion F as [F']. clear F F'. pose proof (count_bound w b B') as C. split.
  - intros L X. apply (f_equal (@length A)) in X. unfold samples in X. rewrite map_map in X. cbn [fst] in X. rewrite concat_chunks, firstn_length in X. lia.
  - intros L. exists (chunk b (rows y) (count w b - 1)). apply in_map_iff. exists (count w b - 1). split.
    + assert (Z : chunk b (rows x) (count w b - 1) = []) by (apply length_zero_iff_nil; rewrite chunk_len; nia). now rewrite Z.
    + apply in_seq. nia.
Qed.
Print Assumptions C64_fit_private_refuted.
(** More epochs change nothing: the generator is used up after the first one. *)
Theorem C64_epochs_refuted {A B W} (f : W -> xbatch A * list B -> W) (s : source A B) bs l n w : data_wrap s bs = (l, Stop) ->
  fit (fun w b => Ok (f w b)) s bs (S n) None w = fit (fun w b => Ok (f w b)) s bs 1 None w.
Proof. intros E. unfold fit. rewrite E. now rewrite !(epochs_taken f). Qed.
Print Assumptions C64_epochs_refuted.
(** With steps_per_epoch the epochs go on where the last one stopped: in all, the first epochs * steps batches. *)
Theorem C64_steps {A B W} (f : W -> xbatch A * list B -> W) (s : source A B) bs l epochs k w : data_wrap s bs = (l, Stop) -> 0 < k ->
  fit (fun w b => Ok (f w b)) s bs epochs (Some k) w = Ok (fold_left f (firstn (epochs * k) l) w).
Proof. intros E K. unfold fit. rewrite E, (epochs_taken f). unfold taken. now replace (max 1 k) with k by lia. Qed.
Print Assumptions C64_steps.

(** ** C84: who decides whether predictions are opened *)
Theorem C84_history {A O} (call : xbatch A -> out O) s bs reveal calls : forall i c, nth_error calls i = Some c ->
  exists r, nth_error (predicts call None ((s, bs, reveal) :: calls)) (S i) = Some (if reveal then map call (fst (xdata_wrap (fst (fst c)) (snd (fst c)))) else [], r).
Proof.
  assert (H : forall calls i c, nth_error calls i = Some c ->
    exists r, nth_error (predicts call (Some reveal) calls) i = Some (if reveal then map call (fst (xdata_wrap (fst (fst c)) (snd (fst c)))) else [], r)).
  { clear. induction calls as [|[[s bs] r] calls IH]; intros [|i] c E; cbn in E; try discriminate.
    - inversion E. subst. cbn [predicts fst snd]. unfold predict. destruct (snd (xdata_wrap s bs)); eexists; reflexivity.
    - cbn [predicts]. unfold predict. destruct (snd (xdata_wrap s bs)); cbn [nth_error]; now apply IH. }
  intros i c E. destruct (H calls i c E) as [r R]. exists r. cbn [predicts]. unfold predict. destruct (snd (xdata_wrap s bs)); cbn [nth_error]; exact R.
Qed.
Print Assumptions C84_history.
(** After one prediction with reveal=True, every prediction with reveal=False opens all its outputs and then raises. *)
Theorem C84_hidden_refuted {A O} (call : xbatch A -> out O) s bs (x : tensor A) b : 0 < b -> rows x <> [] -> (forall l, exists o, call (One l) = Single o) ->
  exists outs, nth_error (predicts call None [(s, bs, true); (XPrivate x, Some b, false)]) 1 = Some (outs, Err ConcatError) /\
  outs = map call (fst (xdata_wrap (XPrivate x) (Some b))) /\ outs <> [].
Proof.
  intros B N C. rewrite xwrap_private by easy. cbn [fst].
  pose proof (count_pos (length (rows x)) b B ltac:(destruct (rows x); cbn; [easy|lia])) as P.
  eexists. split; [|split; [reflexivity|destruct (count (length (rows x)) b); [lia|discriminate]]].
  cbn [predicts]. unfold predict at 1.
  assert (H : predict call (Some true) (XPrivate x) (Some b) false = (Some true, map call (map (fun i => One (chunk b (rows x) i)) (seq 0 (count (length (rows x)) b))), Err ConcatError)).
  { unfold predict. rewrite xwrap_private by easy. cbn [fst snd]. destruct (count (length (rows x)) b) as [|n]; [lia|].
    cbn [seq map]. destruct (C (chunk b (rows x) 0)) as [o ->]. reflexivity. }
  destruct (snd (xdata_wrap s bs)); cbn [nth_error]; rewrite H; reflexivity.
Qed.
Print Assumptions C84_hidden_refuted.
(** As long as every call asks for reveal=False, nothing is opened. *)
Theorem C84_hidden {A O} (call : xbatch A -> out O) calls : Forall (fun c => snd c = false) calls -> Forall (fun a => fst a = []) (predicts call None calls).
Proof.
  assert (H : forall c calls, c = None \/ c = Some false -> Forall (fun c : _ * bool => snd c = false) calls -> Forall (fun a => fst a = []) (predicts call c calls)).
  { clear. intros c calls C F. revert c C. induction F as [|[[s bs] r] calls R F IH]; intros c C; cbn [predicts]; [constructor|]. cbn in R. subst r. unfold predict.
    assert (M : (match c with Some r => r | None => false end) = false) by (destruct C; subst; reflexivity). rewrite M.
    destruct (snd (xdata_wrap s bs)); (constructor; [reflexivity|apply IH; now right]). }
  apply H. now left.
Qed.
Print Assumptions C84_hidden.

(** ** C85: evaluate *)
Lemma evaluate_all {A B O} (call : xbatch A -> out O) l i : evaluate_loop (B := B) call None i l Stop =
  Ok (map (fun b => match call (fst b) with Single o => o | Multi _ => [] end) l, map snd l).
Proof. revert i. induction l as [|[x y] l IH]; intros i; [reflexivity|]. cbn [evaluate_loop enough]. rewrite IH. reflexivity. Qed.
Lemma evaluate_data {A B O} (call : xbatch A -> out O) (s : source A B) bs l : data_wrap s bs = (l, Stop) -> l <> [] ->
  evaluate call s bs None = Ok (concat (map (fun b => match call (fst b) with Single o => o | Multi _ => [] end) l), concat (map snd l)).
Proof. intros E N. unfold evaluate. rewrite E. cbn [fst snd]. rewrite evaluate_all. destruct l as [|b l]; [easy|reflexivity]. Qed.
Lemma seq_nonempty {X} (h : nat -> X) n : 0 < n -> map h (seq 0 n) <> [].
Proof. destruct n; [lia|discriminate]. Qed.
(** From a list of inputs, evaluate compares every prediction with its label once. *)
Theorem C85_list {A B O} (call : xbatch A -> out O) (g : A -> O) (x : tensor A) (y : tensor B) b : 0 < b -> rows x <> [] -> length (rows y) = length (rows x) ->
  (forall l, call (Many [l]) = Single (map g l)) -> evaluate call (FromList [x] y) (Some b) None = Ok (map g (rows x), rows y).
Proof.
  intros B' N L C. pose proof (count_pos (length (rows x)) b B' ltac:(destruct (rows x); cbn; [easy|lia])) as P.
  rewrite (evaluate_data call _ _ _ (wrap_list x [] y b B')) by now apply seq_nonempty. rewrite !map_map. cbn [fst snd map].
  pose proof (proj1 (chunks_consecutive b (rows x) B')) as CX. pose proof (proj1 (chunks_consecutive b (rows y) B')) as CY. rewrite L in CY.
  apply f_equal, f_equal2; [|exact CY]. erewrite map_ext; [|intros i; rewrite C; reflexivity]. now rewrite <- (map_map (chunk b (rows x)) (map g)), <- concat_map, CX.
Qed.
Print Assumptions C85_list.
(** From one private tensor it looks at ceil(features / b) batches only. *)
Theorem C85_private {A B O} (call : xbatch A -> out O) (g : A -> O) (x : tensor A) (y : tensor B) w b : 0 < b -> 0 < w -> rows x <> [] -> dim1 x = Some w ->
  (forall l, call (One l) = Single (map g l)) ->
  exists k, w <= k * b < w + b /\ evaluate call (FromPrivate x y) (Some b) None = Ok (map g (firstn (k * b) (rows x)), firstn (k * b) (rows y)).
Proof.
  intros B' W N D C. exists (count w b). split; [now apply count_bound|].
  rewrite (evaluate_data call _ _ _ (wrap_private x y w b B' N D)) by (apply seq_nonempty; now apply count_pos). rewrite !map_map. cbn [fst snd map].
  apply f_equal, f_equal2; [|exact (concat_chunks b (rows y) (count w b))]. erewrite map_ext; [|intros i; rewrite C; reflexivity].
  now rewrite <- (map_map (chunk b (rows x)) (map g)), <- concat_map, concat_chunks.
Qed.
Print Assumptions C85_private.
(** With the default batch_size=None it raises TypeError on all data, unless it stops after one step. *)
Theorem C85_default_refuted {A B O} (call : xbatch A -> out O) (s : source A B) steps : (forall k, steps = Some k -> 1 < k) ->
  match s with FromIter _ => False | FromPrivate x _ => rows x <> [] /\ (exists w, dim1 x = Some (S w)) | FromList xs _ => exists x xs', xs = x :: xs' /\ rows x <> [] end ->
  evaluate call s None steps = Err TypeError.
Proof.
  intros K H.
  assert (G : forall x y, evaluate_loop (B := B) call steps 0 [(x, y)] (Raise TypeError) = Err TypeError).
  { intros x y. cbn [evaluate_loop]. unfold enough. destruct steps as [k|]; [|reflexivity]. specialize (K k eq_refl). destruct (Nat.leb_spec k (0 + 1)); [lia|reflexivity]. }
  unfold evaluate. destruct s as [l|x y|xs y]; [easy| |].
  - destruct H as [N [w D]]. unfold data_wrap. rewrite D. destruct (rows x) as [|a r]; [easy|]. cbn [iter_over_data]. cbn [Nat.ltb Nat.leb fst snd]. now rewrite G.
  - destruct H as (x & xs' & -> & N). unfold data_wrap. destruct (rows x) as [|a r] eqn:R; [easy|]. cbn [length iter_over_data Nat.ltb Nat.leb fst snd]. now rewrite G.
Qed.
Print Assumptions C85_default_refuted.

(** ** Cases *)
Definition xs5 : tensor nat := MkT [10; 11; 12; 13; 14] (Some 3).
Definition ys5 : tensor nat := MkT [0; 1; 0; 1; 0] (Some 1).
Example fit_case : fit record (FromPrivate xs5 ys5) (Some 2) 3 None [] = Ok [(One [10; 11], [0; 1]); (One [12; 13], [0; 1])].
Proof. reflexivity. Qed.
Example fit_case_list : fit record (FromList [xs5; xs5] ys5) (Some 2) 3 None [] =
  Ok [(Many [[10; 11]; [10; 11]], [0; 1]); (Many [[12; 13]; [12; 13]], [0; 1]); (Many [[14]; [14]], [0])].
Proof. reflexivity. Qed.
Example fit_case_steps : fit record (FromList [xs5] ys5) (Some 1) 2 (Some 2) [] =
  Ok [(Many [[10]], [0]); (Many [[11]], [1]); (Many [[12]], [0]); (Many [[13]], [1])].
Proof. reflexivity. Qed.
Definition twice (b : xbatch nat) : out nat := match b with One l => Single (map (fun v => 2 * v) l) | Many (l :: _) => Single (map (fun v => 2 * v) l) | Many [] => Multi [] end.
Example predict_case : snd (predict twice None (XPrivate xs5) (Some 2) true) = Ok (MkAns (Single [20; 22; 24; 26; 28]) true [Single [20; 22]; Single [24; 26]; Single [28]]).
Proof. reflexivity. Qed.
Example predict_case_outputs : snd (predict (fun b => match b with One l => Multi [map S l; map pred l] | Many _ => Multi [] end) None (XPrivate xs5) (Some 4) false) =
  Ok (MkAns (Multi [[11; 12; 13; 14; 15]; [9; 10; 11; 12; 13]]) false []).
Proof. reflexivity. Qed.
Example hidden_case : predicts twice None [(XPrivate xs5, Some 5, true); (XPrivate xs5, Some 3, false)] =
  [([Single [20; 22; 24; 26; 28]], Ok (MkAns (Single [20; 22; 24; 26; 28]) true [Single [20; 22; 24; 26; 28]])); ([Single [20; 22; 24]; Single [26; 28]], Err ConcatError)].
Proof. reflexivity. Qed.
Example evaluate_case : evaluate twice (FromList [xs5] ys5) (Some 2) None = Ok ([20; 22; 24; 26; 28], [0; 1; 0; 1; 0]) /\
  evaluate twice (FromPrivate xs5 ys5) (Some 2) None = Ok ([20; 22; 24; 26], [0; 1; 0; 1]) /\ evaluate twice (FromPrivate xs5 ys5) None None = Err TypeError.
Proof. repeat split. Qed.
