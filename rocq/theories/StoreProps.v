(** C105: private tensors written to disk and read back. *)
From Coq Require Import String.
From Verif Require Import Base TensorModel Aby3Model Aby3Spec StoreModel StoreSpec StoreProofs.
Local Open Scope Z_scope.

Lemma all_nonempty ops d ps : ps <> [] -> (forall p, In p ps -> clean ops d p /\ stored ops p <> []) -> flat_map (stored ops) ps <> [].
Proof. destruct ps as [|p ps]; intros N H; [congruence|]. destruct (H p (or_introl eq_refl)) as [_ S]. cbn. destruct (stored ops p); [congruence|discriminate]. Qed.

(** After any calls of write, for scaled arithmetic tensors of [B] rows each, read with that number of rows and a multiple
    [q * B] yields [q] tensors at a time, in the order of writing, and starts again at the end. *)
Theorem C105_read : forall w ops d ps B rest q vss k t, let n := bits w in
  ps <> [] -> (forall p, In p ps -> clean ops d p /\ stored ops p <> []) -> Forall2 (holds n (B :: rest)) (flat_map (stored ops) ps) vss ->
  (0 < B)%nat -> (0 < q)%nat -> (List.length vss mod q = 0)%nat -> (t < k)%nat ->
  exists shape g z, read w ps B ((q * B)%nat :: rest) (written ops d) = (shape, Ok g) /\ nth_error (calls k g) t = Some (Ok z) /\
    holds n ((q * B)%nat :: rest) z (concat (part q (t mod (List.length vss / q)) vss)).
Proof.
  intros w ops d ps B rest q vss k t n N Hp H HB Hq Hm Ht. pose proof (all_nonempty ops d ps N Hp) as NA.
  assert (Q : (q * B / B)%nat = q) by (apply Nat.div_mul; lia).
  eexists _, _, _. split; [apply read_ok; [lia|rewrite Q; exact Hq]|]. rewrite Q. set (all := flat_map (stored ops) ps) in *.
  set (recs := fun i j => all_records ps i j (written ops d)).
  assert (LL : List.length all = List.length vss) by (clear - H; induction H; cbn; congruence).
  assert (E : List.length vss = (List.length vss / q * q)%nat) by (pose proof (Nat.div_mod (List.length vss) q ltac:(lia)); lia).
  set (c := (List.length vss / q)%nat) in *. assert (C : (0 < c)%nat) by (destruct all; [congruence|cbn in LL; nia]).
  assert (NB : nbatches q (List.length all) = c) by (rewrite LL, E; apply nbatches_mult, Hq).
  assert (PL : forall s, (List.length (part q (s mod c) all) * volume (B :: rest) = volume ((q * B)%nat :: rest))%nat).
  { intros s. rewrite part_length, LL, E. pose proof (Nat.mod_upper_bound s c ltac:(lia)). replace (Nat.min q (c * q - s mod c * q)) with q by nia. cbn. fold (volume rest). lia. }
  assert (X : forall s, next (at_pos w q ((q * B)%nat :: rest) recs (Some s)) = (at_pos w q ((q * B)%nat :: rest) recs (Some (S s)), Ok (joined w ((q * B)%nat :: rest) (part q (s mod c) all)))).
  { intros s. rewrite (next_ok w (B :: rest) q _ recs all vss s NA H). 2: { intros a Ha. apply (records_ok a ps ops d Ha Hp). } rewrite NB, PL, Nat.eqb_refl. reflexivity. }
  split.
  - rewrite (calls_at (fun s => at_pos w q ((q * B)%nat :: rest) recs (Some s)) k 0 t Ht) by (intros s _; rewrite X; reflexivity). rewrite X. reflexivity.
  - apply (joined_holds w (B :: rest)); [apply part_Forall2, H|apply PL].
Qed.
Print Assumptions C105_read.

(** Asked for all the rows at once, it yields them all at every call, whatever [file_batch] up to the rows of one tensor. *)
Theorem C105_whole : forall w ops d ps fb B rest vss k t, let n := bits w in let m := List.length vss in
  ps <> [] -> (forall p, In p ps -> clean ops d p /\ stored ops p <> []) -> Forall2 (holds n (B :: rest)) (flat_map (stored ops) ps) vss ->
  (0 < fb <= B)%nat -> (t < k)%nat ->
  exists shape g z, read w ps fb ((m * B)%nat :: rest) (written ops d) = (shape, Ok g) /\ nth_error (calls k g) t = Some (Ok z) /\
    holds n ((m * B)%nat :: rest) z (concat vss).
Proof.
  intros w ops d ps fb B rest vss k t n m N Hp H HB Ht. pose proof (all_nonempty ops d ps N Hp) as NA. set (all := flat_map (stored ops) ps) in *.
  assert (LL : List.length all = m) by (unfold m; clear - H; induction H; cbn; congruence).
  assert (M : (0 < m)%nat) by (destruct all; [congruence|cbn in LL; lia]).
  assert (Q : (m <= m * B / fb)%nat). { apply Nat.div_le_lower_bound; [lia|]. nia. } set (q := (m * B / fb)%nat) in *.
  eexists _, _, _. split; [apply read_ok; [lia|fold q; lia]|]. fold q.
  set (recs := fun i j => all_records ps i j (written ops d)).
  assert (NB : nbatches q (List.length all) = 1%nat).
  { unfold nbatches. rewrite LL. replace (m + q - 1)%nat with (m - 1 + 1 * q)%nat by lia. rewrite Nat.div_add by lia. rewrite Nat.div_small by lia. reflexivity. }
  assert (PA : forall (A : Type) (l : list A), List.length l = m -> part q 0 l = l) by (intros A l L; unfold part; cbn; apply firstn_all2; lia).
  assert (PL : (List.length (part q 0 all) * volume (B :: rest) = volume ((m * B)%nat :: rest))%nat).
  { rewrite (PA _ all LL), LL. cbn. fold (volume rest). lia. }
  assert (X : forall s, next (at_pos w q ((m * B)%nat :: rest) recs (Some s)) = (at_pos w q ((m * B)%nat :: rest) recs (Some (S s)), Ok (joined w ((m * B)%nat :: rest) (part q 0 all)))).
  { intros s. rewrite (next_ok w (B :: rest) q _ recs all vss s NA H). 2: { intros a Ha. apply (records_ok a ps ops d Ha Hp). } rewrite NB, Nat.mod_1_r, PL, Nat.eqb_refl. reflexivity. }
  split.
  - rewrite (calls_at (fun s => at_pos w q ((m * B)%nat :: rest) recs (Some s)) k 0 t Ht) by (intros s _; rewrite X; reflexivity). rewrite X. reflexivity.
  - rewrite <- (PA _ vss eq_refl) at 1. apply (joined_holds w (B :: rest)); [apply part_Forall2, H|apply PL].
Qed.
Print Assumptions C105_whole.

(** When the number of tensors is no multiple of [q], the incomplete batch raises and ends the generator; the batches
    before it are as above. *)
Theorem C105_short : forall w ops d ps B rest q vss k t, let n := bits w in let c := (List.length vss / q)%nat in
  ps <> [] -> (forall p, In p ps -> clean ops d p /\ stored ops p <> []) -> Forall2 (holds n (B :: rest)) (flat_map (stored ops) ps) vss ->
  (0 < fold_right Nat.mul 1 (B :: rest))%nat -> (0 < q)%nat -> (List.length vss mod q <> 0)%nat -> (t < k)%nat ->
  exists shape g r, read w ps B ((q * B)%nat :: rest) (written ops d) = (shape, Ok g) /\ nth_error (calls k g) t = Some r /\
    if (t <? c)%nat then exists z, r = Ok z /\ holds n ((q * B)%nat :: rest) z (concat (part q t vss))
    else r = if (t =? c)%nat then Err InvalidArgument else Err StopIteration.
Proof.
  intros w ops d ps B rest q vss k t n c N Hp H HV Hq Hm Ht. pose proof (all_nonempty ops d ps N Hp) as NA.
  assert (HB : (0 < B)%nat) by (cbn in HV; nia). assert (Q : (q * B / B)%nat = q) by (apply Nat.div_mul; lia).
  set (all := flat_map (stored ops) ps) in *. set (recs := fun i j => all_records ps i j (written ops d)).
  assert (LL : List.length all = List.length vss) by (clear - H; induction H; cbn; congruence).
  pose proof (Nat.div_mod (List.length vss) q ltac:(lia)) as E. pose proof (Nat.mod_upper_bound (List.length vss) q ltac:(lia)) as UB. fold c in E.
  assert (NB : nbatches q (List.length all) = S c) by (rewrite LL; apply nbatches_rest; assumption).
  pose (G := fun s : nat => at_pos w q ((q * B)%nat :: rest) recs (Some s)).
  assert (X : forall s, (s <= c)%nat -> next (G s) = if (s <? c)%nat then (G (S s), Ok (joined w ((q * B)%nat :: rest) (part q s all))) else (at_pos w q ((q * B)%nat :: rest) recs None, Err InvalidArgument)).
  { intros s Hs. unfold G. rewrite (next_ok w (B :: rest) q _ recs all vss s NA H). 2: { intros a Ha. apply (records_ok a ps ops d Ha Hp). }
    rewrite NB, (Nat.mod_small s (S c)) by lia. rewrite part_length, LL. cbn [volume fold_right] in HV |- *. change (fold_right Nat.mul 1%nat rest) with (volume rest) in *.
    destruct (Nat.ltb_spec s c) as [L|L].
    - replace (Nat.min q (List.length vss - s * q)) with q by nia. rewrite Nat.mul_assoc, Nat.eqb_refl. reflexivity.
    - replace s with c by lia. replace (Nat.min q (List.length vss - c * q)) with (List.length vss mod q)%nat by nia.
      destruct (Nat.eqb_spec (List.length vss mod q * (B * volume rest)) (q * B * volume rest)) as [F|F]; [|reflexivity]. exfalso. rewrite <- Nat.mul_assoc in F. apply Nat.mul_cancel_r in F; lia. }
  assert (R : exists shape, read w ps B ((q * B)%nat :: rest) (written ops d) = (shape, Ok (G 0%nat))) by (eexists; rewrite read_ok by (try rewrite Q; lia); rewrite Q; reflexivity).
  destruct R as [shape R]. exists shape, (G 0%nat).
  destruct (Nat.ltb_spec t c) as [L|L].
  - exists (snd (next (G t))). split; [exact R|split].
    + apply (calls_at G k 0 t Ht). intros s Hs. rewrite X by lia. destruct (Nat.ltb_spec s c); [reflexivity|lia].
    + rewrite X by lia. destruct (Nat.ltb_spec t c); [|lia]. cbn [snd]. eexists. split; [reflexivity|]. apply (joined_holds w (B :: rest)); [apply part_Forall2, H|].
      rewrite part_length, LL. replace (Nat.min q (List.length vss - t * q)) with q by nia. cbn. fold (volume rest). lia.
  - destruct (Nat.eqb_spec t c) as [->|Hne].
    + exists (Err InvalidArgument). split; [exact R|split; [|reflexivity]]. rewrite (calls_at G k 0 c Ht) by (intros s Hs; rewrite X by lia; destruct (Nat.ltb_spec s c); [reflexivity|lia]).
      cbn [Nat.add]. rewrite X by lia. rewrite Nat.ltb_irrefl. reflexivity.
    + exists (Err StopIteration). split; [exact R|split; [|reflexivity]].
      apply (calls_after G k c t Ht); [|rewrite X by lia; rewrite Nat.ltb_irrefl; reflexivity|lia]. intros s Hs. rewrite X by lia. destruct (Nat.ltb_spec s c); [reflexivity|lia].
Qed.
Print Assumptions C105_short.

(** With 128-bit words read also changes the list [output_shape] of its caller, so that a second read with the same list
    raises at its first batch. *)
Theorem C105_again_refuted : forall ops d ps B rest q vss k,
  ps <> [] -> (forall p, In p ps -> clean ops d p /\ stored ops p <> []) -> Forall2 (holds 128 (B :: rest)) (flat_map (stored ops) ps) vss ->
  (0 < fold_right Nat.mul 1 (B :: rest))%nat -> (0 < q)%nat -> (List.length vss mod q = 0)%nat -> (0 < k)%nat ->
  let shape := fst (read W128 ps B ((q * B)%nat :: rest) (written ops d)) in
  shape <> (q * B)%nat :: rest /\
  exists shape' g, read W128 ps B shape (written ops d) = (shape', Ok g) /\ nth_error (calls k g) 0 = Some (Err InvalidArgument).
Proof.
  intros ops d ps B rest q vss k N Hp H HV Hq Hm Hk. pose proof (all_nonempty ops d ps N Hp) as NA.
  assert (HB : (0 < B)%nat) by (cbn in HV; nia). assert (Q : (q * B / B)%nat = q) by (apply Nat.div_mul; lia).
  rewrite read_ok by (try rewrite Q; lia). cbn [fst wdims]. split.
  { intros E. apply (f_equal (@List.length nat)) in E. rewrite app_length in E. cbn in E. lia. }
  cbn [app]. eexists _, _. split; [apply read_ok; rewrite ?Q; lia|]. rewrite Q. set (all := flat_map (stored ops) ps) in *. set (recs := fun i j => all_records ps i j (written ops d)).
  assert (LL : List.length all = List.length vss) by (clear - H; induction H; cbn; congruence).
  assert (E : List.length vss = (List.length vss / q * q)%nat) by (pose proof (Nat.div_mod (List.length vss) q ltac:(lia)); lia).
  rewrite (calls_at (fun s => at_pos W128 q ((q * B)%nat :: rest ++ [2%nat]) recs (Some s)) k 0 0 Hk) by (intros; lia).
  rewrite (next_ok W128 (B :: rest) q _ recs all vss 0 NA H) by (intros a Ha; apply (records_ok a ps ops d Ha Hp)).
  assert (M : (0 < List.length all)%nat) by (destruct all; [congruence|cbn; lia]).
  assert (C : (0 < List.length vss / q)%nat) by (destruct (List.length vss / q)%nat; lia).
  rewrite Nat.mod_0_l by (rewrite LL, E, nbatches_mult by exact Hq; lia). rewrite part_length, LL.
  replace (Nat.min q (List.length vss - 0 * q)) with q by nia.
  change (volume ((q * B)%nat :: rest ++ [2%nat])) with (q * B * volume (rest ++ [2%nat]))%nat. rewrite volume_app. change (volume [2%nat]) with 2%nat.
  change (volume (B :: rest)) with (B * volume rest)%nat. cbn [fold_right] in HV. change (fold_right Nat.mul 1%nat rest) with (volume rest) in HV.
  destruct (Nat.eqb_spec (q * (B * volume rest)) (q * B * (volume rest * 2))) as [F|F]; [|reflexivity]. exfalso. nia.
Qed.
Print Assumptions C105_again_refuted.

(** The flags of a tensor are not stored: an unscaled tensor of the number 5 is read as a fixed-point tensor of the same raw
    value, and boolean shares of 0 are read as arithmetic shares of 2. *)
Definition plain : tens := Tens [1%nat] false Arith (FI 64) [5] [0] [0] [0] [0] [5].
Definition flags : tens := Tens [1%nat] true Bool_ (FI 64) [1] [1] [1] [0] [0] [1].
Theorem C105_unscaled_refuted : exists g z, arith 64 (entry plain 0) 5 /\ tsc plain = false /\
  read W64 ["x"%string] 1 [1%nat] (write plain "x" false (fun _ => None)) = ([1%nat], Ok g) /\ calls 1 g = [Ok z] /\ holds 64 [1%nat] z [5].
Proof.
  eexists _, _. split; [repeat split; try (cbn; lia)|]. split; [reflexivity|]. split; [reflexivity|]. split; [vm_compute; reflexivity|].
  split; [reflexivity|]. do 4 (split; [try reflexivity|]). { repeat constructor. } intros e He. cbn in He. assert (e = 0%nat) as -> by lia. repeat split; cbn; lia.
Qed.
Print Assumptions C105_unscaled_refuted.
Theorem C105_boolean_refuted : exists g z, boolean (FI 64) (entry flags 0) 0 /\
  read W64 ["x"%string] 1 [1%nat] (write flags "x" false (fun _ => None)) = ([1%nat], Ok g) /\ calls 1 g = [Ok z] /\ holds 64 [1%nat] z [2].
Proof.
  eexists _, _. split; [repeat split; try (cbn; lia)|]. split; [reflexivity|]. split; [vm_compute; reflexivity|].
  split; [reflexivity|]. do 4 (split; [try reflexivity|]). { repeat constructor. } intros e He. cbn in He. assert (e = 0%nat) as -> by lia. repeat split; cbn; lia.
Qed.
Print Assumptions C105_boolean_refuted.

(** Three tensors of two rows under two prefixes, one of them overwritten, with 128-bit words. *)
Definition row2 (a b : Z) : tens := Tens [2%nat] true Arith (FI 128) [a; b] [7; -1] [7; -1] [-7; 1] [-7; 1] [a; b].
Definition ex_ops : list wcall := [("u", true, row2 9 9); ("v", false, row2 5 (2 ^ 100)); ("u", false, row2 1 2); ("u", true, row2 3 (-4))]%string.
Example C105_nonvacuous :
  (forall p, In p ["u"; "v"]%string -> clean ex_ops (fun _ => None) p /\ stored ex_ops p <> []) /\
  Forall2 (holds 128 [2%nat]) (flat_map (stored ex_ops) ["u"; "v"]%string) [[1; 2]; [3; -4]; [5; 2 ^ 100]] /\
  (let '(shape, r) := read W128 ["u"; "v"]%string 2 [2%nat] (written ex_ops (fun _ => None)) in
   shape = [2%nat; 2%nat] /\ match r with Ok g => map (fun r => match r with Ok z => t00 z | Err _ => [] end) (calls 4 g) = [[1; 2]; [3; -4]; [5; 2 ^ 100]; [1; 2]] | Err _ => False end).
Proof.
  split; [|split].
  - intros p [<-|[<-|[]]]; (split; [|discriminate]); right; reflexivity.
  - assert (R : forall a b, in_s 128 a -> in_s 128 b -> holds 128 [2%nat] (row2 a b) [a; b]).
    { intros a b Ha Hb. unfold in_s in *. change (128 - 1) with 127 in *. do 4 (split; [reflexivity|]). split; [repeat constructor|]. intros e He. cbn in He.
      assert (E : e = 0%nat \/ e = 1%nat) by lia. destruct E as [->| ->]; repeat split; cbn [entry row2 nth vz p00 p10 p20 t00 t10 t20 t01 t11 t21 p01 p11 p21 word]; try lia; f_equal; lia. }
    do 3 (constructor; [apply R; unfold in_s; cbn; lia|]). constructor.
  - vm_compute. repeat split.
Qed.
