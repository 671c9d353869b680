(** Property theorems for the ABY3 operations over many entries: reduce_sum (C45), the
    bit-injection conversion (C51), maxima (C41), sorting (C55, C56), powers and products (C57),
    polynomials and pieces (C58).  Lists are the entries along the reduced axis. *)
From Verif Require Import Base TensorModel TensorProofs Aby3Model Aby3Spec Aby3Bits Aby3Proofs Aby3Trunc Adder Aby3Circ Aby3Cmp
  Aby3NetModel Aby3NetSpec Bitonic SortLists Aby3Net Aby3Props Aby3CircProps.
From Coq Require Import Permutation Sorted.
Local Open Scope Z_scope.

(** Sharing a list and revealing a list, for the examples. *)
Definition share_list (vs : list Z) : M (list priv) := mapM (fun v => share ex_prf false Arith (FI 64) v false) vs.
Definition reveal_list (xs : list priv) : M (list Z) := mapM (fun x => bind (reveal false x) (fun q => ret (vz (q0 q)))) xs.
Definition run_list (vs : list Z) (f : list priv -> M (list priv)) : option (list Z) :=
  match snd (bind (share_list vs) (fun xs => bind (f xs) reveal_list) ex_st) with Ok l => Some l | Err _ => None end.
Definition run_one (vs : list Z) (f : list priv -> M priv) : option (list Z) :=
  run_list vs (fun xs => bind (f xs) (fun x => ret [x])).

(** ** C45: sums *)

Theorem C45_reduce_sum : forall colo n sc sc' xs vs r, 0 < n -> shares n sc xs vs -> wrapped n (fold_right Z.add 0 vs) r ->
  yields (reduce_sum colo (FI n) sc' Arith xs) (fun z => arith n z r /\ psc z = sc').
Proof. intros colo n sc sc' xs vs r Hn H Hr. rewrite (wrapped_eq n _ _ Hn Hr). exact (reduce_sum_ok colo n sc sc' xs vs Hn H). Qed.
Print Assumptions C45_reduce_sum.
Example C45_reduce_sum_nonvacuous : run_one [2 ^ 63 - 1; -7; 4; 5] (reduce_sum false (FI 64) false Arith) = Some [- 2 ^ 63 + 1].
Proof. vm_compute. reflexivity. Qed.

(** ** C51: from bits to words by bit injection *)

Theorem C51_b2a_bits : forall prf colo m n x v k r, prf_words prf -> 0 < m -> 1 < n -> boolean (FI m) x v -> 0 <= k ->
  (m <> 128 \/ k <= 64) -> wrapped n (v mod 2 ^ k) r ->
  yields (b2a_bits prf colo (FI n) (Some k) x) (fun z => arith n z r /\ psc z = psc x).
Proof.
  intros prf colo m n x v k r Hp Hm Hn Hx Hk H128 Hr. rewrite (wrapped_eq n _ _ ltac:(lia) Hr).
  exact (b2a_bits_ok prf colo Hp m n (Some k) x v Hm Hn Hx Hk H128).
Qed.
Print Assumptions C51_b2a_bits.
(** Without a number of bits the value is preserved, with either method. *)
Theorem C51_b2a_full : forall prf colo n (ppa : bool) x v, prf_words prf -> (if ppa then n = 64 \/ n = 128 else 1 < n /\ n <> 128) -> boolean (FI n) x v ->
  yields (b2a prf colo (FI n) None ppa x) (fun z => arith n z v /\ psc z = psc x).
Proof.
  intros prf colo n ppa x v Hp Hn Hx. unfold b2a. apply y_assert. { unfold is_arith. destruct Hx as (_ & -> & _). reflexivity. }
  destruct ppa; cbn [andb].
  - exact (b2a_ppa_ok prf colo Hp n x v Hn Hx).
  - eapply y_weaken; [exact (b2a_bits_ok prf colo Hp n n None x v ltac:(lia) ltac:(lia) Hx I (or_introl (proj2 Hn)))|]. intros z (Hz & Sz). split; [|exact Sz].
    replace v with (swrap n (v mod 2 ^ n)); [exact Hz|].
    assert (Hv : in_s n v). { destruct (bool_inv _ _ _ Hx) as (a & b & c & _ & A & B & C & <-). apply in_s_lxor; [lia|apply in_s_lxor; [lia|exact A|exact B]|exact C]. }
    apply (in_s_eqm_eq n); [lia|apply swrap_range; lia|exact Hv|]. rewrite swrap_eqm by lia. apply eqm_mod_l.
Qed.
Print Assumptions C51_b2a_full.
(** On 128-bit words bit injection of more than 64 bits never succeeds. *)
Theorem C51_b2a_int128_bits_refuted : forall prf colo g x v k s, boolean (FI 128) x v ->
  (match k with Some k => 64 < k | None => True end) ->
  exists e, snd (b2a prf colo g k false x s) = Err e.
Proof.
  intros prf colo g x v k s Hx Hk. unfold b2a. rewrite Bool.andb_false_r.
  assert (Ha : is_arith x = false) by (unfold is_arith; destruct Hx as (_ & -> & _); reflexivity).
  assert (Hf : pfc x = FI 128) by apply Hx. unfold b2a_bits. rewrite Ha, Hf. cbn [negb assert_ fbits].
  exists ValueError. unfold bind, ret, raise, assert_. cbn [fac_eqb]. rewrite Z.eqb_refl. cbn [andb].
  replace (64 <? match k with Some k => k | None => 128 end) with true; [reflexivity|].
  symmetry. apply Z.ltb_lt. destruct k; lia.
Qed.
Print Assumptions C51_b2a_int128_bits_refuted.
Example C51_b2a_int128_bits_witness :
  snd (bind (share ex_prf false Bool_ (FI 128) 5 false) (fun x => b2a ex_prf false (FI 128) None false x) ex_st) = Err ValueError /\
  match snd (bind (share ex_prf false Bool_ (FI 128) 5 false) (fun x => bind (b2a ex_prf false (FI 128) (Some 4) false x) (fun a => reveal_list [a])) ex_st) with
  | Ok l => l = [5] | Err _ => False end.
Proof. split; vm_compute; reflexivity. Qed.
Example C51_b2a_bits_nonvacuous :
  match snd (bind (share ex_prf false Bool_ (FI 64) (-5) false) (fun x => bind (b2a_bits ex_prf false (FI 64) None x) (fun a =>
    bind (b2a_bits ex_prf false (FI 64) (Some 4) x) (fun b => reveal_list [a; b]))) ex_st) with Ok l => l = [-5; 11] | Err _ => False end.
Proof. vm_compute. reflexivity. Qed.

(** ** C41: maxima *)

Theorem C41_reduce_max_tree : forall prf colo e sc xs vs, let n := 2 ^ Z.of_nat e in prf_words prf -> 8 <= n ->
  shares n sc xs vs -> xs <> [] -> close n vs ->
  yields (reduce_max_tree prf colo xs) (fun z => exists m, is_max vs m /\ arith n z m /\ psc z = sc).
Proof. intros prf colo e sc xs vs n Hp Hn. exact (reduce_max_tree_ok prf colo Hp n sc xs vs (ex_intro _ e (conj eq_refl Hn))). Qed.
Print Assumptions C41_reduce_max_tree.
Theorem C41_reduce_max_all : forall prf colo e sc xs vs, let n := 2 ^ Z.of_nat e in prf_words prf -> 8 <= n ->
  shares n sc xs vs -> xs <> [] -> close n vs ->
  yields (reduce_max_all prf colo xs) (fun z => exists m, is_max vs m /\ arith n z m /\ psc z = sc).
Proof.
  intros prf colo e sc xs vs n Hp Hn H Hne Hc.
  exact (vector_max_ok prf colo Hp n sc (ex_intro _ e (conj eq_refl Hn)) (length xs) xs vs H Hne Hc ltac:(lia)).
Qed.
Print Assumptions C41_reduce_max_all.
(** The position is the last one on ties; it comes back as a fixed-point number. *)
Theorem C41_argmax : forall prf colo e sc scale xs vs, let n := 2 ^ Z.of_nat e in prf_words prf -> 8 <= n ->
  shares n sc xs vs -> xs <> [] -> close n vs ->
  yields (argmax prf colo (FI n) scale xs) (fun z => exists k, last_greatest vs k /\
    (arith n (fst z) (nth k vs 0) /\ psc (fst z) = sc) /\
    forall i, wrapped n (Z.of_nat k * 2 ^ scale) i -> tens_arith n true (snd z) i).
Proof.
  intros prf colo e sc scale xs vs n Hp Hn H Hne Hc.
  eapply y_weaken; [exact (argmax_ok prf colo Hp n sc scale xs vs (ex_intro _ e (conj eq_refl Hn)) H Hne Hc)|].
  intros z (k & Hk & A & B & C & D). exists k. split; [exact (conj Hk (conj C D))|]. split; [exact A|].
  intros i Hi. rewrite (wrapped_eq n _ _ ltac:(lia) Hi). exact B.
Qed.
Print Assumptions C41_argmax.
Theorem C41_argmax_onehot : forall prf colo e sc xs vs, let n := 2 ^ Z.of_nat e in prf_words prf -> 8 <= n ->
  shares n sc xs vs -> xs <> [] -> close n vs ->
  yields (argmax_onehot prf colo xs) (fun z => exists k, last_greatest vs k /\
    (arith n (fst z) (nth k vs 0) /\ psc (fst z) = sc) /\
    length (snd z) = length vs /\ forall j, (j < length vs)%nat -> exists t, nth_error (snd z) j = Some t /\ tens_bool t (if Nat.eqb k j then 1 else 0)).
Proof.
  intros prf colo e sc xs vs n Hp Hn H Hne Hc.
  eapply y_weaken; [exact (argmax_onehot_ok prf colo Hp n sc xs vs (ex_intro _ e (conj eq_refl Hn)) H Hne Hc)|].
  intros z (k & Hk & A & B & C & D). exists k. split; [exact (conj Hk (conj C D))|]. split; [exact A|].
  assert (L := F2_length _ _ _ B). rewrite map_length, seq_length in L. split; [exact L|].
  intros j Hj. destruct (nth_error (snd z) j) as [t|] eqn:E; [|apply nth_error_None in E; lia]. exists t. split; [reflexivity|].
  assert (G := F2_nth _ _ _ t ((fun j => if Nat.eqb k j then 1 else 0) 0%nat) j B ltac:(lia)).
  rewrite (nth_error_nth _ _ _ E) in G. rewrite (map_nth (fun j => if Nat.eqb k j then 1 else 0)) in G. rewrite seq_nth in G by exact Hj. exact G.
Qed.
Print Assumptions C41_argmax_onehot.
Definition tens_reveal (t : tens) : M Z := match t with TPub q => ret (vz (q0 q)) | TPriv p => bind (reveal false p) (fun q => ret (vz (q0 q))) end.
Example C41_nonvacuous :
  run_one [3; -8; 9] (reduce_max_tree ex_prf false) = Some [9] /\
  run_one [3; 10] (reduce_max_all ex_prf false) = Some [10] /\
  close 64 [3; -8; 9; 1; 9; 2; 0] /\ last_greatest [3; -8; 9; 1; 9; 2; 0] 4 /\
  snd (bind (share_list [9; 1; 9]) (fun xs => bind (argmax ex_prf false (FI 64) 8 xs) (fun z => tens_reveal (snd z))) ex_st) = Ok (2 * 256) /\
  snd (bind (share_list [1; 1]) (fun xs => bind (argmax_onehot ex_prf false xs) (fun z => mapM tens_reveal (snd z))) ex_st) = Ok [0; 1].
Proof.
  split; [vm_compute; reflexivity|]. split; [vm_compute; reflexivity|]. split.
  { intros u v Hu Hv. cbn in Hu, Hv. unfold in_s. cbn. lia. }
  split. { split; [cbn; lia|]. split; intros j Hj; cbn [length] in Hj; do 7 (destruct j as [|j]; [cbn; lia|]); lia. }
  split; vm_compute; reflexivity.
Qed.

(** ** C55: sorting *)

(** Any length from 2 up; the values must leave room for the padding value. *)
Theorem C55_sort : forall prf colo e sc (ascending : bool) xs vs, let n := 2 ^ Z.of_nat e in prf_words prf -> 8 <= n ->
  shares n sc xs vs -> (2 <= length xs)%nat -> (forall v, In v vs -> - 2 ^ (n - 2) < v < 2 ^ (n - 2)) ->
  yields (sort_private prf colo ascending xs) (fun ys => exists ws, shares n sc ys ws /\ Permutation ws vs /\
    StronglySorted (if ascending then Z.le else Z.ge) ws).
Proof.
  intros prf colo e sc acc xs vs n Hp Hn H Hlen Hv.
  assert (Q : 2 ^ (n - 1) = 2 * 2 ^ (n - 2)). { rewrite <- Z.pow_succ_r by lia. f_equal. lia. }
  assert (Q0 := pow2_pos (n - 2) ltac:(lia)).
  assert (EP : swrap n (pad_value n) = pad_value n).
  { apply swrap_id; [lia|]. unfold pad_value, in_s. destruct (n - 2 <=? 53); lia. }
  apply (sort_ok prf colo Hp n sc acc xs vs (ex_intro _ e (conj eq_refl Hn)) H Hlen).
  - rewrite EP. assert (R : forall v, In v (vs ++ repeat (pad_value n) (Nat.pow 2 (stages (length xs)) - length xs)) -> - 2 ^ (n - 2) < v <= 2 ^ (n - 2)).
    { intros v Hi. apply in_app_or in Hi as [Hi|Hi]; [specialize (Hv v Hi); lia|]. apply repeat_spec in Hi. subst v.
      unfold pad_value. destruct (n - 2 <=? 53); lia. }
    intros u v Hu Hw. apply R in Hu. apply R in Hw. unfold in_s. lia.
  - rewrite EP. intros _ v Hi. specialize (Hv v Hi). unfold pad_value. destruct (n - 2 <=? 53); lia.
Qed.
Print Assumptions C55_sort.
(** A length that is a power of two is not padded, and exact comparisons are enough. *)
Theorem C55_sort_unpadded : forall prf colo e k sc (ascending : bool) xs vs, let n := 2 ^ Z.of_nat e in prf_words prf -> 8 <= n ->
  shares n sc xs vs -> length xs = Nat.pow 2 (S k) -> close n vs ->
  yields (sort_private prf colo ascending xs) (fun ys => exists ws, shares n sc ys ws /\ Permutation ws vs /\
    StronglySorted (if ascending then Z.le else Z.ge) ws).
Proof.
  intros prf colo e k sc acc xs vs n Hp Hn H Hlen Hc.
  assert (P : (0 < Nat.pow 2 k)%nat) by (apply Nat.neq_0_lt_0, Nat.pow_nonzero; lia).
  assert (L2 : (2 <= length xs)%nat) by (rewrite Hlen, Nat.pow_succ_r'; lia).
  assert (E : Nat.pow 2 (stages (length xs)) = length xs).
  { rewrite Hlen at 1. unfold stages. rewrite Nat2Z.inj_pow. change (Z.of_nat 2) with 2. rewrite Z.log2_up_pow2 by lia. rewrite Nat2Z.id. symmetry. exact Hlen. }
  apply (sort_ok prf colo Hp n sc acc xs vs (ex_intro _ e (conj eq_refl Hn)) H L2); rewrite E, Nat.sub_diag.
  - cbn [repeat]. rewrite app_nil_r. exact Hc.
  - intros G. congruence.
Qed.
Print Assumptions C55_sort_unpadded.
Example C55_nonvacuous :
  run_list [5; -3; 2 ^ 62 - 1] (sort_private ex_prf false true) = Some [-3; 5; 2 ^ 62 - 1] /\
  run_list [5; 2 ^ 62 - 1] (sort_private ex_prf false false) = Some [2 ^ 62 - 1; 5] /\
  (forall v, In v [5; -3; 2 ^ 62 - 1; 5; 0] -> - 2 ^ 62 < v < 2 ^ 62).
Proof.
  split; [vm_compute; reflexivity|]. split; [vm_compute; reflexivity|].
  intros v Hv. change (2 ^ 62) with 4611686018427387904 in *. cbn in Hv. lia.
Qed.
(** Sorting and taking the head is the maximum. *)
Theorem C41_reduce_max_network : forall prf colo e sc xs vs, let n := 2 ^ Z.of_nat e in prf_words prf -> 8 <= n ->
  shares n sc xs vs -> (2 <= length xs)%nat -> (forall v, In v vs -> - 2 ^ (n - 2) < v < 2 ^ (n - 2)) ->
  yields (reduce_max_network prf colo xs) (fun z => exists m, is_max vs m /\ arith n z m /\ psc z = sc).
Proof.
  intros prf colo e sc xs vs n Hp Hn H Hlen Hv. unfold reduce_max_network.
  eapply yb; [exact (C55_sort prf colo e sc false xs vs Hp Hn H Hlen Hv)|]. intros ys (ws & A & B & C). fold n in A.
  destruct A as [|y w ys ws (Ay & Sy) A].
  { apply Permutation_length in B. assert (L := F2_length _ _ _ H). cbn in B. lia. }
  apply y_ret. exists w. split; [|auto]. split; [apply (Permutation_in _ B); left; reflexivity|].
  intros v Hi. apply (Permutation_in _ (Permutation_sym B)) in Hi. inversion_clear C as [|? ? _ F]. rewrite Forall_forall in F.
  destruct Hi as [->|Hi]; [lia|]. specialize (F v Hi). lia.
Qed.
Print Assumptions C41_reduce_max_network.
Example C41_network_nonvacuous : run_one [9; -8] (reduce_max_network ex_prf false) = Some [9].
Proof. vm_compute. reflexivity. Qed.

(** ** C56: a single entry cannot be sorted *)

Theorem C56_sort_one_refuted : forall prf colo ascending x, raises (sort_private prf colo ascending [x]) ValueError.
Proof. intros prf colo acc x. apply sort_one. Qed.
Print Assumptions C56_sort_one_refuted.
Example C56_nonvacuous : run_list [5] (sort_private ex_prf false true) = None.
Proof. vm_compute; reflexivity. Qed.

(** ** C57: powers and products *)

Theorem C57_pow : forall prf colo n scale x u p r, prf_words prf -> 0 < n -> arith n x u -> psc x = false -> 0 < p ->
  wrapped n (u ^ p) r -> yields (pow prf colo scale x p) (fun z => arith n z r /\ psc z = false).
Proof. intros prf colo n scale x u p r Hp Hn Hx Sx Hpos Hr. rewrite (wrapped_eq n _ _ Hn Hr). exact (pow_ok prf colo Hp n scale x u p Hn Hx Sx Hpos). Qed.
Print Assumptions C57_pow.
Theorem C57_pow_nonpositive : forall prf colo scale x p, p <= 0 -> raises (pow prf colo scale x p) AssertionError.
Proof. intros. apply pow_bad. assumption. Qed.
Print Assumptions C57_pow_nonpositive.
Theorem C57_prod : forall prf colo n scale xs vs r, prf_words prf -> 0 < n -> shares n false xs vs -> xs <> [] -> wrapped n (zprod vs) r ->
  yields (prod prf colo scale xs) (fun z => arith n z r /\ psc z = false).
Proof. intros prf colo n scale xs vs r Hp Hn H Hne Hr. rewrite (wrapped_eq n _ _ Hn Hr). exact (prod_ok prf colo Hp n scale xs vs Hn H Hne). Qed.
Print Assumptions C57_prod.
Example C57_nonvacuous :
  run_one [-3] (fun xs => pow ex_prf false 8 (hd (zeros_private false Arith (FI 64)) xs) 13) = Some [- 1594323] /\
  run_one [2 ^ 40; 3; -5; 2 ^ 30; 7] (prod ex_prf false 8) = Some [- 105 * 2 ^ 70 mod 2 ^ 64] /\
  run_one [2; 3; -5; 11; 7] (prod ex_prf false 8) = Some [-2310].
Proof. repeat split; vm_compute; reflexivity. Qed.

(** ** C58: polynomials and pieces *)

(** With all servers on one machine (the local configuration). *)
Theorem C58_polynomial_partial : forall prf n scale x u c cs r, prf_words prf -> 0 < n -> arith n x u -> psc x = false ->
  wrapped n (peval (c :: cs) u) r -> yields (polynomial prf true scale x (c :: cs)) (fun z => tens_val n z r).
Proof. intros prf n scale x u c cs r Hp Hn Hx Sx Hr. rewrite (wrapped_eq n _ _ Hn Hr). exact (polynomial_ok prf true Hp n scale x u c cs Hn Hx Sx eq_refl). Qed.
Print Assumptions C58_polynomial_partial.
(** On three machines every polynomial raises: the constant term is added to a public zero
    without a device. *)
Theorem C58_polynomial_remote_refuted : forall prf scale x c cs, raises (polynomial prf false scale x (c :: cs)) AssertionError.
Proof. intros. apply polynomial_remote. reflexivity. Qed.
Print Assumptions C58_polynomial_remote_refuted.
(** Piece [j] is the one whose break points enclose [u]: lower break points are below [u], the
    others are not.  For increasing break points such a [j] exists (next theorem). *)
Theorem C58_piecewise : forall prf colo e sc x u c fs fv j, let n := 2 ^ Z.of_nat e in prf_words prf -> 8 <= n ->
  arith n x u -> shares n sc fs fv -> length fs = S (length c) ->
  (forall ck, In ck c -> in_s n ck /\ in_s n (ck - u)) -> (j <= length c)%nat ->
  (forall i, (i < j)%nat -> nth i c 0 < u) -> (forall i, (j <= i < length c)%nat -> u <= nth i c 0) ->
  yields (piecewise prf colo x c fs) (fun z => arith n z (nth j fv 0) /\ psc z = sc).
Proof. intros prf colo e sc x u c fs fv j n Hp Hn. exact (piecewise_ok prf colo Hp n sc x u c fs fv j (ex_intro _ e (conj eq_refl Hn))). Qed.
Print Assumptions C58_piecewise.
Theorem C58_piece_exists : forall (c : list Z) u, StronglySorted Z.le c -> exists j, (j <= length c)%nat /\
  (forall i, (i < j)%nat -> nth i c 0 < u) /\ (forall i, (j <= i < length c)%nat -> u <= nth i c 0).
Proof.
  intros c u H. induction H as [|a c H (j & Hj & L & U) F].
  - exists 0%nat. cbn. split; [lia|]. split; intros; lia.
  - destruct (Z.lt_ge_cases a u) as [Ha|Ha].
    + exists (S j). cbn [length]. split; [lia|]. split.
      * intros [|i] Hi; [exact Ha|]. apply L. lia.
      * intros [|i] Hi; [lia|]. apply U. lia.
    + exists 0%nat. cbn [length]. split; [lia|]. split; [intros i Hi; lia|]. intros [|i] Hi; [exact Ha|]. cbn [nth].
      rewrite Forall_forall in F. specialize (F (nth i c 0) (@nth_In Z i c 0 ltac:(lia))). lia.
Qed.
Print Assumptions C58_piece_exists.
Example C58_nonvacuous :
  run_one [7; 100; 200; 300] (fun xs => match xs with x :: fs => piecewise ex_prf false x [-5; 7] fs | [] => raise ValueError end) = Some [200] /\
  match snd (bind (share ex_prf true Arith (FI 64) (-3) false) (fun x => bind (polynomial ex_prf true 8 x [4; -2; 0; 5]) (fun t =>
    match t with TPriv p => bind (reveal true p) (fun q => ret (vz (q0 q))) | TPub q => ret (vz (q0 q)) end)) ex_st) with Ok v => v = 4 + 6 - 135 | Err _ => False end.
Proof. split; vm_compute; reflexivity. Qed.
