(** Theorems about ABY3's private softmax. *)
From Coq Require Import Reals Lra Psatz.
From Verif Require Import Base TensorModel TensorProofs Aby3Model Aby3Spec Aby3Proofs Aby3Props Aby3NetModel Aby3NetSpec Aby3NetProps FpModel FpSpec FpLogModel FpLogSpec FpLogMain FpExpModel FpExpSpec FpExpProps FpSoftModel FpSoftSpec FpSoftProofs.
Open Scope Z_scope.

(** Every entry of the softmax of a row. *)
Theorem C93_softmax : forall prf colo n k m le cs (tree : bool) xs vs, prf_words prf -> fp_config n k m -> 11 <= k -> m + 5 <= 2 * k ->
  excoeffs_for k cs -> encodes k le (/ ln 2) -> shares n true xs vs -> ((if tree then 1 else 2) <= length xs)%nat -> soft_domain n k m vs ->
  yields (softmax prf colo k m le cs tree xs) (fun zs => Forall2 (fun z v => psc z = true /\ exists r, arith n z r /\
    soft_within k (length vs) (soft (map (real_of k) vs) (real_of k v)) (real_of k r)) zs vs).
Proof. intros prf colo n k m le cs tree xs vs Hp Hc Hk Hm Hcs Hle Hx HL Hd. exact (soft_ok prf colo Hp n k m Hc Hk Hm le cs tree xs vs Hx HL Hd Hcs Hle). Qed.
Print Assumptions C93_softmax.

(** A row with a single entry has no softmax with the default method for the maximum. *)
Theorem C93_single_refuted : forall prf colo k m le cs x, raises (softmax prf colo k m le cs false [x]) ValueError.
Proof.
  intros prf colo k m le cs x. pose proof (C56_sort_one_refuted prf colo false x) as H. intros s.
  unfold softmax, row_max, reduce_max_network. specialize (H s). unfold bind.
  destruct (sort_private prf colo false [x] s) as ((s1 & e1) & [ys|er]); cbn [snd] in *; [discriminate|congruence].
Qed.
Print Assumptions C93_single_refuted.

(** The configurations shipped with the library, and rows in the domain: three logits in the default one, with 16 fractional
    bits; up to 930 entries are allowed there. *)
Example C93_configs : (fp_config 64 16 27 /\ 27 + 5 <= 2 * 16) /\ (fp_config 128 32 52 /\ 52 + 5 <= 2 * 32).
Proof. unfold fp_config. lia. Qed.
Example C93_domain : soft_domain 64 16 27 [65536; - 131072; 196608] /\ soft_domain 64 16 27 (repeat 5 930).
Proof.
  unfold soft_domain. change (2 ^ (16 - 1)) with 32768. change (2 ^ 16) with 65536. change (2 ^ (64 - 2)) with 4611686018427387904. change (2 ^ (27 - 1 - 16)) with 1024. split.
  - split; [lia|]. split; [intros v H; cbn in H; lia|]. split; [intros v w H1 H2; cbn in H1, H2; lia|cbn; lia].
  - split; [lia|]. split; [intros v H; apply repeat_spec in H; lia|]. split; [intros v w H1 H2; apply repeat_spec in H1, H2; lia|]. rewrite repeat_length. lia.
Qed.
(** The size of the error for ten classes. *)
Example C93_error : forall p y, soft_within 16 10 p y -> (Rabs (y - p) <= 0.0018)%R.
Proof. unfold soft_within, pade_error, ulp. cbn [Z.ltb]. intros p y H. change (16 <? 13) with false in H. change (16 <? 17) with true in H. cbn iota in H. change (2 ^ 16) with 65536 in H. cbn [INR] in H. lra. Qed.
(** The programs, on concrete shares in the default configuration: the softmax of a single class is 1. *)
Definition ex_soft (tree : bool) (vs : list Z) : option (list Z) :=
  match snd (bind (mapM (fun v => share ex_prf false Arith (FI 64) v true) vs) (fun xs => bind (softmax ex_prf false 16 27 94548 ex_cs tree xs) (fun zs =>
    bind (mapM (reveal false) zs) (fun gs => ret (map (fun g => vz (q0 g)) gs)))) ex_st) with Ok r => Some r | Err _ => None end.
Example C93_run : ex_soft true [5] = Some [65536] /\ ex_soft false [5] = None.
Proof. vm_compute. repeat split. Qed.
