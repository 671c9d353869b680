(** C104: ABY3's sigmoid is as accurate as its pieces, and decides on the right side of one half. *)
From Coq Require Import Reals Lra Psatz QArith Qreals.
From Verif Require Import Base TensorModel Aby3Model Aby3Spec Aby3Proofs Aby3NetModel Aby3NetSpec Aby3Net Aby3Props FpLogSpec SigReal SigModel SigSpec SigProofs.
Local Open Scope Z_scope.

(** Whatever the shares and the random numbers, the result is within 0.042 (five pieces) or 0.077 (three pieces) and six units
    of the last bit of 1 / (1 + exp (-x)), for every argument, however large; it is at least one half for arguments from 0 on
    and at most one half for arguments up to 0. *)
Theorem C104_sigmoid : forall prf colo encode e k a x u, let n := 2 ^ Z.of_nat e in prf_words prf -> encoder k encode ->
  3 <= k -> 2 * k + 3 <= n -> a <> Unknown -> arith n x u -> psc x = true -> - 2 ^ (n - 2) <= u <= 2 ^ (n - 2) ->
  yields (sigmoid prf colo encode k a x) (fun z => psc z = true /\ exists v, arith n z v /\
    (Rabs (real_of k v - sigma (real_of k u)) <= worst a + 6 * ulp k)%R /\
    (0 <= u -> 2 ^ (k - 1) <= v) /\ (u <= 0 -> v <= 2 ^ (k - 1))).
Proof.
  intros prf colo encode e k a x u n Hp HE Hk Hn Ha Hx Sx Hu. assert (H8 : 8 <= n) by lia. eapply y_weaken.
  - apply (sigmoid_ok prf colo Hp encode n k a x u (ex_intro _ e (conj eq_refl H8)) Hk ltac:(lia) HE Ha Hx Sx Hu).
  - intros z (Sz & v & Az & G & S1 & S2). split; [exact Sz|]. exists v. rewrite sigma_logistic. auto.
Qed.
Print Assumptions C104_sigmoid.
(** In particular at 0 the result is exactly one half. *)
Theorem C104_zero : forall prf colo encode e k a x, let n := 2 ^ Z.of_nat e in prf_words prf -> encoder k encode ->
  3 <= k -> 2 * k + 3 <= n -> a <> Unknown -> arith n x 0 -> psc x = true ->
  yields (sigmoid prf colo encode k a x) (fun z => arith n z (2 ^ (k - 1))).
Proof.
  intros prf colo encode e k a x n Hp HE Hk Hn Ha Hx Sx. eapply y_weaken.
  - apply (C104_sigmoid prf colo encode e k a x 0 Hp HE Hk Hn Ha Hx Sx). pose proof (Z.pow_nonneg 2 (n - 2)). fold n. lia.
  - intros z (_ & v & Az & _ & S1 & S2). replace (2 ^ (k - 1)) with v by lia. exact Az.
Qed.
Print Assumptions C104_zero.
(** Any other approximation is refused. *)
Theorem C104_unknown : forall prf colo encode k x, raises (sigmoid prf colo encode k Unknown x) NotImplementedError.
Proof. intros prf colo encode k x s. reflexivity. Qed.
Print Assumptions C104_unknown.

(** Cutting the constants is an encoding of the kind assumed. *)
Example C104_encoder : forall k, 1 <= k -> encoder k (cut k).
Proof.
  intros k Hk. assert (W : 2 ^ k = 2 ^ (k - 1) * 2) by (rewrite <- (Z.pow_1_r 2) at 3; rewrite <- Z.pow_add_r by lia; f_equal; lia).
  pose proof (Z.pow_pos_nonneg 2 (k - 1) ltac:(lia) ltac:(lia)) as P. split; [reflexivity|split].
  - intros [a b] H. unfold Qeq in H. cbn in H. unfold cut. cbn [Qnum Qden]. rewrite W. replace (a * (2 ^ (k - 1) * 2)) with (2 ^ (k - 1) * Z.pos b) by nia. apply Z.div_mul. discriminate.
  - intros [a b] [H _]. unfold Qle in H. cbn in H. unfold cut. cbn [Qnum Qden]. split; [apply Z.div_pos; nia|].
    pose proof (Z.div_mod (a * 2 ^ k) (Z.pos b) ltac:(discriminate)) as E. pose proof (Z.mod_pos_bound (a * 2 ^ k) (Z.pos b) eq_refl) as B.
    set (q := a * 2 ^ k / Z.pos b) in *. set (m := (a * 2 ^ k) mod Z.pos b) in *. apply (f_equal IZR) in E. rewrite plus_IZR, !mult_IZR in E.
    destruct B as [B0 B1]. apply IZR_le in B0. apply IZR_lt in B1. unfold Q2R. cbn [Qnum Qden].
    assert (K : (0 < IZR (2 ^ k))%R) by (apply IZR_lt; lia). assert (D : (0 < IZR (Z.pos b))%R) by (apply IZR_lt; reflexivity).
    replace (IZR q - IZR a * / IZR (Z.pos b) * IZR (2 ^ k))%R with (- (IZR m * / IZR (Z.pos b)))%R; [|field_simplify_eq; lra].
    assert (I : (0 < / IZR (Z.pos b))%R) by (apply Rinv_0_lt_compat; lra). assert (J : (IZR (Z.pos b) * / IZR (Z.pos b) = 1)%R) by (apply Rinv_r; lra).
    apply Rabs_le. split; nra.
Qed.
(** Shares of -0.25 and 6 with 4 fractional bits of 16, three pieces. *)
Example C104_run : map (fun v => match snd (bind (share ex_prf false Arith (FI 16) v true) (fun x => bind (sigmoid ex_prf false (cut 4) 4 Three x)
    (fun p => bind (reveal false p) (fun g => ret (vz (q0 g))))) ex_st) with Ok r => Some r | Err _ => None end) [-4; 96] = [Some 8; Some 15].
Proof. vm_compute. reflexivity. Qed.
