(** Theorems about ABY3's private inverse square root. *)
From Coq Require Import Reals Lra Psatz.
From Verif Require Import Base TensorModel TensorProofs Aby3Model Aby3Spec Aby3Proofs Aby3Props FpModel FpSpec FpProofs FpRecip FpProps FpLogModel FpLogSpec FpLogReal FpLogProofs FpLogMain FpSqrtModel FpSqrtSpec FpSqrtProofs FpSqrtMain.
Open Scope Z_scope.

(** Every positive value of the advertised range and beyond: below 2^(n/2 - 2) as a real number. *)
Theorem C91_inv_sqrt : forall prf colo n k c x v precision, prf_words prf -> sqrt_config n k -> arith n x v -> psc x = true -> 0 < v < 2 ^ (n / 2 + k - 2) ->
  sqcoeffs_for n k c ->
  yields (inv_sqrt prf colo k c x precision) (fun z => exists r, arith n z r /\
    inv_sqrt_within k (match precision with O => 0.0076 | S _ => 0.0001 end) (real_of k v) (real_of k r)).
Proof. intros prf colo n k c x v r Hp Hc. exact (inv_sqrt_ok prf colo Hp n k Hc c x v r). Qed.
Print Assumptions C91_inv_sqrt.

(** Zero has no inverse square root; the program returns zero. *)
Theorem C91_zero : forall prf colo n k c x precision, prf_words prf -> sqrt_config n k -> arith n x 0 -> psc x = true ->
  yields (inv_sqrt prf colo k c x precision) (fun z => arith n z 0).
Proof. intros prf colo n k c x r Hp Hc. exact (inv_sqrt_zero prf colo Hp n k Hc c x r). Qed.
Print Assumptions C91_zero.

(** The configurations shipped with the library, and the numbers of the program for 64-bit words. *)
Example C91_configs : sqrt_config 64 16 /\ sqrt_config 128 32.
Proof. unfold sqrt_config. lia. Qed.
Example C91_coeffs : sqcoeffs_for 64 16 (MkSq 314435 389395 208765 (-27146) 92682).
Proof.
  unfold sqcoeffs_for. cbn [sq2 sq1 sq0 sqd sqy]. change (2 ^ ((2 * 16 - 64 / 2) / 2)) with 1. unfold encodes. change (2 ^ 16) with 65536.
  assert (Q : (1.41421 <= sqrt 2 <= 1.41422)%R).
  { assert (E : (sqrt 2 * sqrt 2 = 2)%R) by (apply sqrt_sqrt; lra). pose proof (sqrt_lt_R0 2 ltac:(lra)) as P. split; apply Rnot_lt_le; intros X; nra. }
  repeat split; apply abs2; lra.
Qed.
Example C91_coeffs_exist : forall n k, 0 <= k -> exists c, sqcoeffs_for n k c.
Proof.
  intros n k Hk. assert (H : forall r, exists z, encodes k z r).
  { intros r. exists (up (r * IZR (2 ^ k)) - 1). unfold encodes. destruct (archimed (r * IZR (2 ^ k))) as [A B]. rewrite minus_IZR. apply abs2. lra. }
  set (e := IZR (2 ^ ((2 * k - n / 2) / 2))).
  destruct (H 4.7979%R) as (c2 & H2), (H 5.9417%R) as (c1 & H1), (H 3.1855%R) as (c0 & H0), (H (e - e * sqrt 2))%R as (d & Hd), (H (e * sqrt 2))%R as (y & Hy).
  exists (MkSq c2 c1 c0 d y). split; [exact H2|]. split; [exact H1|]. split; [exact H0|]. split; [exact Hd|exact Hy].
Qed.
(** The program, on concrete shares in the default configuration: 1 / sqrt of 10.0, as a raw value. *)
Example C91_run : map (fun v => match snd (bind (share ex_prf false Arith (FI 64) v true) (fun x => bind (inv_sqrt ex_prf false 16 (MkSq 314435 389395 208765 (-27146) 92682) x 1)
    (fun p => bind (reveal false p) (fun g => ret (vz (q0 g))))) ex_st) with Ok r => Some r | Err _ => None end) [10 * 2 ^ 16]
  = [Some 20725].
Proof. vm_compute. reflexivity. Qed.
