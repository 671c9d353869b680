(** Theorems about ABY3's private exponentials. *)
From Coq Require Import Reals Lra Psatz.
From Verif Require Import Base TensorModel TensorProofs Aby3Model Aby3Spec Aby3Proofs Aby3Props Aby3NetModel FpModel FpSpec FpProofs FpRecip FpProps FpLogModel FpLogSpec FpLogReal FpLogProofs FpLogMain FpExpModel FpExpSpec FpExpReal FpExpProofs FpExpMain.
Open Scope Z_scope.

(** 2 to the power of [x], for every [x] below 32. *)
Theorem C92_exp2 : forall prf colo n k cs sign x v, prf_words prf -> exp_config n k -> excoeffs_for k cs -> arith n x v -> psc x = true ->
  sign_fits sign v -> exp2_domain k v ->
  yields (fp_exp2 prf colo k cs sign x) (fun z => psc z = true /\ exists r, arith n z r /\ exp_within k 16 (pow2 (real_of k v)) (real_of k r)).
Proof. intros prf colo n k cs sign x v Hp Hc Hcs Hx Sx. exact (exp2_domain_ok prf colo Hp n k Hc cs sign x v Hx Sx Hcs). Qed.
Print Assumptions C92_exp2.

(** From 32 on the exponent is taken modulo 32. *)
Theorem C92_wraps : forall prf colo n k cs sign x v, prf_words prf -> exp_config n k -> excoeffs_for k cs -> arith n x v -> psc x = true ->
  sign_fits sign v -> 0 <= v < 2 ^ (n - 2) ->
  yields (fp_exp2 prf colo k cs sign x) (fun z => exists r, arith n z r /\
    exp_within k 16 (pow2 (real_of k (v mod (32 * 2 ^ k)))) (real_of k r)).
Proof.
  intros prf colo n k cs sign x v Hp Hc Hcs Hx Sx Hs (V0 & V1).
  assert (L : k <= 32 \/ - 32 * 2 ^ k <= v) by (right; pose proof (Z.pow_nonneg 2 k ltac:(lia)); lia).
  eapply y_weaken; [exact (exp2_ok prf colo Hp n k Hc cs sign x v Hx Sx Hcs Hs V1 L)|]. intros z (_ & r & Hr & Er). exists r. split; [exact Hr|].
  destruct (Z.leb_spec 0 v); [|lia]. cbv zeta in Er. unfold exp_within. destruct (ex_facts n k Hc) as (_ & _ & _ & _ & _ & _ & _ & _ & _ & _ & _ & Hu). lra.
Qed.
Print Assumptions C92_wraps.

(** The exponential. *)
Theorem C92_exp : forall prf colo n k le cs sign x v, prf_words prf -> exp_config n k -> excoeffs_for k cs -> encodes k le (/ ln 2) -> arith n x v -> psc x = true ->
  sign_fits sign v -> exp_domain k v ->
  yields (fp_exp prf colo k le cs sign x) (fun z => psc z = true /\ exists r, arith n z r /\ natural_within k (real_of k v) (real_of k r)).
Proof. intros prf colo n k le cs sign x v Hp Hc Hcs Hle Hx Sx. exact (exp_ok prf colo Hp n k Hc le cs sign x v Hx Sx Hcs Hle). Qed.
Print Assumptions C92_exp.

(** The coefficient of the highest degree that is not below the precision is never used: with 16 fractional bits only the first
    five of the coefficients after 1 matter, although 1.551e-4 is ten units of the scale. *)
Lemma pade_pows_length prf colo k r : forall i x ps s, match snd (pade_pows prf colo k r i x ps s) with Ok qs => length qs = (length ps + r)%nat | Err _ => True end.
Proof.
  induction r as [|r IH]; intros i x ps s; cbn [pade_pows]; [cbn; lia|]. unfold bind.
  destruct (mul_pp prf colo k _ _ s) as ((s1 & e1) & [p|er]); cbn [snd]; [|exact I].
  specialize (IH (S i) x (ps ++ [p]) s1). destruct (pade_pows prf colo k r (S i) x (ps ++ [p]) s1) as ((s2 & e2) & [qs|er]); cbn [snd] in *; [|exact I].
  rewrite app_length in IH. cbn [length] in IH. lia.
Qed.
Lemma bind_agree {A B} (m : M A) (f g : A -> M B) s : (forall a, snd (m s) = Ok a -> f a = g a) -> bind m f s = bind m g s.
Proof. unfold bind. destruct (m s) as ((s1 & e1) & [a|er]); cbn [snd]; intros H; [rewrite (H a eq_refl)|]; reflexivity. Qed.
Theorem C92_top_unused : forall prf colo cs cs' x s, firstn 5 cs = firstn 5 cs' -> exp2_pade prf colo 16 cs x s = exp2_pade prf colo 16 cs' x s.
Proof.
  intros prf colo cs cs' x s H. unfold exp2_pade. change (pade_degree 16 (rev pade_coeffs)) with 6%nat. cbn [Nat.sub].
  pose proof (pade_pows_length prf colo 16 4 2 x [x] s) as L. apply bind_agree. intros ps E. rewrite E in L. cbn [length Nat.add] in L.
  assert (C : forall l : list Z, combine ps l = combine ps (firstn 5 l)).
  { clear - L. rename L into H. intros l. rewrite <- H. clear H. revert l. induction ps as [|p ps IH]; intros [|c l]; cbn [combine firstn length]; try reflexivity. f_equal. apply IH. }
  rewrite (C cs), (C cs'), H. reflexivity.
Qed.
Print Assumptions C92_top_unused.

(** The configurations shipped with the library, and the numbers of the program for the default one. *)
Definition ex_cs : list Z := [45425; 15743; 3637; 630; 87; 10; 0; 0].
Example C92_configs : exp_config 64 16 /\ exp_config 128 32.
Proof. unfold exp_config. lia. Qed.
Example C92_coeffs : excoeffs_for 16 ex_cs /\ encodes 16 94548 (/ ln 2).
Proof.
  split.
  - unfold excoeffs_for, ex_cs, published. repeat (apply Forall2_cons; [unfold encodes; change (2 ^ 16) with 65536; apply abs2; lra|]). apply Forall2_nil.
  - pose proof ln2_tight as L. assert (P : (0 < ln 2)%R) by lra. unfold encodes. change (2 ^ 16) with 65536.
    assert (IL : (1.44268 <= / ln 2 <= 1.442697)%R) by (split; apply (Rmult_le_reg_r (ln 2) _ _ P); rewrite Rinv_l by lra; lra). apply abs2. lra.
Qed.
Example C92_coeffs_exist : forall k, 0 <= k -> exists cs le, excoeffs_for k cs /\ encodes k le (/ ln 2).
Proof.
  intros k Hk. assert (H : forall r, exists z, encodes k z r).
  { intros r. exists (up (r * IZR (2 ^ k)) - 1). unfold encodes. destruct (archimed (r * IZR (2 ^ k))) as [A B]. rewrite minus_IZR. apply abs2. lra. }
  assert (G : forall rs, exists cs, Forall2 (encodes k) cs rs).
  { induction rs as [|r rs (cs & IH)]; [exists []; constructor|]. destruct (H r) as (z & Hz). exists (z :: cs). constructor; assumption. }
  destruct (G published) as (cs & Hcs), (H (/ ln 2))%R as (le & Hle). exists cs, le. split; assumption.
Qed.
Example C92_domains : exp2_domain 16 (11 * 2 ^ 16) /\ exp2_domain 16 (- 2000 * 2 ^ 16) /\ exp_domain 16 (22 * 2 ^ 16) /\ exp_domain 16 (- 2000 * 2 ^ 16).
Proof. unfold exp2_domain, exp_domain. change (2 ^ (16 - 1)) with 32768. change (2 ^ 16) with 65536. lia. Qed.
(** The programs, on concrete shares in the default configuration, as raw values: 2 to the power of 3.5 (741455 exactly)
    and the exponential of -1 (24109). *)
Definition ex_exp (f : priv -> M priv) (v : Z) : option Z :=
  match snd (bind (share ex_prf false Arith (FI 64) v true) (fun x => bind (f x) (fun p => bind (reveal false p) (fun g => ret (vz (q0 g))))) ex_st) with Ok r => Some r | Err _ => None end.
Example C92_run : map (ex_exp (fp_exp2 ex_prf false 16 ex_cs EAny)) [7 * 2 ^ 15] = [Some 741464].
Proof. vm_compute. reflexivity. Qed.
Example C92_run_exp : map (ex_exp (fp_exp ex_prf false 16 94548 ex_cs EAny)) [- 2 ^ 16] = [Some 24109].
Proof. vm_compute. reflexivity. Qed.
