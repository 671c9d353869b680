(** Proofs about training steps. *)
From Coq Require Import Reals List Arith Lia Lra.
From Verif Require Import GradModel GradSpec.
Import ListNotations.
Local Open Scope R_scope.

(** ** Sums *)
Lemma sum_ext n f g : (forall i, (i < n)%nat -> f i = g i) -> sum n f = sum n g.
Proof. induction n as [|n IH]; intros H; cbn; [easy|]. rewrite IH, H by (intros; try apply H; lia). easy. Qed.
Lemma sum_zero n f : (forall i, (i < n)%nat -> f i = 0) -> sum n f = 0.
Proof. induction n as [|n IH]; intros H; cbn; [easy|]. rewrite IH, H by (intros; try apply H; lia). ring. Qed.
Lemma sum_plus n f g : sum n (fun i => f i + g i) = sum n f + sum n g.
Proof. induction n as [|n IH]; cbn; [ring|]. rewrite IH. ring. Qed.
Lemma sum_scale n c f : sum n (fun i => c * f i) = c * sum n f.
Proof. induction n as [|n IH]; cbn; [ring|]. rewrite IH. ring. Qed.
Lemma sum_scale_r n c f : sum n (fun i => f i * c) = sum n f * c.
Proof. induction n as [|n IH]; cbn; [ring|]. rewrite IH. ring. Qed.
Lemma sum_swap n m f : sum n (fun i => sum m (f i)) = sum m (fun j => sum n (fun i => f i j)).
Proof.
  induction n as [|n IH]; cbn.
  - symmetry. now apply sum_zero.
  - rewrite IH, <- sum_plus. easy.
Qed.
Lemma sum_add a b f : sum (a + b) f = sum a f + sum b (fun i => f (a + i)%nat).
Proof. induction b as [|b IH]; cbn; [rewrite Nat.add_0_r; ring|]. rewrite Nat.add_succ_r. cbn. rewrite IH. ring. Qed.
Lemma sum_grid n u f : sum (n * u) f = sum n (fun i => sum u (fun j => f (i * u + j)%nat)).
Proof. induction n as [|n IH]; [easy|]. replace (S n * u)%nat with (n * u + u)%nat by lia. rewrite sum_add, IH. easy. Qed.
Lemma sum_one n i0 f : (i0 < n)%nat -> (forall i, (i < n)%nat -> i <> i0 -> f i = 0) -> sum n f = f i0.
Proof.
  induction n as [|n IH]; intros L H; [lia|]. cbn. destruct (Nat.eq_dec i0 n) as [->|N].
  - rewrite sum_zero by (intros; apply H; lia). ring.
  - rewrite IH by (intros; try apply H; lia). rewrite (H n) by lia. ring.
Qed.
Lemma grid_div i u j : (j < u)%nat -> ((i * u + j) / u = i)%nat.
Proof. intros J. rewrite Nat.div_add_l by lia. rewrite Nat.div_small by easy. lia. Qed.
Lemma grid_mod i u j : (j < u)%nat -> ((i * u + j) mod u = j)%nat.
Proof. intros J. rewrite Nat.add_comm, Nat.mod_add by lia. now apply Nat.mod_small. Qed.

(** ** Derivatives *)
Notation D := derivable_pt_lim.
Lemma D_local f g t l (r : posreal) : (forall s, Rabs (s - t) < r -> f s = g s) -> D f t l -> D g t l.
Proof.
  intros E H e He. destruct (H e He) as [d Hd].
  assert (P : 0 < Rmin d r) by (apply Rmin_pos; [apply cond_pos|apply cond_pos]). exists (mkposreal _ P). intros h Nh Lh. cbn in Lh.
  rewrite <- !E.
  - apply Hd; [easy|]. eapply Rlt_le_trans; [exact Lh|apply Rmin_l].
  - unfold Rminus. rewrite Rplus_opp_r, Rabs_R0. apply cond_pos.
  - replace (t + h - t) with h by ring. eapply Rlt_le_trans; [exact Lh|apply Rmin_r].
Qed.
Lemma D_ext f g t l : (forall s, f s = g s) -> D f t l -> D g t l.
Proof. intros E. apply (D_local f g t l (mkposreal 1 Rlt_0_1)). intros s _. apply E. Qed.
Lemma D_const c t : D (fun _ => c) t 0. Proof. exact (derivable_pt_lim_const c t). Qed.
Lemma D_id t : D (fun s => s) t 1. Proof. exact (derivable_pt_lim_id t). Qed.
Lemma D_plus f g t a b : D f t a -> D g t b -> D (fun s => f s + g s) t (a + b).
Proof. exact (derivable_pt_lim_plus f g t a b). Qed.
Lemma D_minus f g t a b : D f t a -> D g t b -> D (fun s => f s - g s) t (a - b).
Proof. exact (derivable_pt_lim_minus f g t a b). Qed.
Lemma D_opp f t a : D f t a -> D (fun s => - f s) t (- a).
Proof. exact (derivable_pt_lim_opp f t a). Qed.
Lemma D_mult f g t a b : D f t a -> D g t b -> D (fun s => f s * g s) t (a * g t + f t * b).
Proof. exact (derivable_pt_lim_mult f g t a b). Qed.
Lemma D_comp f g t a b : D f t a -> D g (f t) b -> D (fun s => g (f s)) t (b * a).
Proof. exact (derivable_pt_lim_comp f g t a b). Qed.
Lemma D_scale c f t a : D f t a -> D (fun s => c * f s) t (c * a).
Proof. intros H. replace (c * a) with (0 * f t + c * a) by ring. apply (D_mult (fun _ => c) f t 0 a); [apply D_const|exact H]. Qed.
Lemma D_eq f t a b : a = b -> D f t a -> D f t b. Proof. now intros ->. Qed.
Lemma D_sum n (f : R -> vec) f' t : (forall i, (i < n)%nat -> D (fun s => f s i) t (f' i)) -> D (fun s => sum n (f s)) t (sum n f').
Proof.
  induction n as [|n IH]; intros H; cbn; [apply D_const|]. apply (D_plus (fun s => sum n (f s)) (fun s => f s n)); [apply IH; intros; apply H; lia|apply H; lia].
Qed.
Lemma D_near f t a : D f t a -> forall e, 0 < e -> exists r : posreal, forall s, Rabs (s - t) < r -> Rabs (f s - f t) < e.
Proof.
  intros H e He. assert (C : continuity_pt f t) by (apply derivable_continuous_pt; exists a; exact H).
  destruct (C e He) as [r [R0 R1]]. exists (mkposreal r R0). cbn. intros s L. destruct (Req_dec s t) as [->|N].
  - unfold Rminus. rewrite Rplus_opp_r, Rabs_R0. easy.
  - apply (R1 s). split; [split; [easy|congruence]|exact L].
Qed.
Lemma D_relu f t a : D f t a -> f t <> 0 -> D (fun s => Rmax (f s) 0) t (if Rle_dec 0 (f t) then a else 0).
Proof.
  intros H N. destruct (D_near f t a H (Rabs (f t)) (Rabs_pos_lt _ N)) as [r Hr]. destruct (Rle_dec 0 (f t)) as [L|L].
  - apply (D_local f _ t a r); [|easy]. intros s S. specialize (Hr s S). rewrite (Rabs_right (f t)) in Hr by lra. apply Rabs_def2 in Hr. rewrite Rmax_left; lra.
  - apply (D_local (fun _ => 0) _ t 0 r); [|apply D_const]. intros s S. specialize (Hr s S). rewrite (Rabs_left (f t)) in Hr by lra. apply Rabs_def2 in Hr. rewrite Rmax_right; lra.
Qed.
Lemma sigmoid_pos x : 0 < sigmoid x < 1.
Proof.
  unfold sigmoid. pose proof (exp_pos (- x)). split; [apply Rinv_0_lt_compat; lra|]. rewrite <- Rinv_1 at 2. apply Rinv_lt_contravar; lra.
Qed.
Lemma D_inv f t a : D f t a -> f t <> 0 -> D (fun s => / f s) t (- a / (f t * f t)).
Proof.
  intros H N. apply (D_ext (fun s => 1 / f s)); [intros s; unfold Rdiv; ring|].
  apply (D_eq _ _ ((0 * f t - a * 1) / Rsqr (f t))); [unfold Rsqr; field; easy|].
  exact (derivable_pt_lim_div (fun _ => 1) f t 0 a (D_const 1 t) H N).
Qed.
Lemma D_sigmoid f t a : D f t a -> D (fun s => sigmoid (f s)) t (sigmoid (f t) * (1 - sigmoid (f t)) * a).
Proof.
  intros H. pose proof (exp_pos (- f t)). assert (E : D (fun s => 1 + exp (- f s)) t (0 + exp (- f t) * - a)).
  { apply (D_plus (fun _ => 1) (fun s => exp (- f s))); [apply D_const|]. apply (D_comp (fun s => - f s) exp); [now apply D_opp|apply derivable_pt_lim_exp]. }
  eapply D_eq; [|apply (D_inv _ _ _ E); lra]. unfold sigmoid. field. lra.
Qed.
Lemma D_ln f t a : D f t a -> 0 < f t -> D (fun s => ln (f s)) t (/ f t * a).
Proof. intros H P. apply (D_comp f ln t a); [easy|]. now apply derivable_pt_lim_ln. Qed.

(** ** Layers *)
Lemma dot_ext n a b c d : (forall i, (i < n)%nat -> a i * b i = c i * d i) -> dot n a b = dot n c d.
Proof. intros H. now apply sum_ext. Qed.
Lemma act_sound a u N (z : R -> vec) z' : trainable a -> (a = ARelu -> forall p, (p < N)%nat -> z 0 p <> 0) -> moves N z z' ->
  exists y', moves N (fun t => activate a u (z t)) y' /\
  forall dy dz, activate_deriv a (activate a u (z 0)) dy = Ok dz -> forall p, (p < N)%nat -> dz p * z' p = dy p * y' p.
Proof.
  intros T S M. destruct T as [-> | [-> | ->]].
  - exists z'. split; [exact M|]. cbn. intros dy dz E. now injection E as ->.
  - exists (fun p => if Rle_dec 0 (z 0 p) then z' p else 0). split.
    + intros p P. cbn. apply (D_relu (fun t => z t p)); [now apply M|now apply S].
    + cbn. intros dy dz E p P. injection E as <-. specialize (S eq_refl p P). destruct (Rle_dec 0 (z 0 p)) as [L|L].
      * rewrite Rmax_left by lra. destruct (Rle_dec (z 0 p) 0); [lra|]. reflexivity.
      * rewrite Rmax_right by lra. destruct (Rle_dec 0 0); [|lra]. cbn. ring.
  - exists (fun p => sigmoid (z 0 p) * (1 - sigmoid (z 0 p)) * z' p). split.
    + intros p P. cbn. apply (D_sigmoid (fun t => z t p)). now apply M.
    + cbn. intros dy dz E p P. injection E as <-. ring.
Qed.
Lemma act_defined a y dy : trainable a -> exists dz, activate_deriv a y dy = Ok dz.
Proof. intros [-> | [-> | ->]]; eexists; reflexivity. Qed.
(** The factor left to the layer. *)
Definition factor (l : layer) (n : nat) : R := match layer_lazy l with Some true => INR n | _ => 1 end.

Lemma affine_moves m u b n (w : R -> nat -> vec) w' (x : R -> vec) x' :
  moves (m * u) (fun t => w t 0%nat) (w' 0%nat) -> (b = true -> moves u (fun t => w t 1%nat) (w' 1%nat)) -> moves (n * m) x x' ->
  moves (n * u) (fun t => affine m u b (w t) (x t)) (fun p =>
    sum m (fun k => x' ((p / u) * m + k)%nat * w 0 0%nat (k * u + p mod u)%nat + x 0 ((p / u) * m + k)%nat * w' 0%nat (k * u + p mod u)%nat) + (if b then w' 1%nat (p mod u) else 0)).
Proof.
  intros MW MB MX p P. assert (U : (u <> 0)%nat) by (intros ->; lia). assert (PU : (p mod u < u)%nat) by now apply Nat.mod_upper_bound.
  assert (PD : (p / u < n)%nat) by (apply Nat.div_lt_upper_bound; lia).
  unfold affine. apply (D_plus (fun t => sum m (fun k => x t ((p / u) * m + k)%nat * w t 0%nat (k * u + p mod u)%nat))).
  - apply (D_sum m (fun t k => x t ((p / u) * m + k)%nat * w t 0%nat (k * u + p mod u)%nat)). intros k K.
    apply (D_mult (fun t => x t ((p / u) * m + k)%nat) (fun t => w t 0%nat (k * u + p mod u)%nat)).
    + apply MX. nia.
    + apply MW. nia.
  - destruct b; [|apply D_const]. now apply MB.
Qed.
Lemma dense_adjoint m u (b : bool) n (w0 : nat -> vec) (w' : nat -> vec) (x0 x' dz : vec) :
  dot (n * u) dz (fun p => sum m (fun k => x' ((p / u) * m + k)%nat * w0 0%nat (k * u + p mod u)%nat + x0 ((p / u) * m + k)%nat * w' 0%nat (k * u + p mod u)%nat) + (if b then w' 1%nat (p mod u) else 0)) =
  dot (n * m) (fun p => sum u (fun j => dz ((p / m) * u + j)%nat * w0 0%nat ((p mod m) * u + j)%nat)) x' +
  (dot (m * u) (fun p => sum n (fun i => x0 (i * m + p / u)%nat * dz (i * u + p mod u)%nat)) (w' 0%nat) +
   (if b then dot u (fun j => sum n (fun i => dz (i * u + j)%nat)) (w' 1%nat) else 0)).
Proof.
  unfold dot. rewrite !sum_grid.
  assert (E0 : sum n (fun i => sum u (fun j => dz (i * u + j)%nat *
      (sum m (fun k => x' ((i * u + j) / u * m + k)%nat * w0 0%nat (k * u + (i * u + j) mod u)%nat + x0 ((i * u + j) / u * m + k)%nat * w' 0%nat (k * u + (i * u + j) mod u)%nat) +
       (if b then w' 1%nat ((i * u + j) mod u) else 0)))) =
    sum n (fun i => sum u (fun j => sum m (fun k => dz (i * u + j)%nat * (x' (i * m + k)%nat * w0 0%nat (k * u + j)%nat)))) +
    (sum n (fun i => sum u (fun j => sum m (fun k => dz (i * u + j)%nat * (x0 (i * m + k)%nat * w' 0%nat (k * u + j)%nat)))) +
     sum n (fun i => sum u (fun j => dz (i * u + j)%nat * (if b then w' 1%nat j else 0))))).
  { rewrite <- !sum_plus. apply sum_ext. intros i I. rewrite <- !sum_plus. apply sum_ext. intros j J. rewrite grid_div, grid_mod by easy.
    rewrite sum_plus, Rmult_plus_distr_l, Rmult_plus_distr_l, !sum_scale. ring. }
  rewrite E0. clear E0. f_equal; [|f_equal].
  - apply sum_ext. intros i I. rewrite sum_swap. apply sum_ext. intros k K. rewrite grid_div, grid_mod by easy. rewrite <- sum_scale_r. apply sum_ext. intros j J. ring.
  - transitivity (sum m (fun k => sum u (fun j => sum n (fun i => dz (i * u + j)%nat * (x0 (i * m + k)%nat * w' 0%nat (k * u + j)%nat))))).
    + rewrite (sum_ext n _ (fun i => sum m (fun k => sum u (fun j => dz (i * u + j)%nat * (x0 (i * m + k)%nat * w' 0%nat (k * u + j)%nat))))) by (intros; apply sum_swap).
      rewrite sum_swap. apply sum_ext. intros k K. apply sum_swap.
    + apply sum_ext. intros k K. apply sum_ext. intros j J. rewrite grid_div, grid_mod by easy. rewrite <- sum_scale_r. apply sum_ext. intros i I. ring.
  - destruct b.
    + rewrite sum_swap. apply sum_ext. intros j J. now rewrite <- sum_scale_r.
    + apply sum_zero. intros i I. apply sum_zero. intros j J. ring.
Qed.
Lemma layer_sound l w0 n x0 dy g dx : (0 < n)%nat -> smooth l w0 n x0 -> layer_backward l w0 n x0 (layer_call l w0 x0) dy = Ok (g, dx) ->
  forall w w' x x', w 0 = w0 -> x 0 = x0 -> wmoves l w w' -> moves (n * fin l) x x' ->
  exists y', moves (n * fout l) (fun t => layer_call l (w t) (x t)) y' /\ dot (n * fout l) dy y' = dot (n * fin l) dx x' + factor l n * wdot l g w'.
Proof.
  intros Hn S B w w' x x' <- <- MW MX. assert (NN : INR n <> 0) by (apply not_0_INR; lia). destruct l as [m u b a lazy|m a|m|first c s|m]; cbn [fin fout] in *.
  - assert (MW0 : moves (m * u) (fun t => w t 0%nat) (w' 0%nat)) by (apply (MW 0%nat); cbn; destruct b; lia).
    assert (MW1 : b = true -> moves u (fun t => w t 1%nat) (w' 1%nat)) by (intros ->; apply (MW 1%nat); cbn; lia).
    pose proof (affine_moves m u b n w w' x x' MW0 MW1 MX) as MZ.
    assert (A : exists y', moves (n * u) (fun t => layer_call (Dense m u b a lazy) (w t) (x t)) y' /\
      forall dz, (match a with ANone => Ok dy | a => activate_deriv a (layer_call (Dense m u b a lazy) (w 0) (x 0)) dy end) = Ok dz ->
      dot (n * u) dy y' = dot (n * u) dz (fun p =>
        sum m (fun k => x' ((p / u) * m + k)%nat * w 0 0%nat (k * u + p mod u)%nat + x 0 ((p / u) * m + k)%nat * w' 0%nat (k * u + p mod u)%nat) + (if b then w' 1%nat (p mod u) else 0))).
    { cbn [smooth] in S. destruct S as [->|[T S]].
      - eexists. split; [exact MZ|]. intros dz E. now injection E as ->.
      - destruct (act_sound a u (n * u) _ _ T S MZ) as (y' & My & E). exists y'. split.
        + destruct T as [-> | [-> | ->]]; exact My.
        + intros dz Hz. apply dot_ext. intros p P. symmetry. apply (E dy dz); [|exact P]. destruct T as [-> | [-> | ->]]; exact Hz. }
    destruct A as (y' & My & E). exists y'. split; [exact My|]. unfold layer_backward in B.
    destruct (match a with ANone => Ok dy | _ => activate_deriv a (layer_call (Dense m u b a lazy) (w 0) (x 0)) dy end) as [dz|]; [|discriminate].
    rewrite (E dz eq_refl). injection B as <- <-. rewrite dense_adjoint. f_equal. unfold wdot, factor, layer_lazy. cbn [nweights wsize].
    destruct lazy.
    + assert (Q : forall k f v, dot k (fun p => f p / INR n) v = / INR n * dot k f v).
      { intros k f v. unfold dot. rewrite <- sum_scale. apply sum_ext. intros i _. field. easy. }
      destruct b; cbn [sum]; rewrite ?Q; field; easy.
    + destruct b; cbn [sum]; ring.
  - destruct S as [T S]. destruct (act_sound a m (n * m) x x' T S MX) as (y' & My & E). exists y'. split; [exact My|].
    cbn [layer_backward layer_call] in B. destruct (activate_deriv a (activate a m (x 0)) dy) as [dz|] eqn:Z; [|discriminate]. injection B as <- <-.
    unfold wdot, factor. cbn [nweights sum layer_lazy]. rewrite Rmult_0_r, Rplus_0_r. apply dot_ext. intros p P. symmetry. now apply (E dy dz).
  - exists (fun p => if Rle_dec 0 (x 0 p) then x' p else 0). split.
    + intros p P. cbn. apply (D_relu (fun t => x t p)); [now apply MX|now apply S].
    + cbn [layer_backward] in B. injection B as <- <-. unfold wdot, factor. cbn [nweights sum layer_lazy]. rewrite Rmult_0_r, Rplus_0_r. apply dot_ext. intros p P.
      specialize (S p P). destruct (Rle_dec 0 (x 0 p)), (Rlt_dec 0 (x 0 p)); cbn; try ring; exfalso; lra.
  - cbn [smooth] in S. subst first. cbn [layer_backward] in B. injection B as <- <-. exists x'. split; [exact MX|]. unfold wdot, factor. cbn [nweights sum layer_lazy]. ring.
  - cbn [layer_backward] in B. injection B as <- <-. exists x'. split; [exact MX|]. unfold wdot, factor. cbn [nweights sum layer_lazy]. ring.
Qed.
Lemma layer_defined l w n x y dy : smooth l w n x -> exists g dx, layer_backward l w n x y dy = Ok (g, dx).
Proof.
  destruct l as [m u b a z|m a|m|first c s|m]; cbn; intros S; try (do 2 eexists; reflexivity).
  - destruct S as [->|[T _]]; [do 2 eexists; reflexivity|]. destruct (act_defined a y dy T) as [dz E]. destruct T as [-> | [-> | ->]]; do 2 eexists; reflexivity.
  - destruct S as [T _]. destruct (act_defined a y dy T) as [dz ->]. do 2 eexists. reflexivity.
Qed.
