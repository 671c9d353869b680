(** Proofs about Paillier encryption. *)
From Verif Require Import Base TensorModel TensorProofs PaillierModel PaillierSpec.
From Verif Require PaillierEuler.
From Coq Require Import Znumtheory.

(** ** Congruences *)
Definition cong (m a b : Z) : Prop := (m | a - b).
Lemma cong_refl m a : cong m a a.
Proof. exists 0. lia. Qed.
Lemma cong_sym m a b : cong m a b -> cong m b a.
Proof. intros [k E]. exists (- k). lia. Qed.
Lemma cong_trans m a b c : cong m a b -> cong m b c -> cong m a c.
Proof. intros [k E] [l F]. exists (k + l). lia. Qed.
Lemma cong_mul m a b c d : cong m a b -> cong m c d -> cong m (a * c) (b * d).
Proof. intros [k E] [l F]. exists (k * c + b * l). replace a with (k * m + b) by lia. replace c with (l * m + d) by lia. ring. Qed.
Lemma cong_add m a b c d : cong m a b -> cong m c d -> cong m (a + c) (b + d).
Proof. intros [k E] [l F]. exists (k + l). lia. Qed.
Lemma cong_pow m a b k : 0 <= k -> cong m a b -> cong m (a ^ k) (b ^ k).
Proof.
  intros K E. revert k K. apply natlike_ind; [rewrite !Z.pow_0_r; apply cong_refl|]. intros k K IH. rewrite !Z.pow_succ_r by easy.
  apply cong_mul; easy.
Qed.
Lemma cong_mod m a : 0 < m -> cong m (a mod m) a.
Proof. intros M. exists (- (a / m)). pose proof (Z.div_mod a m ltac:(lia)). lia. Qed.
Lemma cong_eq m a b : 0 < m -> cong m a b -> a mod m = b mod m.
Proof. intros M [k E]. replace a with (b + k * m) by lia. now rewrite Z_mod_plus_full. Qed.
Lemma cong_of m a b : 0 < m -> a mod m = b mod m -> cong m a b.
Proof. intros M E. eapply cong_trans; [apply cong_sym, cong_mod; easy|]. rewrite E. now apply cong_mod. Qed.
Lemma cong_weaken m k a b : cong (m * k) a b -> cong m a b.
Proof. intros [l E]. exists (l * k). lia. Qed.
Lemma cong_1_1 m a b : cong m a 1 -> cong m (b * a) b.
Proof. intros E. rewrite <- (Z.mul_1_r b) at 2. apply cong_mul; [apply cong_refl|easy]. Qed.

(** ** Powers near one and near a unit *)
Lemma one_pow n x k : 0 <= k -> cong (n * n) ((1 + n * x) ^ k) (1 + n * (x * k)).
Proof.
  intros K. revert k K. apply natlike_ind; [rewrite Z.pow_0_r; exists 0; lia|]. intros k K IH. rewrite Z.pow_succ_r by easy.
  eapply cong_trans; [apply cong_mul; [apply cong_refl|apply IH]|]. exists (x * x * k). ring_simplify. lia.
Qed.
Lemma shift_pow n a b k : 0 <= k -> cong (n * n) ((a + n * b) ^ (Z.succ k)) (a ^ Z.succ k + Z.succ k * n * b * a ^ k).
Proof.
  intros K. revert k K. apply natlike_ind; [exists 0; rewrite !Z.pow_1_r, Z.pow_0_r; lia|]. intros k K IH.
  rewrite (Z.pow_succ_r (a + n * b)) by lia. eapply cong_trans; [apply cong_mul; [apply cong_refl|apply IH]|].
  exists (b * b * Z.succ k * a ^ k). rewrite !(Z.pow_succ_r a) by lia. ring_simplify. nia.
Qed.
(** The nth power modulo n squared depends on the base modulo n only. *)
Lemma root_cong n a b : 0 < n -> cong n a b -> cong (n * n) (a ^ n) (b ^ n).
Proof.
  intros N [k E]. replace a with (b + n * k) by lia.
  pose proof (shift_pow n b k (n - 1) ltac:(lia)) as H. replace (Z.succ (n - 1)) with n in H by lia.
  eapply cong_trans; [apply H|]. exists (k * b ^ (n - 1)). ring.
Qed.

(** ** Keys *)
Lemma coprime_mul a b n : Z.gcd a n = 1 -> Z.gcd b n = 1 -> Z.gcd (a * b) n = 1.
Proof.
  intros A B. apply Zgcd_1_rel_prime. apply rel_prime_sym. apply rel_prime_mult; apply rel_prime_sym; now apply Zgcd_1_rel_prime.
Qed.
Lemma coprime_pow a n k : 0 <= k -> Z.gcd a n = 1 -> Z.gcd (a ^ k) n = 1.
Proof.
  intros K A. revert k K. apply natlike_ind; [apply Z.gcd_1_l|]. intros k K IH. rewrite Z.pow_succ_r by easy. now apply coprime_mul.
Qed.
Lemma not_both_prime p : 2 < p -> prime p -> prime (p + 1) -> False.
Proof.
  intros G P Q. destruct (Z.Even_or_Odd p) as [[k E]|[k E]].
  - assert (D : (2 | p)) by (exists k; lia). destruct (prime_divisors _ P _ D) as [|[|[|]]]; lia.
  - assert (D : (2 | p + 1)) by (exists (k + 1); lia). destruct (prime_divisors _ Q _ D) as [|[|[|]]]; lia.
Qed.
Lemma log2_half p q : 0 < p -> 0 < q -> Z.log2 p = Z.log2 q -> q < 2 * p.
Proof.
  intros P Q E. pose proof (Z.log2_spec p P) as [A B]. pose proof (Z.log2_spec q Q) as [C D]. rewrite E in A.
  rewrite Z.pow_succ_r in D by apply Z.log2_nonneg. lia.
Qed.
Lemma rsa_no_div p q : prime p -> prime q -> p <> q -> Z.log2 p = Z.log2 q -> 2 < p -> 2 < q -> ~ (p | (p - 1) * (q - 1)).
Proof.
  intros P Q N E Gp Gq D. destruct (prime_mult _ P _ _ D) as [F|F].
  - apply Z.divide_pos_le in F; lia.
  - destruct F as [k F]. pose proof (log2_half p q ltac:(lia) ltac:(lia) E). assert (k = 1) by nia. subst.
    apply (not_both_prime p); try easy. now replace (p + 1) with q by lia.
Qed.
Lemma rsa_coprime p q : rsa p q -> Z.gcd ((p - 1) * (q - 1)) (p * q) = 1.
Proof.
  intros [P [Q [N [E [Gp Gq]]]]]. apply Zgcd_1_rel_prime. apply rel_prime_mult; apply rel_prime_sym; apply prime_rel_prime; try easy.
  - now apply rsa_no_div.
  - rewrite Z.mul_comm. apply rsa_no_div; try easy. now intro X; apply N.
Qed.
Lemma rsa_key p q : rsa p q -> exists dk, decryption_key p q = Some dk.
Proof.
  intros R. pose proof (rsa_coprime p q R) as G. destruct R as [_ [_ [_ [_ [Gp Gq]]]]]. unfold decryption_key.
  destruct (proj2 (inverse_some_iff ((p - 1) * (q - 1)) (p * q) ltac:(nia) ltac:(nia)) G) as [a ->].
  rewrite Z.gcd_comm in G. destruct (proj2 (inverse_some_iff (p * q) ((p - 1) * (q - 1)) ltac:(nia) ltac:(nia)) G) as [b ->]. eauto.
Qed.

Section Key.
Context (p q : Z) (dk : dkey).
Hypotheses (P : prime p) (Q : prime q) (N : p <> q) (K : decryption_key p q = Some dk).
Let n := p * q.
Let order := (p - 1) * (q - 1).
Lemma p2 : 2 <= p. Proof. now apply prime_ge_2. Qed.
Lemma q2 : 2 <= q. Proof. now apply prime_ge_2. Qed.
Lemma n_big : 4 <= n. Proof. unfold n. pose proof p2. pose proof q2. nia. Qed.
Lemma order_pos : 2 <= order. Proof. unfold order. pose proof p2. pose proof q2. assert (3 <= p \/ 3 <= q) by lia. nia. Qed.
Lemma key_fields : dn dk = n /\ dnn dk = n * n /\ d1 dk = order /\ cong n (order * d2 dk) 1 /\ cong order (n * de dk) 1 /\ 0 <= de dk.
Proof.
  pose proof n_big. pose proof order_pos. unfold decryption_key in K. fold n order in K.
  destruct (inverse order n) as [a|] eqn:A; [|easy]. destruct (inverse n order) as [e|] eqn:E; [|easy]. inversion K; subst dk; cbn [dn dnn d1 d2 de].
  apply inverse_sound in A; try lia. apply inverse_sound in E; try lia.
  repeat split; try easy; try lia; apply cong_of; lia.
Qed.
Lemma euler u : 0 <= u -> Z.gcd u n = 1 -> cong (n * n) (u ^ (n * order)) 1.
Proof.
  intros U G. apply cong_of; [pose proof n_big; nia|]. unfold n, order in *. rewrite PaillierEuler.euler_nn by easy.
  symmetry. apply Z.mod_1_l. pose proof n_big as B. unfold n in B. nia.
Qed.
Lemma euler1 u : 0 <= u -> Z.gcd u n = 1 -> cong n (u ^ order) 1.
Proof.
  intros U G. apply cong_of; [pose proof n_big; nia|]. unfold n, order in *. rewrite PaillierEuler.euler_n by easy.
  symmetry. apply Z.mod_1_l. pose proof n_big as B. unfold n in B. nia.
Qed.
Let ek := encryption_key n.

(** What a ciphertext is. *)
Definition holds (c x u : Z) : Prop := 0 <= u /\ Z.gcd u n = 1 /\ c = ((1 + n * x) * u ^ n) mod (n * n).
Lemma nn_pos : 0 < n * n. Proof. pose proof n_big. nia. Qed.
Lemma n_pos : 0 < n. Proof. pose proof n_big. lia. Qed.
Lemma holds_cong c x u : holds c x u -> cong (n * n) c ((1 + n * x) * u ^ n).
Proof. intros [_ [_ ->]]. apply cong_mod, nn_pos. Qed.
Lemma holds_range c x u : holds c x u -> 0 <= c < n * n.
Proof. intros [_ [_ ->]]. apply Z.mod_pos_bound, nn_pos. Qed.
Lemma encrypt_holds x r : unit n r -> holds (encrypt ek x r) x r.
Proof.
  intros [R G]. split; [lia|]. split; [easy|]. unfold encrypt, ek, encryption_key, powm; cbn [en enn]. apply cong_eq; [apply nn_pos|].
  apply cong_mul; [|apply cong_mod, nn_pos]. apply cong_add; [apply cong_refl|apply cong_mod, nn_pos].
Qed.
Lemma base_holds x : holds (1 + (n * x) mod (n * n)) x 1.
Proof.
  pose proof n_big as B. pose proof nn_pos as NN. split; [lia|]. split; [apply Z.gcd_1_l|]. rewrite Z.pow_1_l, Z.mul_1_r by lia.
  rewrite <- (Z.mod_small (1 + (n * x) mod (n * n)) (n * n)).
  - apply cong_eq; [easy|]. apply cong_add; [apply cong_refl|now apply cong_mod].
  - rewrite Zmult_mod_distr_l in *. pose proof (Z.mod_pos_bound x n ltac:(lia)) as M. clear - M B. generalize dependent (x mod n). intros; nia.
Qed.
Lemma holds_value c x y u : holds c x u -> x mod n = y mod n -> holds c y u.
Proof.
  intros [A [B C]] X. split; [easy|]. split; [easy|]. rewrite C. apply cong_eq; [apply nn_pos|]. apply cong_mul; [|apply cong_refl].
  apply cong_of in X; [|apply n_pos]. destruct X as [k X]. exists k. clear - X. replace x with (y + k * n) by lia. ring.
Qed.
Lemma refresh_holds c x u s : holds c x u -> unit n s -> holds (refresh ek c s) x (u * s).
Proof.
  intros H [S G]. split; [|split]. 1: destruct H; nia. 1: apply coprime_mul; [apply H|easy]. unfold refresh, ek, encryption_key, powm; cbn [en enn].
  apply cong_eq; [apply nn_pos|]. rewrite Z.pow_mul_l, Z.mul_assoc. apply cong_mul; [now apply holds_cong|apply cong_mod, nn_pos].
Qed.
Lemma times_holds c x u c' x' u' : holds c x u -> holds c' x' u' -> holds ((c * c') mod (n * n)) (x + x') (u * u').
Proof.
  intros H H'. split; [destruct H, H'; nia|]. split; [apply coprime_mul; [apply H|apply H']|]. apply cong_eq; [apply nn_pos|].
  eapply cong_trans; [apply cong_mul; eapply holds_cong; eassumption|]. rewrite Z.pow_mul_l.
  replace ((1 + n * x) * u ^ n * ((1 + n * x') * u' ^ n)) with ((1 + n * x) * (1 + n * x') * (u ^ n * u' ^ n)) by ring.
  apply cong_mul; [|apply cong_refl]. exists (x * x'). ring.
Qed.
Lemma power_holds c x u k : holds c x u -> 0 <= k -> holds (c ^ k mod (n * n)) (x * k) (u ^ k).
Proof.
  intros H L. split; [apply Z.pow_nonneg, H|]. split; [apply coprime_pow; [easy|apply H]|]. apply cong_eq; [apply nn_pos|].
  eapply cong_trans; [apply cong_pow; [easy|apply holds_cong, H]|]. rewrite Z.pow_mul_l, <- !Z.pow_mul_r by (pose proof n_big; lia).
  rewrite (Z.mul_comm n k). apply cong_mul; [now apply one_pow|apply cong_refl].
Qed.
Lemma add_holds c x u c' x' u' s : holds c x u -> holds c' x' u' -> match s with None => True | Some s => unit n s end ->
  exists v, holds (add ek c c' s) (x + x') v.
Proof.
  intros H H' S. pose proof (times_holds _ _ _ _ _ _ H H'). unfold add. destruct s as [s|]; [|eauto]. eexists. apply refresh_holds; eassumption.
Qed.
Lemma mul_holds c x u k s : holds c x u -> 0 <= k -> match s with None => True | Some s => unit n s end ->
  exists v, holds (mul ek c k s) (x * k) v.
Proof.
  intros H L S. pose proof (power_holds _ _ _ _ H L). unfold mul. destruct s as [s|]; [|eauto]. eexists. apply refresh_holds; eassumption.
Qed.
Lemma run_holds c : proper n c -> exists u, holds (run ek c) (clear c) u.
Proof.
  induction c as [x r|a IHa b IHb s|a IHa k s|a IHa s]; cbn.
  - intros H. eexists. now apply encrypt_holds.
  - intros [A [B S]]. destruct (IHa A), (IHb B). eapply add_holds; eassumption.
  - intros [A [B S]]. destruct (IHa A). eapply mul_holds; eassumption.
  - intros [A S]. destruct (IHa A). eexists. eapply refresh_holds; eassumption.
Qed.
Lemma decrypt_holds c x u : holds c x u -> decrypt dk c = x mod n.
Proof.
  intros H. destruct key_fields as [F1 [F2 [F3 [F4 _]]]]. unfold decrypt, powm. rewrite F1, F2, F3.
  pose proof n_big. pose proof order_pos.
  assert (E : c ^ order mod (n * n) = 1 + n * ((x * order) mod n)).
  { pose proof (Z.mod_pos_bound (x * order) n ltac:(lia)).
    rewrite <- (Z.mod_small (1 + n * ((x * order) mod n)) (n * n)) by nia. apply cong_eq; [apply nn_pos|].
    eapply cong_trans; [apply cong_pow; [lia|apply holds_cong, H]|]. rewrite Z.pow_mul_l, <- Z.pow_mul_r by lia.
    eapply cong_trans; [apply cong_1_1, euler; apply H|]. eapply cong_trans; [apply one_pow; lia|].
    apply cong_add; [apply cong_refl|]. destruct (cong_mod n (x * order) ltac:(lia)) as [j J]. exists (- j). nia. }
  rewrite E. replace (1 + n * ((x * order) mod n) - 1) with ((x * order mod n) * n) by ring. rewrite Z.div_mul by lia.
  apply cong_eq; [lia|]. eapply cong_trans; [apply cong_mul; [apply cong_mod; lia|apply cong_refl]|].
  rewrite <- Z.mul_assoc. now apply cong_1_1.
Qed.
(** The randomness of a ciphertext. *)
Lemma holds_root c x u : holds c x u -> cong n (c ^ de dk) u.
Proof.
  intros H. destruct key_fields as [_ [_ [_ [_ [[k F] D]]]]]. pose proof n_big. pose proof order_pos.
  assert (C : cong n c (u ^ n)).
  { eapply cong_trans; [eapply cong_weaken, holds_cong, H|]. exists (x * u ^ n). ring. }
  eapply cong_trans; [apply cong_pow; [easy|apply C]|]. rewrite <- Z.pow_mul_r by lia.
  assert (0 <= k) by nia. replace (n * de dk) with (1 + order * k) by lia. rewrite Z.pow_add_r, Z.pow_1_r, Z.pow_mul_r by nia.
  apply cong_1_1. eapply cong_trans; [apply cong_pow; [easy|apply euler1; apply H]|]. rewrite Z.pow_1_l by easy. apply cong_refl.
Qed.
Lemma holds_unique c x u x' u' : holds c x u -> holds c x' u' -> cong n x x' /\ cong n u u'.
Proof.
  intros H H'. split.
  - apply cong_of; [apply n_pos|]. now rewrite <- (decrypt_holds _ _ _ H), <- (decrypt_holds _ _ _ H').
  - eapply cong_trans; [apply cong_sym, (holds_root _ _ _ H)|]. apply (holds_root _ _ _ H').
Qed.
Lemma holds_cong_eq c x u c' x' u' : holds c x u -> holds c' x' u' -> cong n x x' -> cong n u u' -> c = c'.
Proof.
  intros H H' X U. destruct H as [_ [_ ->]], H' as [_ [_ ->]]. apply cong_eq; [apply nn_pos|]. apply cong_mul.
  - destruct X as [k X]. exists k. nia.
  - apply root_cong; [apply n_pos|easy].
Qed.
Lemma gcd_mod u : Z.gcd u n = 1 -> unit n (u mod n).
Proof.
  intros G. pose proof n_big. split; [apply Z.mod_pos_bound; lia|]. rewrite Z.gcd_mod by lia. now rewrite Z.gcd_comm.
Qed.
Lemma unit_div u v : Z.gcd u n = 1 -> Z.gcd v n = 1 -> exists s, unit n s /\ cong n (u * s) v.
Proof.
  intros U V. pose proof n_big. destruct (Z.gcd_bezout u n 1 U) as [a [b E]].
  assert (A : Z.gcd a n = 1).
  { apply Zgcd_1_rel_prime. apply bezout_rel_prime. apply Bezout_intro with u b. lia. }
  exists ((a * v) mod n). split; [apply gcd_mod; now apply coprime_mul|].
  eapply cong_trans; [apply cong_mul; [apply cong_refl|apply cong_mod; lia]|]. exists (- b * v).
  transitivity (v * (a * u + b * n) - v * (b * n) - v); [ring|]. rewrite E. ring.
Qed.
Lemma unit_eq a b : unit n a -> unit n b -> cong n a b -> a = b.
Proof. intros [A _] [B _] C. apply cong_eq in C; [|lia]. now rewrite !Z.mod_small in C by lia. Qed.
Lemma cancel u a b : Z.gcd u n = 1 -> cong n (u * a) (u * b) -> cong n a b.
Proof.
  intros U C. unfold cong in *. rewrite <- Z.mul_sub_distr_l in C. apply Z.gauss with u; [easy|]. now rewrite Z.gcd_comm.
Qed.
(** A refreshed ciphertext can be any ciphertext of its value, each for one randomness. *)
Lemma refresh_onto c x u c' u' : holds c x u -> holds c' x u' -> exists s, unit n s /\ refresh ek c s = c' /\ forall t, unit n t -> refresh ek c t = c' -> t = s.
Proof.
  intros H H'. destruct (unit_div u u' ltac:(apply H) ltac:(apply H')) as [s [S E]]. exists s.
  assert (X : refresh ek c s = c').
  { eapply holds_cong_eq; [now apply refresh_holds with (x := x) (u := u)|apply H'|apply cong_refl|easy]. }
  split; [easy|]. split; [easy|]. intros t T F. apply unit_eq; try easy. apply cancel with u; [apply H|].
  assert (A := refresh_holds c x u t H T). assert (B := refresh_holds c x u s H S). rewrite F in A. rewrite X in B.
  eapply holds_unique; eassumption.
Qed.
(** Randomness that has no inverse. *)
Lemma bad_root r : 0 <= r -> Z.gcd r n <> 1 -> exists d, (d = p \/ d = q) /\ (d | r).
Proof.
  intros R G. pose proof n_big. destruct (Zdivide_dec p r) as [D|D]; [eauto|]. destruct (Zdivide_dec q r) as [E|E]; [eauto|].
  exfalso. apply G. unfold n. apply Zgcd_1_rel_prime. apply rel_prime_mult; apply rel_prime_sym; now apply prime_rel_prime.
Qed.
Lemma bad_collision r : 0 <= r -> Z.gcd r n <> 1 -> forall x, exists y, ~ cong n x y /\ encrypt ek x r = encrypt ek y r.
Proof.
  intros R G x. pose proof n_big. pose proof p2. pose proof q2. destruct (bad_root r R G) as [d [D [k E]]].
  assert (exists f, n = d * f /\ 2 <= f < n /\ 2 <= d) as [f [F [L D2]]].
  { unfold n in *. destruct D as [-> | ->]; [exists q|exists p]; nia. }
  exists (x + f). split.
  - intros C. apply cong_sym in C. destruct C as [j C]. assert (X : f = j * n) by lia. clear - L H X. destruct (Z.le_gt_cases j 0); nia.
  - unfold encrypt, ek, encryption_key, powm; cbn [en enn].
    assert (A : cong (n * n) ((1 + n * x) * r ^ n) ((1 + n * (x + f)) * r ^ n)).
    { exists (- (k * r ^ (n - 1))). replace (r ^ n) with (r * r ^ (n - 1)) by (rewrite <- Z.pow_succ_r by lia; f_equal; lia).
      set (w := r ^ (n - 1)). replace (n * n) with (n * (d * f)) by (rewrite <- F; reflexivity). rewrite E. ring. }
    assert (B : forall z, cong (n * n) ((1 + (n * z) mod (n * n)) * (r ^ n mod (n * n))) ((1 + n * z) * r ^ n)).
    { intros z. apply cong_mul; [|apply cong_mod, nn_pos]. apply cong_add; [apply cong_refl|apply cong_mod, nn_pos]. }
    apply cong_eq; [apply nn_pos|]. eapply cong_trans; [apply B|]. eapply cong_trans; [apply A|]. apply cong_sym, B.
Qed.
End Key.
