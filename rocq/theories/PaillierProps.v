(** Theorems on Paillier encryption. *)
From Verif Require Import Base TensorModel TensorProofs PaillierModel PaillierSpec PaillierProofs.
From Coq Require Import Znumtheory.

(** ** C67: decryption of any computation *)
Theorem C67_keys p q : rsa p q -> exists dk, decryption_key p q = Some dk.
Proof. apply rsa_key. Qed.
Print Assumptions C67_keys.

(** Every computation on encrypted values decrypts to its value modulo n. *)
Theorem C67_computations p q dk c : prime p -> prime q -> p <> q -> decryption_key p q = Some dk -> proper (p * q) c ->
  decrypt dk (run (encryption_key (p * q)) c) = clear c mod (p * q).
Proof. intros P Q N K H. destruct (run_holds p q P Q N c H) as [u U]. eapply decrypt_holds; eassumption. Qed.
Print Assumptions C67_computations.

(** A ciphertext has one plaintext and one randomness. *)
Theorem C67_injective p q x r x' r' : rsa p q -> unit (p * q) r -> unit (p * q) r' ->
  encrypt (encryption_key (p * q)) x r = encrypt (encryption_key (p * q)) x' r' -> x mod (p * q) = x' mod (p * q) /\ r = r'.
Proof.
  intros R U U' E. destruct (rsa_key p q R) as [dk K]. destruct R as [P [Q [N [_ [Gp Gq]]]]].
  assert (A := encrypt_holds p q P Q N x r U). assert (B := encrypt_holds p q P Q N x' r' U'). rewrite E in A.
  destruct (holds_unique p q dk P Q N K _ _ _ _ _ A B) as [X Y]. split; [apply cong_eq; [nia|easy]|]. now apply (unit_eq p q).
Qed.
Print Assumptions C67_injective.

(** Which randomness allows decryption. *)
Theorem C67_randomness p q r : rsa p q -> 0 <= r < p * q ->
  ((forall x y, encrypt (encryption_key (p * q)) x r = encrypt (encryption_key (p * q)) y r -> x mod (p * q) = y mod (p * q)) <-> Z.gcd r (p * q) = 1).
Proof.
  intros R H. split.
  - intros F. destruct (Z.eq_dec (Z.gcd r (p * q)) 1) as [E|E]; [easy|]. exfalso. destruct R as [P [Q [N [_ [Gp Gq]]]]].
    destruct (bad_collision p q P Q N r ltac:(lia) E 0) as [y [Y C]]. apply Y. apply cong_of; [nia|]. now apply F.
  - intros G x y E. assert (U : unit (p * q) r) by now split. apply (C67_injective p q x r y r R U U E).
Qed.
Print Assumptions C67_randomness.

(** [gen_randomness] draws from [0, n), which holds values without an inverse: then no decryption is right. *)
Theorem C67_any_randomness_refuted p q : rsa p q ->
  exists r, 0 <= r < p * q /\ forall dec : Z -> Z, ~ forall x, 0 <= x < p * q -> dec (encrypt (encryption_key (p * q)) x r) = x.
Proof.
  intros R. exists 0. destruct R as [_ [_ [_ [_ [Gp Gq]]]]]. split; [nia|]. intros dec F.
  assert (A := F 0 ltac:(nia)). assert (B := F 1 ltac:(nia)).
  assert (E : forall x, encrypt (encryption_key (p * q)) x 0 = 0).
  { intros x. unfold encrypt, encryption_key, powm; cbn [en enn]. rewrite (Z.pow_0_l (p * q)) by nia. rewrite Z.mod_0_l by nia.
    rewrite Z.mul_0_r. apply Z.mod_0_l. nia. }
  rewrite E in A, B. lia.
Qed.
Print Assumptions C67_any_randomness_refuted.

(** ** C83: the last randomness makes the result a uniform encryption of the value *)
Theorem C83_rerandomised p q c c' : rsa p q -> proper (p * q) c -> proper (p * q) c' -> clear c mod (p * q) = clear c' mod (p * q) ->
  exists s, unit (p * q) s /\ run (encryption_key (p * q)) (last_with c s) = run (encryption_key (p * q)) c' /\
  forall t, unit (p * q) t -> run (encryption_key (p * q)) (last_with c t) = run (encryption_key (p * q)) c' -> t = s.
Proof.
  intros R H H' E. destruct (rsa_key p q R) as [dk K]. destruct R as [P [Q [N [_ [Gp Gq]]]]].
  set (ek := encryption_key (p * q)). destruct (run_holds p q P Q N c' H') as [u' U'].
  assert (G := holds_value p q P Q N _ _ _ _ U' (eq_sym E)). fold ek in G. clear U' E H' Gp Gq. revert G. generalize (run ek c'). clear c'. intros d G.
  destruct c as [x r|a b s|a k s|a s]; cbn [last_with run clear proper add mul] in *.
  - apply (refresh_onto p q dk P Q N K _ x 1 d u' (base_holds p q P Q N x) G).
  - destruct H as [A [B S]]. destruct (run_holds p q P Q N a A) as [u U]. destruct (run_holds p q P Q N b B) as [v V].
    apply (refresh_onto p q dk P Q N K _ _ _ d u' (times_holds p q P Q N _ _ _ _ _ _ U V) G).
  - destruct H as [A [B S]]. destruct (run_holds p q P Q N a A) as [u U].
    apply (refresh_onto p q dk P Q N K _ _ _ d u' (power_holds p q P Q N _ _ _ _ U B) G).
  - destruct H as [A S]. destruct (run_holds p q P Q N a A) as [u U]. apply (refresh_onto p q dk P Q N K _ _ _ d u' U G).
Qed.
Print Assumptions C83_rerandomised.

(** ** Cases *)
Ltac small_prime := split; [lia|]; intros k Hk; apply Zgcd_1_rel_prime;
  match type of Hk with _ <= _ < ?p => assert (k = 1 \/ k = 2 \/ k = 3 \/ k = 4 \/ k = 5 \/ k = 6 \/ k = 7 \/ k = 8 \/ k = 9 \/ k = 10 \/ k = 11 \/ k = 12) by lia end;
  repeat match goal with H : _ \/ _ |- _ => destruct H as [H|H] end; subst; first [reflexivity|lia].
Lemma prime_11 : prime 11.
Proof. small_prime. Qed.
Lemma prime_13 : prime 13.
Proof. small_prime. Qed.
Lemma rsa_143 : rsa 11 13.
Proof. split; [apply prime_11|]. split; [apply prime_13|]. split; [lia|]. split; [reflexivity|lia]. Qed.
(** 3 * (20 + 7) refreshed, under the key 11 * 13. *)
Definition sample : comp := Refresh (Mul (Add (Enc 20 5) (Enc 7 9) (Some 2)) 3 (Some 4)) 142.
Example sample_proper : proper (11 * 13) sample.
Proof. cbn [proper sample]. unfold unit. repeat split; try lia; reflexivity. Qed.
Example sample_run : option_map (fun dk => decrypt dk (run (encryption_key 143) sample)) (decryption_key 11 13) = Some 81.
Proof. vm_compute. reflexivity. Qed.
Example negative_plaintext : option_map (fun dk => decrypt dk (encrypt (encryption_key 143) (-5) 10)) (decryption_key 11 13) = Some 138.
Proof. vm_compute. reflexivity. Qed.
Example rerandomised_case : exists s, unit (11 * 13) s /\ run (encryption_key (11 * 13)) (last_with sample s) = encrypt (encryption_key (11 * 13)) 81 1.
Proof.
  assert (E : proper (11 * 13) (Enc 81 1)) by (split; [lia|reflexivity]).
  destruct (C83_rerandomised 11 13 sample (Enc 81 1) rsa_143 sample_proper E eq_refl) as [s [A [B _]]]. eauto.
Qed.
