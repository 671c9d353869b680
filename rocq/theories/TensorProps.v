(** Property theorems for helpers.py, fixed.py (encode/decode) and native.py. *)
From Coq Require Import QArith Qabs.
From Verif Require Import Base Factory TensorModel TensorProofs.
Local Open Scope Z_scope.

(** C01: whenever [inverse] returns, it returns the modular inverse in range, and it
    raises exactly when there is none. *)
Theorem C01_inverse_correct : forall a m, 0 <= a -> 0 < m ->
  (forall b, inverse a m = Some b -> 0 <= b < m /\ (a * b) mod m = 1 mod m) /\
  (inverse a m = None <-> Z.gcd a m <> 1).
Proof. exact (fun a m Ha Hm => conj (fun b => inverse_sound a m b Ha Hm) (inverse_none a m Ha Hm)). Qed.
Print Assumptions C01_inverse_correct.
Example C01_nonvacuous : inverse (3 ^ 8) (2 ^ 64) = Some 15297779988576995937 /\ inverse 6 (2 ^ 64) = None.
Proof. vm_compute. split; reflexivity. Qed.

(** C02: one-ulp round trip, sign and magnitude, exactness on the grid, monotonicity. *)
Theorem C02_roundtrip : forall s q, 0 < s ->
  (Qabs (decode s (encode s q) - q) < 1 / inject_Z s)%Q /\
  (Qabs (decode s (encode s q)) <= Qabs q)%Q /\
  0 <= encode s q * Qnum q.
Proof.
  exact (fun s q Hs => conj (decode_encode_err s q Hs) (conj (encode_magnitude s q Hs) (encode_sign s q Hs))).
Qed.
Print Assumptions C02_roundtrip.
Theorem C02_exact_on_grid : forall s k, 0 < s -> encode s (decode s k) = k.
Proof. exact encode_exact. Qed.
Print Assumptions C02_exact_on_grid.
Theorem C02_monotone : forall s q r, 0 < s -> (q <= r)%Q -> encode s q <= encode s r.
Proof. exact encode_mono. Qed.
Print Assumptions C02_monotone.
(** Pond's decode (shift by the single-precision bound) is the identity on every raw
    value that is not within [bound] of the top of the word. *)
Theorem C02_pond_decode_exact : forall w b z, 0 < w -> 0 <= b ->
  in_s w z -> z + b < 2 ^ (w - 1) -> pond_decode_raw w b z = z.
Proof. exact pond_decode_exact. Qed.
Print Assumptions C02_pond_decode_exact.
Example C02_nonvacuous :
  encode (2 ^ 16) (-7 # 3) = -152917 /\ encode (2 ^ 16) (7 # 3) = 152917 /\
  pond_decode_raw 64 (2 ^ 23) (-152917) = -152917.
Proof. vm_compute. repeat split; reflexivity. Qed.

(** C04: every native factory (any word size; any explicit modulus whose square fits the
    word) computes in the ring it advertises and keeps elements canonical. *)
Theorem C04_native_ring : forall c, n_ok c -> lawful (native c).
Proof. exact lawful_native. Qed.
Print Assumptions C04_native_ring.
Example C04_nonvacuous : n_ok (MkN 64 None) /\ n_ok (MkN 32 (Some 107)) /\
  n_add (MkN 64 None) (2 ^ 63 - 1) 1 = - 2 ^ 63 /\ n_sub (MkN 32 (Some 107)) 3 5 = 105.
Proof. vm_compute. repeat split; congruence. Qed.

(** C04, reductions: sums, cumulative sums, inner products and matrix products of any
    size agree with integer arithmetic modulo [2^w] and are canonical words. *)
Theorem C04_reduce_sum : forall w l, 0 < w ->
  eqm (2 ^ w) (n_reduce_sum (MkN w None) l) (zsum l) /\ in_s w (n_reduce_sum (MkN w None) l).
Proof. exact reduce_sum_native. Qed.
Print Assumptions C04_reduce_sum.
Theorem C04_reduce_sum_explicit : forall w p l, 0 < w -> 0 < p ->
  (forall x, In x l -> 0 <= x < p) -> Z.of_nat (length l) * (p - 1) < 2 ^ (w - 1) ->
  n_reduce_sum (MkN w (Some p)) l = zsum l mod p.
Proof. exact reduce_sum_prime. Qed.
Print Assumptions C04_reduce_sum_explicit.
Theorem C04_cumsum : forall w e r l i, 0 < w -> (i < length l)%nat ->
  length (n_cumsum (MkN w None) e r l) = length l /\
  eqm (2 ^ w) (nth i (n_cumsum (MkN w None) e r l) 0) (cumsum_spec e r l i).
Proof. exact (fun w e r l i Hw Hi => conj (n_cumsum_length _ e r l) (n_cumsum_nth w e r l i Hw Hi)). Qed.
Print Assumptions C04_cumsum.
Theorem C04_matmul : forall w n a b i j, 0 < w -> (i < length a)%nat -> (j < n)%nat ->
  let e := nth j (nth i (n_matmul (MkN w None) n a b) []) 0 in
  eqm (2 ^ w) e (zdot (nth i a []) (col j b)) /\ in_s w e.
Proof.
  intros w n a b i j Hw Hi Hj e. unfold e. rewrite n_matmul_entry by assumption.
  apply n_dot_native; assumption.
Qed.
Print Assumptions C04_matmul.
Theorem C04_dot_explicit : forall w p xs ys, 0 < w -> 1 < p ->
  (forall x, In x xs -> 0 <= x < p) -> (forall y, In y ys -> 0 <= y < p) ->
  Z.of_nat (length xs) * ((p - 1) * (p - 1)) < 2 ^ (w - 1) -> (p - 1) * (p - 1) < 2 ^ (w - 1) ->
  n_dot (MkN w (Some p)) xs ys = zdot xs ys mod p.
Proof. exact n_dot_prime. Qed.
Print Assumptions C04_dot_explicit.
(** Without the size bound the explicit-modulus reductions are wrong: the word wraps
    before the reduction. *)
Theorem C04_dot_explicit_unbounded_refuted : exists xs ys,
  (forall x, In x xs -> 0 <= x < 127) /\ (forall y, In y ys -> 0 <= y < 127) /\
  n_dot (MkN 16 (Some 127)) xs ys <> zdot xs ys mod 127.
Proof.
  exists [126; 126; 126], [126; 126; 126].
  assert (H : forall x, In x [126; 126; 126] -> 0 <= x < 127) by (intros x [<-|[<-|[<-|[]]]]; lia).
  split; [exact H|split; [exact H|]]. vm_compute. discriminate.
Qed.
Print Assumptions C04_dot_explicit_unbounded_refuted.
Example C04_reductions_nonvacuous :
  n_matmul (MkN 8 None) 2 [[100; 3]; [-7; 5]] [[2; 1]; [50; -1]] = [[94; 97]; [-20; -12]] /\
  n_cumsum (MkN 64 None) true true [1; 2; 3] = [5; 3; 0] /\
  n_reduce_sum (MkN 32 (Some 107)) [100; 100; 7] = 100.
Proof. vm_compute. repeat split; reflexivity. Qed.

(** C05: truncation is floor division, in both code paths. *)
Theorem C05_truncate_floor : forall w x amount base r, 0 < w -> 0 <= amount -> 0 < base -> in_s w x ->
  n_truncate (MkN w None) x amount base = Some r -> r = x / base ^ amount.
Proof. exact truncate_floor. Qed.
Print Assumptions C05_truncate_floor.
(** It is defined for every odd base and for base 2, and raises for every other even base. *)
Theorem C05_truncate_defined : forall w amount base x, 0 < w -> 0 < amount -> 0 < base ->
  ((exists r, n_truncate (MkN w None) x amount base = Some r) <-> (base = 2 \/ Z.odd base = true)).
Proof.
  intros w amount base x Hw Ha Hb. split.
  - intros [r Hr]. destruct (Z.odd base) eqn:Eo; [right; reflexivity|left].
    destruct (Z.eq_dec base 2) as [|Hn]; [assumption|].
    rewrite (truncate_even_undefined w amount base x) in Hr; try assumption; [discriminate|].
    rewrite <- Z.negb_odd, Eo. reflexivity.
  - intros [->|Ho]; [eexists; reflexivity|]. apply truncate_defined; try assumption; lia.
Qed.
Print Assumptions C05_truncate_defined.
Example C05_nonvacuous :
  n_truncate (MkN 64 None) (-100000) 8 3 = Some (-16) /\ n_truncate (MkN 64 None) (-100000) 13 2 = Some (-13).
Proof. vm_compute. split; reflexivity. Qed.

(** C06: logical shift right. *)
Theorem C06_logical_rshift : forall w x k, 0 < w -> in_s w x ->
  (k < 0 -> n_logical_rshift w x k = None) /\
  (0 <= k < w -> exists r, n_logical_rshift w x k = Some r /\ uwrap w r = uwrap w x / 2 ^ k /\ in_s w r).
Proof. exact (fun w x k Hw Hx => conj (logical_rshift_neg w x k) (fun Hk => logical_rshift_spec w x k Hw Hk Hx)). Qed.
Print Assumptions C06_logical_rshift.
Example C06_nonvacuous : n_logical_rshift 64 (-2) 1 = Some (2 ^ 63 - 1).
Proof. vm_compute. reflexivity. Qed.

(** C07: bit decomposition. *)
Theorem C07_bits : forall n x,
  length (binarize n x) = n /\ (forall b, In b (binarize n x) -> b = 0 \/ b = 1) /\
  bits_value (binarize n x) = x mod 2 ^ Z.of_nat n /\
  (forall i, (i < n)%nat -> nth i (binarize n x) 0 = Z.b2z (Z.testbit x (Z.of_nat i))).
Proof.
  exact (fun n x => conj (binarize_length n x) (conj (binarize_bits n x) (conj (binarize_value n x) (binarize_nth n x)))).
Qed.
Print Assumptions C07_bits.
Theorem C07_bits_injective : forall w x y, in_s (Z.of_nat w) x -> in_s (Z.of_nat w) y -> (0 < w)%nat ->
  n_bits (MkN (Z.of_nat w) None) w x = n_bits (MkN (Z.of_nat w) None) w y -> x = y.
Proof. exact binarize_inj. Qed.
Print Assumptions C07_bits_injective.
Example C07_nonvacuous : n_bits (MkN 8 None) 8 (-2) = [0; 1; 1; 1; 1; 1; 1; 1].
Proof. vm_compute. reflexivity. Qed.

(** C08: [zeros] is not the additive identity in any native factory: adding it changes
    every element. *)
Theorem C08_zeros_identity_refuted : forall w x, 1 < w -> in_s w x ->
  n_add (MkN w None) x n_zeros <> x.
Proof.
  intros w x Hw Hx H. unfold n_add, n_norm, n_zeros in H. cbn [nmodulus nw] in H.
  assert (E : eqm (2 ^ w) x (x + 1)) by (rewrite <- H at 1; apply swrap_eqm; lia).
  apply eqm_exists in E; [|pose proof (pow2_pos w ltac:(lia)); lia]. destruct E as [k E].
  assert (4 <= 2 ^ w) by (change 4 with (2 ^ 2); apply Z.pow_le_mono_r; lia).
  assert (k <= -1 \/ k = 0 \/ 1 <= k) as [Hk|[->|Hk]] by lia; nia.
Qed.
Print Assumptions C08_zeros_identity_refuted.
Example C08_nonvacuous : in_s 64 5 /\ n_add (MkN 64 None) 5 n_zeros = 6.
Proof. vm_compute. repeat split; congruence. Qed.

(** C18 (native half): reflected subtraction subtracts in the right order. *)
Theorem C18_native_rsub : forall w x k, 0 < w -> in_s w x ->
  eqm (2 ^ w) (n_rsub (MkN w None) x k) (k - x) /\ in_s w (n_rsub (MkN w None) x k).
Proof.
  intros w x k Hw Hx. unfold n_rsub, n_sub, n_norm, n_lift. cbn [nmodulus nw]. split.
  - rewrite !swrap_eqm by assumption. reflexivity.
  - apply swrap_range; assumption.
Qed.
Print Assumptions C18_native_rsub.
Example C18_native_nonvacuous : n_rsub (MkN 64 None) 3 1 = -2.
Proof. vm_compute. reflexivity. Qed.
