(** Euler's theorem for the square of a product of two primes, transported from mathcomp to [Z]. *)
From Coq Require Import ZArith Znumtheory Lia.
Set Warnings "-notation-overridden".
From mathcomp Require Import ssreflect ssrfun ssrbool eqtype ssrnat div prime cyclic.
Open Scope Z_scope.

Lemma of_mul a b : Z.of_nat (a * b)%N = Z.of_nat a * Z.of_nat b.
Proof. by rewrite -multE; lia. Qed.
Lemma of_exp a b : Z.of_nat (expn a b) = Z.of_nat a ^ Z.of_nat b.
Proof.
  elim: b => [|b IH]; first by rewrite expn0.
  rewrite expnS of_mul IH Nat2Z.inj_succ Z.pow_succ_r; lia.
Qed.
Lemma of_add a b : Z.of_nat (a + b)%N = Z.of_nat a + Z.of_nat b.
Proof. by rewrite -plusE; lia. Qed.
Lemma of_lt a b : (a < b)%N -> Z.of_nat a < Z.of_nat b.
Proof. move/ltP. lia. Qed.
Lemma of_mod a m : (0 < m)%N -> Z.of_nat (modn a m) = Z.of_nat a mod Z.of_nat m.
Proof.
  move=> M. have E := divn_eq a m. have L := of_lt _ _ (ltn_pmod a M).
  apply: (Z.mod_unique_pos _ _ (Z.of_nat (divn a m))); first lia.
  rewrite {1}E of_add of_mul. lia.
Qed.
Lemma of_dvd a b : dvdn a b <-> (Z.of_nat a | Z.of_nat b).
Proof.
  split.
  - move/dvdnP => [k ->]. exists (Z.of_nat k). by rewrite of_mul.
  - move=> [k E]. apply/dvdnP. case: (Z_le_gt_dec 0 k) => K.
    + exists (Z.to_nat k). apply: Nat2Z.inj. rewrite of_mul Z2Nat.id; lia.
    + exists 0%N. rewrite mul0n. apply: Nat2Z.inj. nia.
Qed.
Lemma of_prime p : Znumtheory.prime p -> prime (Z.to_nat p).
Proof.
  move=> P. have G := prime_ge_2 _ P. apply/primeP. split; first by apply/ltP; lia.
  move=> d /of_dvd. rewrite Z2Nat.id; last lia. move=> D. apply/orP.
  case: (prime_divisors _ P _ D) => [|[|[|]]] E; try lia.
  - left. apply/eqP. lia.
  - right. apply/eqP. lia.
Qed.
Lemma of_coprime p r : Znumtheory.prime p -> ~ (p | Z.of_nat r) -> coprime r (Z.to_nat p).
Proof.
  move=> P D. rewrite coprime_sym prime_coprime; last exact: of_prime. apply/negP. move/of_dvd.
  rewrite Z2Nat.id //. have := prime_ge_2 _ P. lia.
Qed.

Section TwoPrimes.
Context (p q : Z) (P : Znumtheory.prime p) (Q : Znumtheory.prime q) (N : p <> q).
Let p' := Z.to_nat p.
Let q' := Z.to_nat q.
Lemma p_id : Z.of_nat p' = p.
Proof. have G := prime_ge_2 _ P. rewrite /p' Z2Nat.id //. move: G; clear; lia. Qed.
Lemma q_id : Z.of_nat q' = q.
Proof. have G := prime_ge_2 _ Q. rewrite /q' Z2Nat.id //. move: G; clear; lia. Qed.
Lemma pq_coprime : coprime p' q'.
Proof.
  apply: of_coprime => // D. rewrite p_id in D. have G := prime_ge_2 _ Q. have G' := prime_ge_2 _ P. case: (prime_divisors _ P _ D) => [|[|[|]]] E; move: N G G' E; clear; lia.
Qed.
Lemma of_pred : (0 < p')%N -> Z.of_nat p'.-1 = p - 1.
Proof. move/ltP => H. have := p_id. lia. Qed.
Lemma of_pred' : (0 < q')%N -> Z.of_nat q'.-1 = q - 1.
Proof. move/ltP => H. have := q_id. lia. Qed.
Lemma not_div r : 0 <= r -> Z.gcd r (p * q) = 1 -> coprime (Z.to_nat r) p' && coprime (Z.to_nat r) q'.
Proof.
  move=> R G. apply/andP. split; apply: of_coprime => //; rewrite Z2Nat.id //.
  - move=> D. have X : (p | 1) by rewrite -G; apply: Z.gcd_greatest => //; exists q; ring.
    apply Z.divide_1_r in X. have := prime_ge_2 _ P. lia.
  - move=> D. have X : (q | 1) by rewrite -G; apply: Z.gcd_greatest => //; exists p; ring.
    apply Z.divide_1_r in X. have := prime_ge_2 _ Q. lia.
Qed.
(** Euler modulo n and modulo n squared. *)
Lemma euler_n r : 0 <= r -> Z.gcd r (p * q) = 1 -> r ^ ((p - 1) * (q - 1)) mod (p * q) = 1.
Proof.
  move=> R G. have /andP [C D] := not_div r R G.
  have Pp := prime_gt0 (of_prime _ P). have Pq := prime_gt0 (of_prime _ Q). have M : (0 < p' * q')%N by rewrite muln_gt0 Pp Pq.
  have C' : coprime (Z.to_nat r) (p' * q') by rewrite coprimeMr C D.
  have E := Euler_exp_totient C'. rewrite (totient_coprime pq_coprime) (totient_prime (of_prime _ P)) (totient_prime (of_prime _ Q)) in E.
  have := f_equal Z.of_nat E. rewrite !of_mod // of_exp !of_mul (of_pred Pp) (of_pred' Pq) p_id q_id Z2Nat.id // => ->.
  rewrite Z.mod_1_l //. have := prime_ge_2 _ P. have := prime_ge_2 _ Q. nia.
Qed.
Lemma euler_nn r : 0 <= r -> Z.gcd r (p * q) = 1 -> r ^ (p * q * ((p - 1) * (q - 1))) mod (p * q * (p * q)) = 1.
Proof.
  move=> R G. have /andP [C D] := not_div r R G.
  have Pp := prime_gt0 (of_prime _ P). have Pq := prime_gt0 (of_prime _ Q). have M : (0 < (p' ^ 2) * (q' ^ 2))%N by rewrite muln_gt0 !expn_gt0 Pp Pq.
  have C' : coprime (Z.to_nat r) ((p' ^ 2) * (q' ^ 2)) by rewrite coprimeMr !coprimeXr.
  have E := Euler_exp_totient C'. rewrite totient_coprime in E; last by rewrite coprimeXl // coprimeXr // pq_coprime.
  rewrite (totient_pfactor (of_prime _ P)) // (totient_pfactor (of_prime _ Q)) // in E.
  have := f_equal Z.of_nat E. rewrite !of_mod // of_exp !of_mul !of_exp (of_pred Pp) (of_pred' Pq) p_id q_id Z2Nat.id //.
  have -> : Z.of_nat 2.-1 = 1 by []. rewrite !Z.pow_1_r.
  have -> : p * p * (q * q) = p * q * (p * q) by ring.
  have -> : (p - 1) * p * ((q - 1) * q) = p * q * ((p - 1) * (q - 1)) by ring.
  move=> ->. rewrite Z.mod_1_l //. have := prime_ge_2 _ P. have := prime_ge_2 _ Q. nia.
Qed.
End TwoPrimes.
