(** C108: powers and polynomials of fixed-point numbers are as accurate as the rounding of their products allows. *)
From Coq Require Import Reals Lra Psatz QArith Qreals.
From Verif Require Import Base TensorModel Aby3Model Aby3Spec Aby3Proofs Aby3Cmp Aby3NetModel Aby3NetSpec Aby3Net Aby3Props FpLogSpec SigModel SigSpec PolyModel PolySpec PolyReal PolyProofs.
Local Open Scope Z_scope.

(** A power of a number of size at most [B], with [w] the unit of the last bit, is off by at most (B + w)^i - B^i - w, whatever
    the shares and the random numbers; squares and products are all rounded. *)
Theorem C108_power : forall prf colo n k x u B i, prf_words prf -> 0 <= k -> 2 * k + 2 <= n -> 1 < n -> arith n x u -> psc x = true ->
  (1 <= B)%R -> (Rabs (real_of k u) <= B)%R -> (1 <= i)%nat -> roomy n k ((B + ulp k) ^ i) ->
  yields (pow prf colo k x (Z.of_nat i)) (fun z => psc z = true /\ exists v, arith n z v /\ (Rabs (real_of k v - real_of k u ^ i) <= power_err k B i)%R).
Proof.
  intros prf colo n k x u B i Hp Hk Hn Hn1 Hx Sx HB Hu Hi R. eapply y_weaken; [apply (pow_near prf colo Hp n k u B) with (x := x); try assumption; lia|].
  intros z (Sz & v & Az & N). rewrite Nat2Z.id in N. split; [exact Sz|]. exists v. split; [exact Az|]. exact (N R).
Qed.
Print Assumptions C108_power.
(** That is less than [i] units times the power below. *)
Theorem C108_power_small : forall k B i, 0 <= k -> (1 <= B)%R -> (1 <= i)%nat -> (0 <= power_err k B i <= INR i * ulp k * (B + ulp k) ^ (i - 1))%R.
Proof.
  intros k B i Hk HB Hi. split; [apply power_err_nonneg; assumption|]. unfold power_err. pose proof (ulp_pos k Hk) as [U _].
  assert (G : ((B + ulp k) ^ i - B ^ i <= INR i * ulp k * (B + ulp k) ^ (i - 1))%R); [|lra].
  induction Hi as [|i Hi IH]; [cbn; lra|]. rewrite S_INR, <- !tech_pow_Rmult. replace (S i - 1)%nat with (S (i - 1)) by lia.
  pose proof (pow_incr B (B + ulp k) i ltac:(lra)) as M. replace ((B + ulp k) ^ S (i - 1))%R with ((B + ulp k) ^ i)%R by (f_equal; lia).
  assert (E : ((B + ulp k) ^ i = (B + ulp k) * (B + ulp k) ^ (i - 1))%R) by (rewrite tech_pow_Rmult; f_equal; lia).
  set (P := (B ^ i)%R) in *. set (Ci := ((B + ulp k) ^ i)%R) in *. set (D := ((B + ulp k) ^ (i - 1))%R) in *.
  assert (H : (B * (Ci - P) <= B * (INR i * ulp k * D))%R) by (apply Rmult_le_compat_l; lra).
  assert (H2 : (B * (INR i * ulp k * D) <= INR i * ulp k * Ci)%R).
  { rewrite E. replace (B * (INR i * ulp k * D))%R with (INR i * ulp k * (B * D))%R by ring. apply Rmult_le_compat_l; [pose proof (pos_INR i); nra|].
    assert (0 <= D)%R by (apply pow_le; lra). nra. }
  lra.
Qed.
Print Assumptions C108_power_small.

(** A polynomial with any coefficients, on one machine: each term adds the error of its power times its coefficient and, unless
    the coefficient is a whole number, that of encoding and rounding; the constant adds that of encoding.  Coefficients 2^-e
    need [k + e] bits. *)
Theorem C108_polynomial : forall prf encode n k x u B d c cs, prf_words prf -> 0 <= k -> 2 * k + 2 <= n -> 1 < n -> arith n x u -> psc x = true ->
  (1 <= B)%R -> (Rabs (real_of k u) <= B)%R -> (0 <= d)%R -> encodes d k encode (c :: cs) ->
  (forall a e, In a cs -> 0 <= e -> Q2R a = ulp e -> k + e <= n - 2) -> roomy n k (whole_mass d k B (c :: cs)) ->
  yields (poly prf true encode k x (c :: cs)) (fun z => exists v, holds n z v /\
    (Rabs (real_of k v - value_at (c :: cs) (real_of k u)) <= whole_err whole d k B (c :: cs))%R).
Proof.
  intros prf encode n k x u B d c cs Hp Hk Hn Hn1 Hx Sx HB Hu Hd [_ HE] Hh R.
  apply (poly_near prf true Hp encode n k u B d); try assumption; [lia|reflexivity].
Qed.
Print Assumptions C108_polynomial.
(** On three machines no polynomial can be computed at all: the public sum has no device. *)
Theorem C108_remote_refuted : forall prf encode k x c cs, raises (poly prf false encode k x (c :: cs)) AssertionError.
Proof.
  intros prf encode k x c cs s. unfold poly, lifted, bind, assert_, const, lit, add_qq, op2, mk_pub, on.
  destruct (is_arith x); [|reflexivity]. cbn. destruct (psc x); reflexivity.
Qed.
Print Assumptions C108_remote_refuted.

(** Pieces, on one machine or three: the result is near the polynomial of the interval of [x], with an error and a need of
    room that depend on this polynomial alone; the others, and the powers only they need, may overflow. *)
Theorem C108_pieces : forall prf colo encode b k x u B d c coeffs j, let n := 2 ^ Z.of_nat b in prf_words prf -> 0 <= k -> 2 * k + 2 <= n -> 8 <= n ->
  arith n x u -> psc x = true -> (1 <= B)%R -> (Rabs (real_of k u) <= B)%R -> (0 <= d)%R -> Forall (encodes d k encode) coeffs ->
  (2 <= longest coeffs)%nat -> length coeffs = S (length c) -> (forall ck, In ck c -> in_s n ck /\ in_s n (ck - u)) -> (j <= length c)%nat ->
  (forall i, (i < j)%nat -> nth i c 0 < u) -> (forall i, (j <= i < length c)%nat -> u <= nth i c 0) -> roomy n k (whole_mass d k B (nth j coeffs [])) ->
  yields (pieces prf colo encode k x c coeffs) (fun z => psc z = true /\ exists v, arith n z v /\
    (Rabs (real_of k v - value_at (nth j coeffs []) (real_of k u)) <= whole_err (fun _ => false) d k B (nth j coeffs []))%R).
Proof.
  intros prf colo encode b k x u B d c coeffs j n Hp Hk Hn Hn8 Hx Sx HB Hu Hd HE HL Hlen Hc Hj Hlo Hhi R.
  apply (pieces_near prf colo Hp encode n k u B d); try assumption; try lia. exists b. split; [reflexivity|exact Hn8].
Qed.
Print Assumptions C108_pieces.

(** Cutting the constants is an encoding with an error of one unit. *)
Example C108_encodes : forall k cs, 0 <= k -> encodes (ulp k) k (cut k) cs.
Proof.
  intros k cs Hk. pose proof (Z.pow_pos_nonneg 2 k ltac:(lia) Hk) as P. split.
  - intros [a b] H. unfold Qeq in H. cbn in H. unfold cut. cbn [Qnum Qden]. replace a with 0 by lia. reflexivity.
  - intros [a b] _. unfold cut, real_of, ulp, Q2R. cbn [Qnum Qden].
    pose proof (Z.div_mod (a * 2 ^ k) (Z.pos b) ltac:(discriminate)) as E. pose proof (Z.mod_pos_bound (a * 2 ^ k) (Z.pos b) eq_refl) as [B0 B1].
    set (q := a * 2 ^ k / Z.pos b) in *. set (m := (a * 2 ^ k) mod Z.pos b) in *. apply (f_equal IZR) in E. rewrite plus_IZR, !mult_IZR in E.
    apply IZR_le in B0. apply IZR_lt in B1. assert (K : (0 < IZR (2 ^ k))%R) by (apply IZR_lt; lia). assert (D : (0 < IZR (Z.pos b))%R) by (apply IZR_lt; reflexivity).
    replace (IZR q / IZR (2 ^ k) - IZR a * / IZR (Z.pos b))%R with (- (IZR m * / IZR (Z.pos b)) * / IZR (2 ^ k))%R; [|field_simplify_eq; [lra|lra]].
    assert (I : (0 < / IZR (2 ^ k))%R) by (apply Rinv_0_lt_compat; lra).
    assert (I2 : (0 < / IZR (Z.pos b))%R) by (apply Rinv_0_lt_compat; lra). assert (J : (IZR (Z.pos b) * / IZR (Z.pos b) = 1)%R) by (apply Rinv_r; lra).
    assert (H : (0 <= IZR m * / IZR (Z.pos b) <= 1)%R) by (split; nra). apply Rabs_le. nra.
Qed.
(** Numbers up to 4 with 16 fractional bits of 64: the polynomial 1/2 + x/4 + 3x^2 - x^3/3 has room, and its error is below
    a hundred units of the last bit. *)
Definition ex_cs : list Q := [1 # 2; 1 # 4; 3 # 1; -1 # 3].
Example C108_room : roomy 64 16 (whole_mass (ulp 16) 16 4 ex_cs) /\ (whole_err whole (ulp 16) 16 4 ex_cs <= 200 * ulp 16)%R /\
  forall a e, In a ex_cs -> 0 <= e -> Q2R a = ulp e -> 16 + e <= 64 - 2.
Proof.
  assert (U : ulp 16 = (/ 65536)%R) by reflexivity. assert (Q1 : Q2R (1 # 2) = (1 / 2)%R) by (unfold Q2R; cbn; lra). assert (Q2 : Q2R (1 # 4) = (1 / 4)%R) by (unfold Q2R; cbn; lra).
  assert (Q3 : Q2R (3 # 1) = 3%R) by (unfold Q2R; cbn; lra). assert (Q4 : Q2R (-1 # 3) = (- (1 / 3))%R) by (unfold Q2R; cbn; lra).
  assert (A1 : Rabs (1 / 2) = (1 / 2)%R) by (apply Rabs_pos_eq; lra). assert (A2 : Rabs (1 / 4) = (1 / 4)%R) by (apply Rabs_pos_eq; lra).
  assert (A3 : Rabs 3 = 3%R) by (apply Rabs_pos_eq; lra). assert (A4 : Rabs (- (1 / 3)) = (1 / 3)%R) by (rewrite Rabs_Ropp; apply Rabs_pos_eq; lra).
  unfold ex_cs. split; [|split].
  - unfold roomy. change (2 ^ 16) with 65536. change (2 ^ (64 - 2)) with 4611686018427387904. cbn [whole_mass mass].
    change (Qeq_bool (1 # 4) 0) with false. change (Qeq_bool (3 # 1) 0) with false. change (Qeq_bool (-1 # 3) 0) with false. cbv iota.
    rewrite U, Q1, Q2, Q3, Q4, A1, A2, A3, A4. lra.
  - unfold whole_err, terms_err, term_err, power_err.
    change (Qeq_bool (1 # 4) 0) with false. change (Qeq_bool (3 # 1) 0) with false. change (Qeq_bool (-1 # 3) 0) with false.
    change (whole (1 # 4)) with false. change (whole (3 # 1)) with true. change (whole (-1 # 3)) with false. cbv iota.
    rewrite U, Q2, Q3, Q4, A2, A3, A4. lra.
  - intros a e I He H. assert (P : 0 < 2 ^ e) by (apply Z.pow_pos_nonneg; lia). assert (K : (0 < / IZR (2 ^ e))%R) by (apply Rinv_0_lt_compat, IZR_lt, P).
    assert (J : (IZR (2 ^ e) * / IZR (2 ^ e) = 1)%R) by (apply Rinv_r; apply IZR_lt in P; lra). unfold ulp in H.
    assert (L : (IZR (2 ^ e) <= 4)%R). { apply IZR_lt in P. destruct I as [<-|[<-|[<-|[<-|[]]]]]; rewrite ?Q1, ?Q2, ?Q3, ?Q4 in H; nra. }
    apply le_IZR in L. assert (e <= 2) by (apply (Z.pow_le_mono_r_iff 2); lia). lia.
Qed.
(** Shares of 1.5 and -2 with 4 fractional bits of 16: 1/2 + x/4 + 3x^2 - x^3/3 on one machine (-1/3 becomes -6/16), and
    pieces -x - 1 below 0 and x^2 above on three (2.25 and 1). *)
Example C108_run : map (fun v => match snd (bind (share ex_prf true Arith (FI 16) v true) (fun x => bind (poly ex_prf true (cut 4) 4 x ex_cs)
    (fun t => match t with TPriv p => bind (reveal true p) (fun g => ret (vz (q0 g))) | TPub _ => raise TypeError end)) ex_st) with Ok r => Some r | Err _ => None end) [24; -32] = [Some 102; Some 240] /\
  map (fun v => match snd (bind (share ex_prf false Arith (FI 16) v true) (fun x => bind (pieces ex_prf false (cut 4) 4 x [0] [[-1 # 1; -1 # 1]; [0; 0; 1]]%Q)
    (fun p => bind (reveal false p) (fun g => ret (vz (q0 g))))) ex_st) with Ok r => Some r | Err _ => None end) [24; -32] = [Some 36; Some 16].
Proof. vm_compute. split; reflexivity. Qed.
