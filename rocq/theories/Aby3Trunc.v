(** Truncation in ABY3: exact results of the secureq8, heuristic, local and cheetah methods. *)
From Verif Require Import Base TensorModel TensorProofs Aby3Model Aby3Spec Aby3Bits Aby3Proofs.
From Coq Require Import ZifyBool.

(** * Word facts *)

Lemma land_high x k : 0 <= k -> Z.land x (- 2 ^ k) = x / 2 ^ k * 2 ^ k.
Proof.
  intros Hk. replace (- 2 ^ k) with (Z.shiftl (-1) k) by (rewrite Z.shiftl_mul_pow2 by lia; lia).
  rewrite <- Z.shiftr_div_pow2, <- Z.shiftl_mul_pow2 by lia.
  apply Z.bits_inj'. intros i Hi. rewrite Z.land_spec, !Z.shiftl_spec by lia.
  destruct (Z.lt_ge_cases i k).
  - rewrite !(Z.testbit_neg_r _ (i - k)) by lia. apply Bool.andb_false_r.
  - rewrite Z.bits_m1 by lia. rewrite Z.shiftr_spec by lia.
    replace (i - k + k) with i by lia. apply Bool.andb_true_r.
Qed.
Lemma land_low x k : 0 <= k -> Z.land x (2 ^ k - 1) = x mod 2 ^ k.
Proof. intros Hk. rewrite <- Z.land_ones by lia. f_equal. rewrite Z.ones_equiv. lia. Qed.
Lemma msb_mask_val n : 0 < n -> swrap n (Z.shiftl 1 (n - 1)) = - 2 ^ (n - 1).
Proof.
  intros Hn. rewrite Z.shiftl_1_l. apply (in_s_eqm_eq n); [lia|apply swrap_range; lia| |].
  - unfold in_s. pose proof (pow2_pos (n - 1)). lia.
  - rewrite (swrap_eqm n) by lia. apply eqm_exists; [pose proof (pow2_pos n); lia|]. exists 1.
    rewrite (pow2_half n) by lia. lia.
Qed.
Lemma wshr_val n k x : 0 < n -> 0 < k < n -> wshr (FI n) k x = (x mod 2 ^ n) / 2 ^ k.
Proof.
  intros Hn Hk. unfold wshr. destruct (Z.eqb_spec k 0); [lia|]. cbn [fbits].
  rewrite land_ones_mask by lia. rewrite Z.land_ones by lia. rewrite Z.shiftr_div_pow2 by lia.
  apply mod_div_pow; lia.
Qed.
Lemma wshr_eqm n k x : 0 < n -> 0 <= k < n -> eqm (2 ^ n) (wshr (FI n) k x) ((x mod 2 ^ n) / 2 ^ k).
Proof.
  intros Hn Hk. destruct (Z.eq_dec k 0) as [->|Hne].
  - cbn. rewrite Z.div_1_r. symmetry. apply eqm_mod_l.
  - rewrite wshr_val by lia. reflexivity.
Qed.
Lemma wshr_range n k x : 0 < n -> 0 <= k < n -> in_s n x -> in_s n (wshr (FI n) k x).
Proof.
  intros Hn Hk Hx. destruct (Z.eq_dec k 0) as [->|Hne]; [exact Hx|].
  rewrite wshr_val by lia. pose proof (Z.mod_pos_bound x (2 ^ n)). pose proof (pow2_pos n).
  unfold in_s. pose proof (pow2_pos (n - 1)). pose proof (pow2_half n).
  split; [pose proof (Z.div_pos (x mod 2 ^ n) (2 ^ k)); pose proof (pow2_pos k); lia|].
  apply Z.div_lt_upper_bound; [pose proof (pow2_pos k); lia|].
  assert (2 <= 2 ^ k). { replace k with ((k - 1) + 1) by lia. rewrite pow2_split by lia. pose proof (pow2_pos (k - 1)). lia. }
  nia.
Qed.

(** Sign bit and magnitude of a word. *)
Lemma word_split n x : 0 < n -> in_s n x -> exists m x', (m = 0 \/ m = 1) /\ 0 <= x' < 2 ^ (n - 1) /\
  x = x' - m * 2 ^ (n - 1) /\ x' = x mod 2 ^ (n - 1) /\ x mod 2 ^ n = x' + m * 2 ^ (n - 1) /\ (m = 1 <-> x < 0) /\
  Z.land x (- 2 ^ (n - 1)) = - m * 2 ^ (n - 1).
Proof.
  intros Hn [Hl Hh]. set (H := 2 ^ (n - 1)) in *. assert (0 < H) by (apply pow2_pos; lia).
  assert (E : 2 ^ n = 2 * H) by (apply pow2_half; lia).
  assert (Hm : x mod H = if x <? 0 then x + H else x).
  { destruct (Z.ltb_spec x 0); [|apply Z.mod_small; lia].
    rewrite <- (Z.mod_add x 1 H) by lia. rewrite Z.mul_1_l. apply Z.mod_small. lia. }
  assert (Hd : x / H = if x <? 0 then -1 else 0).
  { pose proof (Z.div_mod x H). rewrite Hm in *. destruct (x <? 0); nia. }
  assert (Hu : x mod 2 ^ n = if x <? 0 then x + 2 * H else x).
  { rewrite E. destruct (Z.ltb_spec x 0); [|apply Z.mod_small; lia].
    rewrite <- (Z.mod_add x 1 (2 * H)) by lia. rewrite Z.mul_1_l. apply Z.mod_small. lia. }
  exists (if x <? 0 then 1 else 0), (x mod H). rewrite Hu. unfold H at 11. rewrite land_high by lia. fold H. rewrite Hd, Hm.
  destruct (Z.ltb_spec x 0); repeat split; lia.
Qed.

Lemma floor_add a b F : 0 < F -> (a + b) / F = a / F + b / F + (if F <=? a mod F + b mod F then 1 else 0).
Proof.
  intros HF. pose proof (Z.div_mod a F). pose proof (Z.div_mod b F).
  pose proof (Z.mod_pos_bound a F). pose proof (Z.mod_pos_bound b F).
  assert (E : a + b = (a mod F + b mod F) + (a / F + b / F) * F) by lia.
  rewrite E, Z.div_add by lia. destruct (Z.leb_spec F (a mod F + b mod F)).
  - replace (a mod F + b mod F) with ((a mod F + b mod F - F) + 1 * F) by lia.
    rewrite Z.div_add, Z.div_small by lia. lia.
  - rewrite Z.div_small by lia. lia.
Qed.

(** The value computed by the two parties of secureq8. *)
Definition sq8_val (n f X r C : Z) : Z :=
  let K := 2 ^ (n - f - 1) in
  (C / 2 ^ f) mod K
  - (wshr (FI n) f r - wshr (FI n) f (Z.land r (- 2 ^ (n - 1))))
  + (if Z.land C (- 2 ^ (n - 1)) =? 0 then (if Z.land r (- 2 ^ (n - 1)) =? 0 then 0 else 1)
     else 1 - (if Z.land r (- 2 ^ (n - 1)) =? 0 then 0 else 1)) * K.

(** Rounding bit and failure bit of secureq8 for value [X] and mask [r]. *)
Definition sq8_e (f X r : Z) : Z := if 2 ^ f <=? X mod 2 ^ f + r mod 2 ^ f then 1 else 0.
Definition sq8_g (n X r : Z) : Z :=
  if (X <? 0) && (X mod 2 ^ (n - 1) + r mod 2 ^ (n - 1) <? 2 ^ (n - 1)) then 1 else 0.

Lemma sq8_math n f X r C : 1 < n -> 0 <= f < n -> in_s n X -> in_s n r -> C = swrap n (X + r) ->
  eqm (2 ^ n) (sq8_val n f X r C) (X / 2 ^ f + sq8_e f X r + sq8_g n X r * 2 ^ (n - f)).
Proof.
  intros Hn Hf HX Hr HC.
  assert (HCr : in_s n C) by (subst C; apply swrap_range; lia).
  destruct (word_split n X ltac:(lia) HX) as (mx & X' & Hmx & HX' & EX & EX' & _ & Sx & _).
  destruct (word_split n r ltac:(lia) Hr) as (m & R' & Hm & HR' & ER & ER' & EU & Sr & Lr).
  destruct (word_split n C ltac:(lia) HCr) as (mc & U' & Hmc & HU' & EC & EU' & _ & Sc & Lc).
  assert (He : eqm (2 ^ n) C (X + r)) by (subst C; apply swrap_eqm; lia).
  apply eqm_exists in He; [|pose proof (pow2_pos n); lia]. destruct He as [q Hq].
  assert (E2 : 2 ^ n = 2 * 2 ^ (n - 1)) by (apply pow2_half; lia). rewrite E2 in Hq.
  set (H := 2 ^ (n - 1)) in *. assert (HH : 0 < H) by (apply pow2_pos; lia).
  unfold sq8_val, sq8_g. cbv zeta. fold H. rewrite Lr, Lc.
  set (F := 2 ^ f) in *. assert (HF : 0 < F) by (apply pow2_pos; lia).
  set (K := 2 ^ (n - f - 1)) in *. assert (HK : 0 < K) by (apply pow2_pos; lia).
  assert (EH : H = F * K). { unfold H, F, K. rewrite <- pow2_split by lia. f_equal. lia. }
  assert (E3 : 2 ^ (n - f) = 2 * K). { unfold K. rewrite <- (pow2_half (n - f)) by lia. reflexivity. }
  rewrite E3. rewrite <- EX', <- ER'.
  rewrite !(wshr_eqm n) by lia. fold F. rewrite EU, E2.
  replace ((- m * H) mod (2 * H)) with (m * H).
  2:{ apply (Z.mod_unique _ _ (- m)); destruct Hm as [-> | ->]; lia. }
  replace ((R' + m * H) / F) with (R' / F + m * K) by (rewrite EH, <- Z.div_add by lia; f_equal; lia).
  replace (m * H / F) with (m * K) by (rewrite EH; symmetry; replace (m * (F * K)) with (m * K * F) by ring; apply Z.div_mul; lia).
  replace ((C / F) mod K) with (U' / F).
  2:{ rewrite EC. replace (U' - mc * H) with (U' + (- mc * K) * F) by (rewrite EH; ring).
      rewrite Z.div_add by lia. rewrite Z.mod_add by lia. symmetry. apply Z.mod_small.
      clear - HU' HF EH. split; [apply Z.div_pos; lia|apply Z.div_lt_upper_bound; lia]. }
  replace (if - m * H =? 0 then 0 else 1) with m by (destruct Hm as [-> | ->]; [reflexivity|destruct (Z.eqb_spec (- (1) * H) 0); lia]).
  set (k := if X' + R' <? H then 0 else 1).
  assert (HUk : U' = X' + R' - k * H).
  { clear - Hq EX ER EC HX' HR' HU' HH. assert (Et : U' = X' + R' + (mc - mx - m + 2 * q) * H) by lia.
    generalize dependent (mc - mx - m + 2 * q). intros t Et. unfold k. clear - Et HX' HR' HU' HH.
    assert (t <= -2 \/ t = -1 \/ t = 0 \/ 1 <= t) as [Ht|[->|[->|Ht]]] by lia; destruct (Z.ltb_spec (X' + R') H); nia. }
  assert (Hpar : mc = mx + m - k - 2 * q).
  { clear - HUk Hq EX ER EC HH. assert (Et : (mc - (mx + m - k - 2 * q)) * H = 0) by lia. apply Z.mul_eq_0_l in Et; lia. }
  unfold sq8_e. fold F.
  replace (X mod F) with (X' mod F).
  2:{ rewrite EX, EH. replace (X' - mx * (F * K)) with (X' + (- mx * K) * F) by ring. rewrite Z.mod_add; lia. }
  replace (r mod F) with (R' mod F).
  2:{ rewrite ER, EH. replace (R' - m * (F * K)) with (R' + (- m * K) * F) by ring. rewrite Z.mod_add; lia. }
  assert (EXF : X / F = X' / F - mx * K).
  { rewrite EX, EH. replace (X' - mx * (F * K)) with (X' + (- mx * K) * F) by ring. rewrite Z.div_add by lia. ring. }
  assert (EUF : U' / F = X' / F + R' / F + (if F <=? X' mod F + R' mod F then 1 else 0) - k * K).
  { rewrite HUk, EH. replace (X' + R' - k * (F * K)) with (X' + R' + (- k * K) * F) by ring.
    rewrite Z.div_add by lia. rewrite floor_add by lia. ring. }
  set (e := if F <=? X' mod F + R' mod F then 1 else 0) in *.
  assert (Hg : (if (X <? 0) && (X' + R' <? H) then 1 else 0) = mx * (1 - k)).
  { unfold k. clear - Sx Hmx. destruct (Z.ltb_spec X 0); destruct (X' + R' <? H); cbn; destruct Hmx as [-> | ->]; lia. }
  rewrite Hg, EXF, EUF.
  assert (Hk : k = 0 \/ k = 1) by (unfold k; destruct (X' + R' <? H); auto).
  clearbody k e. apply eqm_eq.
  assert (HB : (if - mc * H =? 0 then m else 1 - m) = mx + k - 2 * mx * k).
  { clear - Hpar HH Hmc Hm Hmx Hk. destruct (Z.eqb_spec (- mc * H) 0); destruct Hmc as [-> | ->]; destruct Hm as [-> | ->];
    destruct Hmx as [-> | ->]; destruct Hk as [-> | ->]; try lia. }
  rewrite HB. destruct Hmx as [-> | ->]; destruct Hk as [-> | ->]; ring.
Qed.

Lemma sq8_sum n A rc1 sv b0 b1 D : 0 < n ->
  eqm (2 ^ n) (wadd (FI n) (wsub (FI n) A rc1) (wmul (FI n) b0 (fcast (FI n) D)) +
               wadd (FI n) (wneg (FI n) (wsub (FI n) sv rc1)) (wmul (FI n) b1 (fcast (FI n) D)))
              (A - sv + (b0 + b1) * D).
Proof.
  intros Hn. unfold wadd, wsub, wmul, wneg; cbn [fcast].
  unw n Hn. apply eqm_eq; ring.
Qed.

(** The second share computed by secureq8 from shares [a], [b], [c] and the random words. *)
Definition sq8_y1 (n amount a b c r rc0 rc1 rc2 rc3 rd : Z) : Z :=
  let f := FI n in
  let mm := fcast f (Z.shiftl 1 (n - 1)) in
  let dm := Z.shiftl 1 (n - amount - 1) - 1 in
  let h := Z.land r mm in
  let sv := wsub f (wshr f amount r) (wshr f amount h) in
  let rm := fcast f (fcast FB h) in
  let C := wadd f (wadd f (wadd f a b) rc0) (wadd f c (wsub f r rc0)) in
  let cm := fcast FB (Z.land C mm) in
  let b0 := if cm =? 0 then rc2 else wsub f 1 rc2 in
  let b1 := if cm =? 0 then wsub f rm rc2 else wneg f (wsub f rm rc2) in
  let yp0 := wadd f (wsub f (Z.land (wsar amount C) dm) rc1) (wmul f b0 (fcast f (dm + 1))) in
  let yp1 := wadd f (wneg f (wsub f sv rc1)) (wmul f b1 (fcast f (dm + 1))) in
  wadd f (wsub f yp0 rc3) (wsub f yp1 rd).

Lemma sq8_y1_ok n amount a b c X r rc0 rc1 rc2 rc3 rd : 1 < n -> 0 <= amount < n -> in_s n X -> in_s n r ->
  eqm (2 ^ n) (a + b + c) X ->
  eqm (2 ^ n) (rc3 + sq8_y1 n amount a b c r rc0 rc1 rc2 rc3 rd + rd)
    (X / 2 ^ amount + sq8_e amount X r + sq8_g n X r * 2 ^ (n - amount)).
Proof.
  intros Hn Hf HX Hr He. assert (Hn0 : 0 < n) by lia. unfold sq8_y1. cbv zeta.
  remember (wadd (FI n) (wadd (FI n) (wadd (FI n) a b) rc0) (wadd (FI n) c (wsub (FI n) r rc0))) as C eqn:HC.
  assert (EC : C = swrap n (X + r)).
  { rewrite HC. unfold wadd, wsub; cbn [fcast]. apply (in_s_eqm_eq n); try (apply swrap_range; lia); [lia|].
    unw n Hn0. rewrite <- He. apply eqm_eq. ring. }
  clear HC He. rewrite <- (sq8_math n amount X r C Hn Hf HX Hr EC). clear EC HX Hr a b c.
  cbn [fcast]. rewrite msb_mask_val by lia. rewrite Z.shiftl_1_l.
  assert (E0 : forall u v, eqm (2 ^ n) (rc3 + wadd (FI n) (wsub (FI n) u rc3) (wsub (FI n) v rd) + rd) (u + v)).
  { intros u v. unfold wadd, wsub; cbn [fcast]. unw n Hn0. apply eqm_eq. ring. }
  rewrite E0. clear E0 rc3 rd.
  pose proof (sq8_sum n (Z.land (wsar amount C) (2 ^ (n - amount - 1) - 1)) rc1
    (wsub (FI n) (wshr (FI n) amount r) (wshr (FI n) amount (Z.land r (- 2 ^ (n - 1)))))) as E1.
  specialize (E1 (if (if Z.land C (- 2 ^ (n - 1)) =? 0 then 0 else 1) =? 0 then rc2 else wsub (FI n) 1 rc2)).
  cbn [fcast] in E1. rewrite E1 by exact Hn0. clear E1.
  unfold sq8_val. cbv zeta. unfold wsar. rewrite Z.shiftr_div_pow2, land_low by lia.
  replace (2 ^ (n - amount - 1) - 1 + 1) with (2 ^ (n - amount - 1)) by lia.
  generalize ((C / 2 ^ amount) mod 2 ^ (n - amount - 1)). intros c'.
  unfold wsub, wneg; cbn [fcast].
  generalize (wshr (FI n) amount r), (wshr (FI n) amount (Z.land r (- 2 ^ (n - 1)))). intros wr wh.
  generalize (Z.land r (- 2 ^ (n - 1)) =? 0), (Z.land C (- 2 ^ (n - 1)) =? 0). intros t1 t2.
  generalize (2 ^ (n - amount - 1)). intros K.
  destruct t1, t2; cbn [Z.eqb]; unw n Hn0; apply eqm_eq; ring.
Qed.

Section Trunc.
Context (prf : fac -> key -> Z -> nat -> Z) (colo : bool) (Hprf : prf_words prf).

(** The mask server 2 draws for a truncation started in state [s]. *)
Definition sq8_mask (n : Z) (s : state) : Z := prf (FI n) (KL S2 (nl s)) 0 0.

Lemma secureq8_run n amount sc a b c s :
  snd (truncate_secureq8 prf colo amount (mk3 Arith (FI n) sc a b c) s) =
  Ok (mk3 Arith (FI n) sc (prf (FI n) (KP 0) (nonce 2 s) 3%nat)
    (sq8_y1 n amount a b c (sq8_mask n s) (prf (FI n) (KP 0) (nonce 2 s) 0%nat) (prf (FI n) (KP 0) (nonce 2 s) 1%nat)
      (prf (FI n) (KP 0) (nonce 2 s) 2%nat) (prf (FI n) (KP 0) (nonce 2 s) 3%nat) (prf (FI n) (KP 2) (nonce 1 s) 0%nat))
    (prf (FI n) (KP 2) (nonce 1 s) 0%nat)).
Proof. unfold sq8_y1, sq8_mask. cbv zeta. destruct colo; reflexivity. Qed.

Lemma secureq8_at n amount x X s : 1 < n -> 0 <= amount < n -> arith n x X ->
  exists z, snd (truncate_secureq8 prf colo amount x s) = Ok z /\ psc z = psc x /\
    arith n z (swrap n (X / 2 ^ amount + sq8_e amount X (sq8_mask n s) + sq8_g n X (sq8_mask n s) * 2 ^ (n - amount))).
Proof.
  intros Hn Hf Hx. assert (Hn0 : 0 < n) by lia.
  destruct (arith_inv _ _ _ Hx) as (a & b & c & Ex & Ha & Hb & Hc & HX & He).
  rewrite Ex, secureq8_run. eexists. split; [reflexivity|]. split; [reflexivity|].
  apply arith_mk; try (apply (prf_in prf); [exact Hn0|exact Hprf]); try (apply swrap_range; exact Hn0).
  assert (Hp : forall k c l, in_s n (prf (FI n) k c l)) by (intros; apply prf_in; assumption).
  rewrite (sq8_y1_ok n amount a b c X) by (try assumption; apply Hp).
  symmetry. apply swrap_eqm, Hn0.
Qed.
Lemma secureq8_ok n amount x X : 1 < n -> 0 <= amount < n -> arith n x X -> 0 <= X ->
  yields (truncate_secureq8 prf colo amount x)
    (fun z => psc z = psc x /\ exists e, (e = 0 \/ e = 1) /\ arith n z (swrap n (X / 2 ^ amount + e))).
Proof.
  intros Hn Hf Hx HX s. destruct (secureq8_at n amount x X s Hn Hf Hx) as (z & Ez & Hs & Hz).
  exists z. split; [exact Ez|]. split; [exact Hs|]. exists (sq8_e amount X (sq8_mask n s)).
  split. { unfold sq8_e. destruct (_ <=? _); auto. }
  replace (sq8_g n X (sq8_mask n s)) with 0 in Hz by (unfold sq8_g; destruct (Z.ltb_spec X 0); [lia|reflexivity]).
  rewrite Z.mul_0_l, Z.add_0_r in Hz. exact Hz.
Qed.

(** ** The signed wrapper *)

Lemma const_run f v sc s : exists l, const colo f v sc s = (s, l, Ok (mkq f sc (fcast f v))).
Proof. destruct colo; eexists; reflexivity. Qed.
Lemma add_pq_run n sc a b c v s : exists l,
  add_pq colo (mk3 Arith (FI n) sc a b c) (mkq (FI n) sc v) s = (s, l, Ok (mk3 Arith (FI n) sc (swrap n (a + v)) b c)).
Proof. destruct colo, sc; eexists; reflexivity. Qed.
Lemma at_bind {A B} (m : M A) (k : A -> M B) s s1 l1 a (P : B -> Prop) :
  m s = (s1, l1, Ok a) -> (exists b, snd (k a s1) = Ok b /\ P b) -> exists b, snd (bind m k s) = Ok b /\ P b.
Proof.
  intros Em (b & Eb & HP). unfold bind. rewrite Em. destruct (k a s1) as [[s2 l2] r]. cbn in *. eauto.
Qed.
Lemma at_bind' {A B} (m : M A) (k : A -> M B) s (P : A -> Prop) (Q : B -> Prop) :
  (exists a, snd (m s) = Ok a /\ P a) -> (forall a, P a -> yields (k a) Q) -> exists b, snd (bind m k s) = Ok b /\ Q b.
Proof.
  intros (a & Ea & HP) Hk. unfold bind. destruct (m s) as [[s1 l1] r]. cbn in Ea. subst r.
  destruct (Hk a HP s1) as (b & Eb & HQ). destruct (k a s1) as [[s2 l2] r]. cbn in *. eauto.
Qed.

Lemma pow_in_s n k : 0 <= k < n - 1 -> in_s n (2 ^ k).
Proof.
  intros Hk. unfold in_s. pose proof (pow2_pos k). split; [pose proof (pow2_pos (n - 1)); lia|].
  apply Z.pow_lt_mono_r; lia.
Qed.

Lemma heuristic_at n scale amount x X s : 1 < n -> 0 <= scale -> 0 <= amount ->
  (if psc x then scale else 0) + amount <= n - 2 -> arith n x X ->
  let Y := swrap n (X + 2 ^ (n - 2)) in let r := sq8_mask n s in
  exists z, snd (truncate_heuristic prf colo scale amount x s) = Ok z /\ psc z = psc x /\
    arith n z (swrap n (Y / 2 ^ amount + sq8_e amount Y r + sq8_g n Y r * 2 ^ (n - amount) - 2 ^ (n - 2 - amount))).
Proof.
  intros Hn Hs Ha Hb Hx Y r. assert (Hn0 : 0 < n) by lia.
  destruct (arith_inv _ _ _ Hx) as (a & b & c & Ex & Haa & Hbb & Hcc & HX & He).
  unfold truncate_heuristic. cbv zeta. assert (Hpf : pfc x = FI n) by apply Hx. rewrite Hpf. cbn [fbits].
  set (sc := if psc x then scale else 0) in *. assert (0 <= sc) by (unfold sc; destruct (psc x); lia).
  destruct (Z.ltb_spec (n - 2 - sc) 0); [lia|]. destruct (Z.ltb_spec (n - 2 - (sc + amount)) 0); [lia|].
  replace (2 ^ (n - 2 - sc) * 2 ^ sc) with (2 ^ (n - 2)) by (rewrite <- pow2_split by lia; f_equal; lia).
  replace (2 ^ (n - 2 - (sc + amount)) * 2 ^ sc) with (2 ^ (n - 2 - amount)) by (rewrite <- pow2_split by lia; f_equal; lia).
  assert (W1 : in_s n (2 ^ (n - 2))) by (apply pow_in_s; lia).
  assert (W2 : in_s n (2 ^ (n - 2 - amount))) by (apply pow_in_s; lia).
  destruct (const_run (FI n) (2 ^ (n - 2)) (psc x) s) as [l1 E1].
  eapply at_bind; [exact E1|]. cbn [fcast]. rewrite swrap_id by assumption.
  destruct (add_pq_run n (psc x) a b c (2 ^ (n - 2)) s) as [l2 E2]. rewrite <- Ex in E2.
  eapply at_bind; [exact E2|].
  set (y := mk3 Arith (FI n) (psc x) (swrap n (a + 2 ^ (n - 2))) b c).
  assert (Hy : arith n y Y).
  { apply arith_mk; try assumption; try (apply swrap_range; exact Hn0). unfold Y. unw n Hn0. rewrite <- He. apply eqm_eq. ring. }
  eapply at_bind'.
  { destruct (secureq8_at n amount y Y s Hn ltac:(lia) Hy) as (z & Ez & Hsz & Hz). exists z. split; [exact Ez|].
    exact (conj Hsz Hz). }
  intros z (Hsz & Hz). apply y_const. cbn [fcast]. rewrite swrap_id by assumption.
  apply y_weaken with (1 := sub_pq_ok colo n z (mkq (FI n) (psc x) (2 ^ (n - 2 - amount))) _ _ Hn0 Hz
    (public_mk (FI n) (psc x) (2 ^ (n - 2 - amount)) W2) (eq_sym Hsz)).
  intros w (Hw & Hsw). split; [rewrite Hsw, Hsz; reflexivity|].
  fold r in Hw.
  match type of Hw with arith _ _ (swrap n (swrap n ?u - ?v)) => replace (swrap n (u - v)) with (swrap n (swrap n u - v)); [exact Hw|] end.
  apply eqm_swrap_eq; [exact Hn0|]. unw n Hn0. reflexivity.
Qed.
Lemma heuristic_ok n scale amount x X : 1 < n -> 0 <= scale -> 0 <= amount ->
  (if psc x then scale else 0) + amount <= n - 2 -> arith n x X -> - 2 ^ (n - 2) <= X < 2 ^ (n - 2) ->
  yields (truncate_heuristic prf colo scale amount x)
    (fun z => psc z = psc x /\ exists e, (e = 0 \/ e = 1) /\ arith n z (X / 2 ^ amount + e)).
Proof.
  intros Hn Hs Ha Hb Hx HX s.
  destruct (heuristic_at n scale amount x X s Hn Hs Ha Hb Hx) as (z & Ez & Hsz & Hz). cbv zeta in Hz.
  exists z. split; [exact Ez|]. split; [exact Hsz|].
  assert (0 <= (if psc x then scale else 0)) by (destruct (psc x); lia).
  assert (EY : swrap n (X + 2 ^ (n - 2)) = X + 2 ^ (n - 2)).
  { apply swrap_id; [lia|]. unfold in_s. replace (2 ^ (n - 1)) with (2 * 2 ^ (n - 2)) by (rewrite (pow2_half (n - 1)) by lia; do 2 f_equal; lia). lia. }
  rewrite EY in Hz.
  set (r := sq8_mask n s) in *.
  exists (sq8_e amount (X + 2 ^ (n - 2)) r).
  split. { unfold sq8_e. destruct (_ <=? _); auto. }
  replace (sq8_g n (X + 2 ^ (n - 2)) r) with 0 in Hz by (unfold sq8_g; destruct (Z.ltb_spec (X + 2 ^ (n - 2)) 0); [lia|reflexivity]).
  replace (2 ^ (n - 2)) with (2 ^ (n - 2 - amount) * 2 ^ amount) in Hz at 1 by (rewrite <- pow2_split by lia; f_equal; lia).
  rewrite Z.div_add in Hz by (pose proof (pow2_pos amount); lia).
  set (e := sq8_e amount (X + 2 ^ (n - 2)) r) in *.
  replace (X / 2 ^ amount + 2 ^ (n - 2 - amount) + e + 0 * 2 ^ (n - amount) - 2 ^ (n - 2 - amount)) with (X / 2 ^ amount + e) in Hz by ring.
  rewrite swrap_id in Hz; [exact Hz|lia|].
  assert (He : e = 0 \/ e = 1) by (unfold e, sq8_e; destruct (_ <=? _); auto).
  unfold in_s. assert (E1 : 2 ^ (n - 1) = 2 * 2 ^ (n - 2)) by (rewrite (pow2_half (n - 1)) by lia; do 2 f_equal; lia).
  pose proof (pow2_pos amount ltac:(lia)) as Hp. pose proof (pow2_pos (n - 2) ltac:(lia)) as Hp2.
  assert (X / 2 ^ amount < 2 ^ (n - 2)). { apply Z.div_lt_upper_bound; nia. }
  assert (- 2 ^ (n - 2) <= X / 2 ^ amount). { apply Z.div_le_lower_bound; nia. }
  lia.
Qed.
Lemma mul_pp_fixed_ok n scale x y u v : 1 < n -> 0 <= scale -> scale + scale <= n - 2 ->
  arith n x u -> arith n y v -> psc x = true -> psc y = true -> - 2 ^ (n - 2) <= u * v < 2 ^ (n - 2) ->
  yields (mul_pp prf colo scale x y)
    (fun z => psc z = true /\ exists e, (e = 0 \/ e = 1) /\ arith n z (u * v / 2 ^ scale + e)).
Proof.
  intros Hn Hs Hb Hx Hy Sx Sy Huv. unfold mul_pp.
  apply (y_bind _ _ _ _ (mul_raw_ok prf colo Hprf n x y u v ltac:(lia) Hx Hy)).
  intros z (Hz & Sz). rewrite Sx, Sy in *. cbn in Sz |- *.
  assert (E1 : 2 ^ (n - 1) = 2 * 2 ^ (n - 2)) by (rewrite (pow2_half (n - 1)) by lia; do 2 f_equal; lia).
  rewrite swrap_id in Hz; [|lia|unfold in_s; lia].
  apply y_weaken with (1 := heuristic_ok n scale scale z (u * v) Hn Hs Hs ltac:(rewrite Sz; exact Hb) Hz Huv).
  intros w (Sw & Hw). split; [congruence|exact Hw].
Qed.

(** ** Local truncation *)

Lemma truncate_local_ok n amount x X : 0 < n -> 0 <= amount <= n -> arith n x X -> colo = true ->
  yields (truncate_local prf colo amount x) (fun z => psc z = psc x /\ exists e g,
    (e = 0 \/ e = 1) /\ (g = -1 \/ g = 0 \/ g = 1) /\
    vz (p00 x) + swrap n (vz (p10 x) + vz (p20 x)) = X + g * 2 ^ n /\
    arith_vals n z (swrap n (X / 2 ^ amount - e + g * 2 ^ (n - amount)))).
Proof.
  intros Hn Hf Hx Hco. destruct (arith_inv _ _ _ Hx) as (a & b & c & Ex & Ha & Hb & Hc & HX & He).
  rewrite Ex. unfold truncate_local. cbv zeta. cbn [pfc mk3 p00 p10 p11 p20 psc pty].
  apply y_get. intros s. do 6 ystep. apply y_up.
  unfold mk_priv, on. rewrite Hco. cbn [orb andb]. apply y_ret. split; [reflexivity|].
  set (t := swrap n (b + c)). assert (Ht : in_s n t) by (apply swrap_range, Hn).
  assert (Hw : exists g, (g = -1 \/ g = 0 \/ g = 1) /\ a + t = X + g * 2 ^ n).
  { assert (Em : eqm (2 ^ n) (a + t) X) by (unfold t; unw n Hn; rewrite <- He; apply eqm_eq; ring).
    apply eqm_exists in Em; [|pose proof (pow2_pos n); lia]. destruct Em as [g Eg]. exists g. split; [|exact Eg].
    unfold in_s in *. pose proof (pow2_half n Hn). pose proof (pow2_pos (n - 1)). nia. }
  destruct Hw as (g & Hg & Eg).
  exists (if 2 ^ amount <=? a mod 2 ^ amount + t mod 2 ^ amount then 1 else 0), g.
  split; [destruct (_ <=? _); auto|]. split; [exact Hg|]. split; [exact Eg|].
  assert (HF : 0 < 2 ^ amount) by (apply pow2_pos; lia).
  assert (E1 : X / 2 ^ amount + g * 2 ^ (n - amount) = (a + t) / 2 ^ amount).
  { rewrite Eg. replace (g * 2 ^ n) with (g * 2 ^ (n - amount) * 2 ^ amount).
    - rewrite Z.div_add by lia. ring.
    - rewrite <- Z.mul_assoc, <- pow2_split by lia. do 2 f_equal. lia. }
  rewrite (floor_add a t) in E1 by exact HF.
  unfold arith_vals, replicated; cbn [p00 p01 p10 p11 p20 p21 vz pty pfc].
  split; [reflexivity|]. split; [reflexivity|]. split; [auto|].
  split; [apply in_s_shiftr; [lia|lia|exact Ha]|]. split; [apply swrap_range, Hn|]. split; [apply Hprf, Hn|]. split; [apply swrap_range, Hn|].
  change (eqm (2 ^ n) (wsar amount a + wsub (FI n) (wsar amount (wadd (FI n) b c)) (prf (FI n) (KP 2) (nonce 1 s) 0%nat) + prf (FI n) (KP 2) (nonce 1 s) 0%nat)
    (swrap n (X / 2 ^ amount - (if 2 ^ amount <=? a mod 2 ^ amount + t mod 2 ^ amount then 1 else 0) + g * 2 ^ (n - amount)))).
  unfold wsub, wadd, wsar; cbn [fcast]. fold t. rewrite !Z.shiftr_div_pow2 by lia. unw n Hn. apply eqm_eq. lia.
Qed.
Lemma truncate_local_remote amount x : colo = false -> raises (truncate_local prf colo amount x) AssertionError.
Proof. intros -> s. unfold truncate_local. cbv zeta. reflexivity. Qed.

(** ** Cheetah truncation *)

Lemma msb_bit n v : 1 < n -> in_s n v -> fcast FB (wshr (FI n) (n - 1) v) = if v <? 0 then 1 else 0.
Proof.
  intros Hn Hv. rewrite wshr_val by lia.
  destruct (word_split n v ltac:(lia) Hv) as (m & v' & Hm & Hv' & _ & _ & -> & Hs & _).
  rewrite Z.div_add by (pose proof (pow2_pos (n - 1)); lia). rewrite Z.div_small by lia.
  destruct (Z.ltb_spec v 0); destruct Hm as [-> | ->]; try lia; reflexivity.
Qed.
Lemma truncate_cheetah_ok n amount x X : 1 < n -> 0 < amount < n -> arith n x X -> 0 <= X -> colo = true ->
  yields (truncate_cheetah prf colo amount x) (fun z => psc z = psc x /\ exists e,
    (e = 0 \/ e = 1) /\ arith_vals n z (X / 2 ^ amount - e)).
Proof.
  intros Hn Hf Hx HX0 Hco. assert (Hn0 : 0 < n) by lia.
  destruct (arith_inv _ _ _ Hx) as (a & b & c & Ex & Ha & Hb & Hc & HX & He).
  rewrite Ex. unfold truncate_cheetah. cbv zeta. cbn [pfc mk3 p00 p01 p10 p11 p20 psc pty is_arith fbits].
  apply y_assert; [reflexivity|]. ystep. ystep. do 8 ystep. apply y_get. intros s.
  eapply y_bind; [apply ot_ok; reflexivity|]. intros ? ->. do 3 ystep. cbn [vz].
  set (xa := wadd (FI n) a b). assert (Hxa : in_s n xa) by (apply swrap_range, Hn0).
  rewrite !(msb_bit n xa), !(msb_bit n c) by assumption.
  set (wa := prf FB _ 0 0%nat). assert (Wwa : word FB wa) by (apply Hprf; exact I).
  set (wr := prf FB (KP 1) (nonce 0 s) 0%nat). assert (Wwr : word FB wr) by (apply Hprf; exact I).
  set (wb := if (if c <? 0 then 1 else 0) =? 0 then _ else _).
  assert (Ewb : Z.lxor wa wb = (if (xa <? 0) || (c <? 0) then 1 else 0) /\ word FB wb).
  { unfold wb. clearbody wa. cbn [word] in *. destruct (c <? 0), (xa <? 0); destruct Wwa as [-> | ->]; cbn; auto. }
  destruct Ewb as [Ewb Wwb]. clearbody wb.
  unfold mk_priv at 1, on. rewrite Hco. cbn [orb andb]. apply y_retb.
  set (w := MkPr _ _ _ _ _ _ _ _ _).
  set (W := if (xa <? 0) || (c <? 0) then 1 else 0) in *.
  assert (Hw : bool_vals FB w W).
  { unfold bool_vals, replicated, w; cbn [p00 p01 p10 p11 p20 p21 vz pty pfc].
    split; [reflexivity|]. split; [reflexivity|]. split; [auto|]. split; [exact Wwa|]. split; [exact Wwr|].
    split; [apply bit_lxor; assumption|]. rewrite <- Ewb. clearbody wr wa. bitblast. }
  clearbody w.
  apply (y_bind _ _ _ _ (b2a_single_ok prf true Hprf n w W Hn Hw)). intros wi (Hwi & Hswi).
  apply (y_bind _ _ _ _ (lshift_arith_ok true n wi W (n - amount) Hn0 ltac:(lia) Hwi)). intros er (Her & Hser).
  destruct (arith_inv _ _ _ Her) as (e0 & e1 & e2 & -> & He0 & He1 & He2 & _ & Hee).
  cbn [p00 p01 p10 p11 p20 p21 mk3]. do 5 ystep.
  unfold mk_priv, on. cbn [orb andb]. apply y_ret. split; [reflexivity|].
  unfold wneg, wsub; cbn [fcast].
  set (F := 2 ^ amount). assert (HF : 0 < F) by (apply pow2_pos; lia).
  set (A := xa mod 2 ^ n). set (B := c mod 2 ^ n).
  exists (if F <=? A mod F + B mod F then 1 else 0). split; [destruct (_ <=? _); auto|].
  assert (HAB : A + B = X + W * 2 ^ n).
  { destruct (word_split n xa Hn0 Hxa) as (m & a' & Hm & Ha' & _ & _ & EA & Sa & _).
    destruct (word_split n c Hn0 Hc) as (m' & c' & Hm' & Hc' & _ & _ & EB & Sc & _).
    assert (Em : eqm (2 ^ n) (A + B) X).
    { unfold A, B. rewrite !(eqm_mod_l (2 ^ n)). unfold xa, wadd; cbn [fcast]. unw n Hn0. exact He. }
    apply eqm_exists in Em; [|pose proof (pow2_pos n); lia]. destruct Em as [q Eq]. rewrite Eq.
    assert (q = W); [|congruence]. unfold A, B in Eq. rewrite EA, EB in Eq. rewrite (pow2_half n) in Eq by lia.
    unfold in_s in HX. unfold W. generalize dependent (2 ^ (n - 1)). intros H. intros.
    assert (HV : W = 0 /\ m = 0 /\ m' = 0 \/ W = 1 /\ 1 <= m + m').
    { unfold W. destruct (Z.ltb_spec xa 0); destruct (Z.ltb_spec c 0); cbn; lia. }
    clear - HV Eq HX HX0 Ha' Hc' Hm Hm'. fold W.
    assert (0 < H) by lia. assert (q <= -1 \/ q = 0 \/ q = 1 \/ 2 <= q) as [Hq|[->|[->|Hq]]] by lia;
      destruct HV as [(-> & -> & ->)|(-> & HV)]; try nia. }
  assert (EF : X / F = A / F + B / F + (if F <=? A mod F + B mod F then 1 else 0) - W * 2 ^ (n - amount)).
  { rewrite <- floor_add by lia. rewrite HAB.
    replace (W * 2 ^ n) with (W * 2 ^ (n - amount) * F).
    - rewrite Z.div_add by lia. ring.
    - unfold F. rewrite <- Z.mul_assoc, <- pow2_split by lia. do 2 f_equal. lia. }
  unfold arith_vals, replicated; cbn [p00 p01 p10 p11 p20 p21 vz pty pfc].
  split; [reflexivity|]. split; [reflexivity|]. split; [auto|].
  split; [apply swrap_range, Hn0|]. split; [apply swrap_range, Hn0|]. split; [apply swrap_range, Hn0|].
  rewrite !(wshr_val n) by lia. fold A B F.
  split.
  - unfold in_s in HX. cbn [word]. assert (0 <= X / F) by (apply Z.div_pos; lia).
    assert (X / F < 2 ^ (n - 1)) by (apply Z.div_lt_upper_bound; nia).
    pose proof (pow2_pos (n - 1) ltac:(lia)). destruct (_ <=? _); lia.
  - change (eqm (2 ^ n) (swrap n (A / F - e0) + swrap n (- e1) + swrap n (B / F - e2))
      (X / F - (if F <=? A mod F + B mod F then 1 else 0))).
    unw n Hn0. rewrite EF.
    replace (A / F - e0 + - e1 + (B / F - e2)) with (A / F + B / F - (e0 + e1 + e2)) by ring.
    rewrite Hee. unw n Hn0. apply eqm_eq. ring.
Qed.
Lemma truncate_cheetah_remote n amount x : colo = false -> pty x = Arith -> pfc x = FI n ->
  raises (truncate_cheetah prf colo amount x) AssertionError.
Proof. intros -> Ht Hf s. unfold truncate_cheetah, is_arith. cbv zeta. rewrite Ht, Hf. reflexivity. Qed.

End Trunc.
