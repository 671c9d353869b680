(** Truncation in Pond: lemmas. *)
From Verif Require Import Base Factory TensorModel TensorProofs CrtModel CrtProofs PondModel PondSpec PondProofs.

Section PondTrunc.
Context (F : factory) (L : lawful F).
Notation MM := (fmod F).
Notation ten := (list (felt F)).

(** What the truncation operations do on integers of a safe range. *)
Record fixlaw (X : fixops F) (safe : Z -> Prop) (kok : Z -> Z -> Prop) : Prop := MkFixLaw {
  fl_mod : forall v am base, safe v -> kok base am -> fx_mod X (fof F v) (base ^ am) = Some (fof F (v mod base ^ am));
  fl_trunc : forall v am base, safe v -> kok base am ->
    fx_trunc X (fof F v) am base = Some (fof F (v / base ^ am)) }.

Lemma elt_of e v : fwf F e -> eqm MM (fval F e) v -> e = fof F v.
Proof.
  intros He H. apply (law_inj F L); [exact He|apply (law_of_wf F L)|].
  rewrite (law_of F L). rewrite <- H. symmetry. apply Z.mod_small, (law_range F L), He.
Qed.
Lemma ten_of n x v : okT F n x -> (forall i, (i < n)%nat -> eqm MM (tval F x i) (v i)) ->
  x = map (fun i => fof F (v i)) (seq 0 n).
Proof.
  intros Hx H. apply (ten_ext F L n); [exact Hx| |].
  - split; [rewrite map_length, seq_length; reflexivity|]. apply Forall_map, Forall_forall. intros; apply (law_of_wf F L).
  - intros i Hi. rewrite (H i Hi). unfold tval, ent.
    set (g := fun i => fof F (v i)). rewrite (nth_indep _ (f0 F) (g 0%nat)) by (rewrite map_length, seq_length; exact Hi).
    rewrite map_nth, seq_nth by exact Hi. unfold g. rewrite (law_of F L). symmetry. apply eqm_mod_l.
Qed.
Lemma okT_of n (v : nat -> Z) : okT F n (map (fun i => fof F (v i)) (seq 0 n)).
Proof.
  split; [rewrite map_length, seq_length; reflexivity|]. apply Forall_map, Forall_forall. intros; apply (law_of_wf F L).
Qed.
Lemma tval_of n (v : nat -> Z) i : (i < n)%nat -> eqm MM (tval F (map (fun i => fof F (v i)) (seq 0 n)) i) (v i).
Proof.
  intros Hi. unfold tval, ent.
  set (g := fun i => fof F (v i)). rewrite (nth_indep _ (f0 F) (g 0%nat)) by (rewrite map_length, seq_length; exact Hi).
  rewrite map_nth, seq_nth by exact Hi. unfold g. rewrite (law_of F L). apply eqm_mod_l.
Qed.

(** An elementwise operation that may raise, on a tensor of known values. *)
Lemma opo_ok d f n (x : pv F) v w : okT F n (pval x) -> (forall i, (i < n)%nat -> eqm MM (tval F (pval x) i) (v i)) ->
  (forall i, (i < n)%nat -> f (fof F (v i)) = Some (fof F (w i))) ->
  exists y lg, opo d f x = (lg, Ok (MkPv d y)) /\ okT F n y /\ (forall i, (i < n)%nat -> eqm MM (tval F y i) (w i)).
Proof.
  intros Hx Hv Hf. unfold opo. rewrite (ten_of n (pval x) v Hx Hv), map_map.
  rewrite (sequence_map_some _ (fun i => fof F (w i))).
  - eexists; eexists. split; [reflexivity|]. split; [apply okT_of|]. intros i Hi. apply tval_of; exact Hi.
  - intros i Hi. apply in_seq in Hi. apply Hf. lia.
Qed.

Ltac run := repeat first
  [ progress cbn [bind ret raise op1 op2 fresh fst snd pdev pval app unmasked scaled check_enc]
  | progress unfold check_enc | rewrite Bool.eqb_reflx ].

(** The carry of the two lower parts decides between floor and floor + 1. *)
Lemma trunc_arith s x r h : 0 < s -> h mod s = 0 ->
  x - (x + h + r) mod s + r mod s = s * (x / s + (if s <=? x mod s + r mod s then 1 else 0)).
Proof.
  intros Hs Hh.
  assert (E : (x + h + r) mod s = x mod s + r mod s - (if s <=? x mod s + r mod s then s else 0)).
  { pose proof (Z.mod_pos_bound x s Hs). pose proof (Z.mod_pos_bound r s Hs).
    replace (x + h + r) with (x mod s + r mod s + (x / s + r / s + h / s) * s).
    2:{ rewrite (Z.div_mod x s) at 3 by lia. rewrite (Z.div_mod r s) at 3 by lia.
        rewrite (Z.div_mod h s) at 2 by lia. rewrite Hh. ring. }
    rewrite Z.mod_add by lia. destruct (Z.leb_spec s (x mod s + r mod s)).
    - replace (x mod s + r mod s) with (x mod s + r mod s - s + 1 * s) at 1 by ring.
      rewrite Z.mod_add by lia. rewrite Z.mod_small by lia. reflexivity.
    - rewrite Z.mod_small by lia. ring. }
  rewrite E. rewrite (Z.div_mod x s) at 1 by lia. destruct (s <=? x mod s + r mod s); ring.
Qed.

Lemma interactive_ok X safe kok c n a0 a1 (sc : bool) (x : nat -> Z) (r : ten) (rv : nat -> Z) : fixlaw X safe kok ->
  0 < scaling_factor c -> kok (scaling_base c) (precision_fractional c) -> Z.gcd (scaling_factor c) MM = 1 ->
  (if sc then True else bound_double c / scaling_factor c mod scaling_factor c = 0) ->
  denotes F n (Priv a0 a1 sc) sc x -> okT F n r -> (forall i, (i < n)%nat -> eqm MM (tval F r i) (rv i)) ->
  (forall i, (i < n)%nat -> safe (rv i)) ->
  (forall i, (i < n)%nat -> safe (x i + (if sc then bound_double c / scaling_factor c * scaling_factor c
                                         else bound_double c / scaling_factor c) + rv i)) ->
  yields F (truncate_interactive F X c r a0 a1 sc)
    (fun z => denotes F n z sc (fun i => x i / scaling_factor c +
       (if scaling_factor c <=? x i mod scaling_factor c + rv i mod scaling_factor c then 1 else 0)) /\
       exists s0 s1 s, z = Priv s0 s1 s).
Proof.
  intros HX Hs Hk Hg Hsc Ha Hr Hrv Sr Sc. set (s := scaling_factor c) in *.
  set (h := if sc then bound_double c / s * s else bound_double c / s) in *.
  assert (Hh : h mod s = 0) by (unfold h; destruct sc; [apply Z.mod_mul; lia|exact Hsc]).
  cbn [denotes] in Ha. destruct Ha as (_ & D0 & D1 & W0 & W1 & Hx).
  unfold truncate_interactive. fold s. pose proof (law_mod F L) as HM.
  destruct (inverse s MM) as [sinv|] eqn:Ei.
  2:{ apply inverse_none in Ei; [contradiction|lia|lia]. }
  apply inverse_sound in Ei; [|lia|lia]. destruct Ei as [_ Ei].
  assert (Ei' : eqm MM (s * sinv) 1) by exact Ei. clear Ei.
  fold h. rewrite (okT_len F _ _ W0). unfold yields.
  assert (E : add F (Priv a0 a1 sc) (Pub (MkPv Srv0 (vconst F n h)) (MkPv Srv1 (vconst F n h)) sc)
    = ([(Srv0, pval a0); (Srv0, vconst F n h); (Srv0, vadd F (pval a0) (vconst F n h))],
       Ok (Priv (MkPv Srv0 (vadd F (pval a0) (vconst F n h))) a1 sc))).
  { unfold add. run. rewrite (mk_priv_ok F n) by (cbn; auto using okT_vadd, okT_vconst). run. reflexivity. }
  run. rewrite E. run.
  assert (Wb : okT F n (vadd F (pval a0) (vconst F n h))) by (auto using okT_vadd, okT_vconst).
  set (cc := vadd F (vadd F (vadd F (pval a0) (vconst F n h)) r) (pval a1)).
  assert (Wc : okT F n cc) by (unfold cc; auto using okT_vadd).
  assert (Vc : forall i, (i < n)%nat -> eqm MM (tval F cc i) (x i + h + rv i)).
  { intros i Hi. unfold cc. rewrite !(tval_vadd F L n), (tval_vconst F L n) by auto using okT_vadd, okT_vconst.
    rewrite (Hrv i Hi), <- (Hx i Hi). apply eqm_eq. ring. }
  destruct (opo_ok Srv1 (fun e => fx_mod X e s) n (MkPv Srv1 cc) (fun i => x i + h + rv i) (fun i => (x i + h + rv i) mod s) Wc Vc) as (cl & l1 & E1 & Wcl & Vcl).
  { intros i Hi. apply (fl_mod X safe kok HX); [apply Sc; exact Hi|exact Hk]. }
  rewrite E1. run.
  destruct (opo_ok Srv0 (fun e => fx_mod X e s) n (MkPv Srv0 r) rv (fun i => rv i mod s) Hr Hrv) as (rl & l2 & E2 & Wrl & Vrl).
  { intros i Hi. apply (fl_mod X safe kok HX); [apply Sr; exact Hi|exact Hk]. }
  rewrite E2. run.
  rewrite (okT_len F _ _ Wrl).
  assert (Wal : okT F n (vmul F rl (vconst F n (-1)))) by (auto using okT_vmul, okT_vconst).
  assert (We0 : okT F n (vsub F (pval a0) (vmul F rl (vconst F n (-1))))) by (auto using okT_vsub).
  assert (We1 : okT F n (vsub F (pval a1) cl)) by (auto using okT_vsub).
  rewrite (okT_len F _ _ We0), (okT_len F _ _ We1).
  rewrite (mk_priv_ok F n) by (cbn [pdev pval]; auto using okT_vmul, okT_vconst). run.
  eexists. split; [reflexivity|]. split; [|eauto]. cbn [denotes]; run.
  repeat match goal with |- _ /\ _ => split end; auto using okT_vmul, okT_vconst.
  intros i Hi.
  rewrite !(tval_vmul F L n), !(tval_vsub F L n), !(tval_vmul F L n), !(tval_vconst F L n)
    by auto using okT_vmul, okT_vsub, okT_vconst.
  rewrite (Vrl i Hi), (Vcl i Hi).
  transitivity ((tval F (pval a0) i + tval F (pval a1) i - (x i + h + rv i) mod s + rv i mod s) * sinv);
    [apply eqm_eq; ring|].
  rewrite (Hx i Hi). rewrite (trunc_arith s (x i) (rv i) h Hs Hh).
  set (q := x i / s + _). transitivity (s * sinv * q); [apply eqm_eq; ring|].
  rewrite Ei'. apply eqm_eq. ring.
Qed.

(** The factor is not invertible: the call raises. *)
Lemma interactive_raises X c r a0 a1 sc : 0 <= scaling_factor c -> Z.gcd (scaling_factor c) MM <> 1 ->
  snd (truncate_interactive F X c r a0 a1 sc) = Err AssertionError.
Proof.
  intros Hs Hg. unfold truncate_interactive. pose proof (law_mod F L).
  destruct (inverse (scaling_factor c) MM) as [i|] eqn:E; [|reflexivity].
  exfalso. apply Hg. apply inverse_some_iff; [exact Hs|lia|eauto].
Qed.

Lemma public_ok X safe kok c n v0 v1 sc x : fixlaw X safe kok ->
  kok (scaling_base c) (precision_fractional c) -> denotes F n (Pub v0 v1 sc) sc x -> (forall i, (i < n)%nat -> safe (x i)) ->
  yields F (truncate_public F X c v0 v1 sc)
    (fun z => denotes F n z sc (fun i => x i / scaling_factor c) /\ exists s0 s1 s, z = Pub s0 s1 s).
Proof.
  intros HX Hk (_ & D0 & D1 & W0 & W1 & Hx) Hs. unfold yields, truncate_public.
  destruct (opo_ok Srv0 (fun e => fx_trunc X e (precision_fractional c) (scaling_base c)) n v0 x
    (fun i => x i / scaling_factor c) W0 ltac:(intros i Hi; apply Hx; exact Hi)) as (y0 & l0 & E0 & Wy0 & Vy0).
  { intros i Hi. apply (fl_trunc X safe kok HX); auto. }
  destruct (opo_ok Srv1 (fun e => fx_trunc X e (precision_fractional c) (scaling_base c)) n v1 x
    (fun i => x i / scaling_factor c) W1 ltac:(intros i Hi; apply Hx; exact Hi)) as (y1 & l1 & E1 & Wy1 & Vy1).
  { intros i Hi. apply (fl_trunc X safe kok HX); auto. }
  rewrite E0. run. rewrite E1. run. rewrite (mk_pub_ok F n) by (cbn; auto). run.
  eexists. split; [reflexivity|]. split; [|eauto]. cbn [denotes]; run.
  repeat match goal with |- _ /\ _ => split end; auto.
Qed.

(** Non-interactive truncation, on integer representatives of the two shares. *)
Lemma ni_ok X safe kok sg c n a0 a1 sc (u0 u1 : nat -> Z) : fixlaw X safe kok ->
  kok (scaling_base c) (precision_fractional c) ->
  (forall v, fx_rsub0 X (fof F v) = fof F (sg * v)) ->
  pdev a0 = Srv0 -> pdev a1 = Srv1 -> okT F n (pval a0) -> okT F n (pval a1) ->
  (forall i, (i < n)%nat -> eqm MM (tval F (pval a0) i) (u0 i)) ->
  (forall i, (i < n)%nat -> eqm MM (sg * tval F (pval a1) i) (u1 i)) ->
  (forall i, (i < n)%nat -> safe (u0 i) /\ safe (u1 i)) ->
  yields F (truncate_ni F X c a0 a1 sc)
    (fun z => denotes F n z sc (fun i => u0 i / scaling_factor c + sg * (u1 i / scaling_factor c)) /\
       exists s0 s1 s, z = Priv s0 s1 s).
Proof.
  intros HX Hk Hsg D0 D1 W0 W1 V0 V1 Hs. unfold yields, truncate_ni.
  destruct (opo_ok Srv0 (fun e => fx_trunc X e (precision_fractional c) (scaling_base c)) n a0 u0
    (fun i => u0 i / scaling_factor c) W0 V0) as (y0 & l0 & E0 & Wy0 & Vy0).
  { intros i Hi. apply (fl_trunc X safe kok HX); [apply Hs; exact Hi|auto]. }
  assert (R : forall x w, okT F n x -> (forall i, (i < n)%nat -> eqm MM (tval F x i) (w i)) ->
    okT F n (map (fx_rsub0 X) x) /\ forall i, (i < n)%nat -> eqm MM (tval F (map (fx_rsub0 X) x) i) (sg * w i)).
  { intros x w Hx Hw. rewrite (ten_of n x w Hx Hw), map_map.
    rewrite (map_ext _ (fun i => fof F (sg * w i))) by (intros; apply Hsg).
    split; [apply okT_of|]. intros i Hi. apply (tval_of n (fun i => sg * w i)). exact Hi. }
  destruct (R (pval a1) (tval F (pval a1)) W1 ltac:(intros; reflexivity)) as [Wn Vn].
  destruct (opo_ok Srv1 (fun e => fx_trunc X e (precision_fractional c) (scaling_base c)) n (MkPv Srv1 (map (fx_rsub0 X) (pval a1))) u1
    (fun i => u1 i / scaling_factor c) Wn) as (y1 & l1 & E1 & Wy1 & Vy1).
  { intros i Hi. cbn [pval]. rewrite (Vn i Hi). apply V1; exact Hi. }
  { intros i Hi. apply (fl_trunc X safe kok HX); [apply Hs; exact Hi|auto]. }
  destruct (R y1 _ Wy1 Vy1) as [Wm Vm].
  rewrite E0. run. rewrite E1. run. rewrite (mk_priv_ok F n) by (cbn; auto). run.
  eexists. split; [reflexivity|]. split; [|eauto]. cbn [denotes]; run.
  repeat match goal with |- _ /\ _ => split end; auto.
  intros i Hi. rewrite (Vy0 i Hi), (Vm i Hi). reflexivity.
Qed.

End PondTrunc.

Lemma div_sub_cases s a x : 0 < s ->
  a / s - (a - x) / s = x / s \/ a / s - (a - x) / s = x / s + 1.
Proof.
  intros Hs.
  pose proof (Z.div_mod a s ltac:(lia)). pose proof (Z.mod_pos_bound a s Hs).
  pose proof (Z.div_mod x s ltac:(lia)). pose proof (Z.mod_pos_bound x s Hs).
  pose proof (Z.div_mod (a - x) s ltac:(lia)). pose proof (Z.mod_pos_bound (a - x) s Hs).
  set (qa := a / s) in *. set (qx := x / s) in *. set (q := (a - x) / s) in *.
  assert (s * (qa - qx - q) < 2 * s) by lia. assert (- s < s * (qa - qx - q)) by lia.
  assert (qa - qx - q < 2) by nia. assert (-1 < qa - qx - q) by nia. lia.
Qed.
Lemma div_add_le s a b : 0 < s -> a / s + b / s <= (a + b) / s.
Proof.
  intros Hs. apply Z.div_le_lower_bound; [exact Hs|].
  pose proof (Z.mul_div_le a s Hs). pose proof (Z.mul_div_le b s Hs). lia.
Qed.
Lemma div_add_ge s a b : 0 < s -> (a + b) / s <= a / s + b / s + 1.
Proof.
  intros Hs. pose proof (div_sub_cases s (a + b) b Hs) as H. replace (a + b - b) with a in H by ring. lia.
Qed.

(** Shares [x0], [x1] of [x] in a signed ring of [w] bits: local truncation of both shares. *)
Definition ni_native (w s x0 x1 : Z) : Z := x0 / s - swrap w (- x1) / s.
Lemma ni_native_ok w s x x0 x1 : 1 < w -> 0 < s -> 2 * s <= 2 ^ w -> in_s w x -> in_s w x0 -> in_s w x1 ->
  eqm (2 ^ w) (x0 + x1) x ->
  let wraps := x0 < x - 2 ^ (w - 1) \/ x + 2 ^ (w - 1) <= x0 in
  (~ wraps -> ni_native w s x0 x1 = x / s \/ ni_native w s x0 x1 = x / s + 1) /\
  (wraps -> 2 ^ w / s - 1 <= Z.abs (ni_native w s x0 x1 - x / s) <= 2 ^ w / s + 2).
Proof.
  intros Hw Hs HM Hx H0 H1 He wraps. unfold ni_native.
  pose proof (pow2_half w ltac:(lia)) as Hh. pose proof (pow2_pos (w - 1) ltac:(lia)).
  set (n1 := swrap w (- x1)).
  assert (Hn : in_s w n1) by (apply swrap_range; lia).
  assert (En : eqm (2 ^ w) n1 (x0 - x)).
  { unfold n1. rewrite (swrap_eqm w) by lia. rewrite <- He. apply eqm_eq. ring. }
  apply eqm_exists in En; [|lia]. destruct En as [k Ek].
  unfold in_s in *. set (H' := 2 ^ (w - 1)) in *. set (M := 2 ^ w) in *.
  assert (Hk : k <= -2 \/ k = -1 \/ k = 0 \/ k = 1 \/ 2 <= k) by lia.
  assert (Hk' : k = -1 \/ k = 0 \/ k = 1) by (destruct Hk as [?|[?|[?|[?|?]]]]; try lia; exfalso; nia). clear Hk.
  pose proof (div_sub_cases s x0 x Hs) as C.
  assert (HQ : 2 <= M / s) by (apply Z.div_le_lower_bound; lia).
  destruct Hk' as [-> | [-> | ->]].
  - split; [intros Hn'; exfalso; apply Hn'; right; lia|intros _].
    pose proof (div_add_le s n1 M Hs). pose proof (div_add_ge s n1 M Hs).
    replace (n1 + M) with (x0 - x) in * by lia. lia.
  - split; [intros _|intros Hb; exfalso; unfold wraps in Hb; lia].
    replace n1 with (x0 - x) by lia. exact C.
  - split; [intros Hn'; exfalso; apply Hn'; left; lia|intros _].
    pose proof (div_add_le s (x0 - x) M Hs). pose proof (div_add_ge s (x0 - x) M Hs).
    replace (x0 - x + M) with n1 in * by lia. lia.
Qed.

(** ** The two ring families satisfy the truncation laws *)

Lemma fixlaw_native w : 1 < w ->
  fixlaw (native (MkN w None)) (native_fix w) (in_s w)
    (fun base am => 0 < base /\ 0 <= am /\ base ^ am <= 2 ^ (w - 1) /\ (base = 2 \/ Z.odd base = true)).
Proof.
  intros Hw. pose proof (pow2_half w ltac:(lia)) as Hh. pose proof (pow2_pos (w - 1) ltac:(lia)).
  split.
  - intros v am base Hv (Hb & Ha & Hk & _). cbn [fx_mod native_fix fof native nmodulus]. unfold n_mod; cbn [nmodulus].
    pose proof (Z.pow_pos_nonneg base am Hb Ha).
    cbn [nw]. rewrite (swrap_id w v) by (lia || exact Hv). rewrite (swrap_id w (v mod base ^ am)); [reflexivity|lia|].
    pose proof (Z.mod_pos_bound v (base ^ am) ltac:(lia)). unfold in_s in *. lia.
  - intros v am base Hv (Hb & Ha & Hk & Ho). cbn [fx_trunc native_fix fof native nmodulus]. cbn [nw].
    rewrite (swrap_id w v) by (lia || exact Hv).
    assert (D : exists r, n_truncate (MkN w None) v am base = Some r).
    { destruct Ho as [->|Hodd]; [eexists; reflexivity|]. apply truncate_defined; auto; lia. }
    destruct D as [r Er]. rewrite Er. apply truncate_floor in Er; [|lia|lia|lia|exact Hv]. subst r.
    rewrite (swrap_id w (v / base ^ am)); [reflexivity|lia|]. apply div_abs_range; [lia| |exact Hv]. apply Z.pow_pos_nonneg; lia.
Qed.
