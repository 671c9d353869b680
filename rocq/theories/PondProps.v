(** Pond: the properties C24 to C29, C33 and C34 over the model of PondModel.v. *)
From Coq Require Import Znumtheory Zpow_facts.
From Verif Require Import Base Factory TensorModel TensorProofs CrtModel CrtProofs CrtFloat CrtProps
  PondModel PondSpec PondProofs PondTrunc PondSecrecy.

(** The 64-bit ring used in the examples. *)
Definition F64 := native (MkN 64 None).
(** The ring encoding of a vector of [n] integers. *)
Definition encv (F : factory) (n : nat) (v : nat -> Z) : list (felt F) := map (fun i => fof F (v i)) (seq 0 n).
(** The observable outcome of revealing [t]: both servers hold exactly the encoding of [v]. *)
Definition reveals (F : factory) (n : nat) (t : ptensor F) (sc : bool) (v : nat -> Z) : Prop :=
  snd (reveal F t) = Ok (Pub (MkPv Srv0 (encv F n v)) (MkPv Srv1 (encv F n v)) sc).

Theorem C25_reveal_exact : forall F n t sc v, lawful F -> denotes F n t sc v -> reveals F n t sc v.
Proof.
  intros F n t sc v L H. destruct (reveal_ok F L n t sc v H) as (r & E & D & v0 & v1 & s & ->).
  unfold reveals. rewrite E. cbn [denotes] in D. destruct D as (-> & D0 & D1 & W0 & W1 & V).
  destruct v0 as [d0 t0], v1 as [d1 t1]; cbn [pdev pval] in *. subst.
  rewrite (ten_of F L n t0 v) by (auto; intros; apply V; auto).
  rewrite (ten_of F L n t1 v) by (auto; intros; apply V; auto). reflexivity.
Qed.
Print Assumptions C25_reveal_exact.

(** C24: reconstruction. *)
Theorem C24_share_reveal : forall F n secret r swap sc v, lawful F -> okT F n secret -> okT F n r ->
  (forall i, (i < n)%nat -> eqm (fmod F) (tval F secret i) (v i)) ->
  exists s0 s1, snd (share_and_wrap F secret r swap sc) = Ok (Priv s0 s1 sc) /\
    reveals F n (Priv s0 s1 sc) sc v.
Proof.
  intros F n secret r swap sc v L Hs Hr Hv. unfold share_and_wrap, share.
  assert (Hd : okT F n (vsub F secret r)) by (apply okT_vsub; assumption).
  destruct swap; cbn [bind ret op1 op2 fresh fst snd pdev pval app];
  rewrite (mk_priv_ok F n) by (cbn [pdev pval]; auto); cbn [snd]; do 2 eexists; (split; [reflexivity|]);
  apply C25_reveal_exact; try assumption; cbn [denotes pdev pval];
  repeat match goal with |- _ /\ _ => split end; auto; intros i Hi;
  rewrite (tval_vsub F L n) by auto; rewrite <- (Hv i Hi); apply eqm_eq; ring.
Qed.
Print Assumptions C24_share_reveal.

(** C24: secrecy.  Whatever the secret and whichever server, every possible share occurs for
    exactly one draw. *)
Theorem C24_share_secrecy : forall F n secret swap srv1 t, lawful F -> okT F n secret -> okT F n t ->
  exists! r, okT F n r /\
    exists s0 s1, snd (share F secret r swap) = Ok (s0, s1) /\ pval (if srv1 : bool then s1 else s0) = t.
Proof.
  intros F n secret swap srv1 t L Hs Ht.
  exists (if Bool.eqb swap srv1 then vsub F secret t else t).
  assert (Hd : okT F n (vsub F secret t)) by (apply okT_vsub; assumption).
  assert (E : forall q, okT F n q -> vsub F secret (vsub F secret q) = q).
  { intros q Hq. apply (ten_ext F L n); auto using okT_vsub. intros i Hi.
    rewrite !(tval_vsub F L n) by auto using okT_vsub. apply eqm_eq. ring. }
  split.
  - split; [destruct (Bool.eqb swap srv1); assumption|]. unfold share.
    destruct swap, srv1; cbn [bind ret op1 op2 fresh fst snd pdev pval app Bool.eqb]; do 2 eexists; (split; [reflexivity|]);
    cbn [pval]; auto.
  - intros r (Hr & s0 & s1 & Es & Et). revert Es. unfold share.
    destruct swap, srv1; cbn [bind ret op1 op2 fresh fst snd pdev pval app Bool.eqb]; intros Es; injection Es as <- <-;
    cbn [pval] in Et; subst t; auto.
Qed.
Print Assumptions C24_share_secrecy.

(** Each server sees its own share and nothing else. *)
Theorem C24_share_views : forall F secret r swap, exists s0 s1, snd (share F secret r swap) = Ok (s0, s1) /\
  Forall (eq (pval s0)) (view Srv0 (share F secret r swap)) /\ Forall (eq (pval s1)) (view Srv1 (share F secret r swap)).
Proof.
  intros F secret r swap. unfold share. destruct swap; cbn [bind ret op1 op2 fresh fst snd pdev pval app];
  do 2 eexists; (split; [reflexivity|]); split; repeat constructor.
Qed.
Print Assumptions C24_share_views.

Example C24_nonvacuous : lawful (native (MkN 64 None)) /\ lawful (crt_factory int100_moduli) /\
  okT (native (MkN 64 None)) 2 [-5; 2 ^ 40] /\
  fst (share F64 [-5; 2 ^ 40] [3; -1] true) =
    [(Provider, [3; -1]); (Provider, [-5; 2 ^ 40]); (Provider, [3; -1]); (Provider, [-8; 2 ^ 40 + 1]);
      (Srv0, [3; -1]); (Srv1, [-8; 2 ^ 40 + 1]); (Srv1, [-8; 2 ^ 40 + 1])].
Proof.
  split; [apply lawful_native; vm_compute; repeat split; congruence|]. split; [apply lawful_crt, int100_ok|].
  split; [|vm_compute; reflexivity]. split; [reflexivity|]. repeat constructor; vm_compute; congruence.
Qed.

(** C25: all nine kinds of operand pairs. *)
Theorem C25_add : forall F n x y sc u v, lawful F -> denotes F n x sc u -> denotes F n y sc v ->
  yields F (add F x y) (fun z => denotes F n z sc (fun i => u i + v i) /\ reveals F n z sc (fun i => u i + v i)).
Proof.
  intros F n x y sc u v L Hx Hy. destruct (add_ok F L n x y sc u v Hx Hy) as (z & E & D).
  exists z. auto using C25_reveal_exact.
Qed.
Print Assumptions C25_add.
Theorem C25_sub : forall F n x y sc u v, lawful F -> denotes F n x sc u -> denotes F n y sc v ->
  yields F (sub F x y) (fun z => denotes F n z sc (fun i => u i - v i) /\ reveals F n z sc (fun i => u i - v i)).
Proof.
  intros F n x y sc u v L Hx Hy. destruct (sub_ok F L n x y sc u v Hx Hy) as (z & E & D).
  exists z. auto using C25_reveal_exact.
Qed.
Print Assumptions C25_sub.
Theorem C25_negative : forall F n x sc u, lawful F -> denotes F n x sc u ->
  yields F (negative F x) (fun z => denotes F n z sc (fun i => - u i) /\ reveals F n z sc (fun i => - u i)).
Proof.
  intros F n x sc u L Hx. destruct (local1_masked_ok F _ n n _ x sc u (linear_vneg F L n) Hx) as (z & E & D & _).
  exists z. auto using C25_reveal_exact.
Qed.
Print Assumptions C25_negative.
(** Every reduction given by index lists: full sums, sums over an axis, cumulative sums. *)
Theorem C25_reduce : forall F n rows x sc u, lawful F -> Forall (Forall (fun i => (i < n)%nat)) rows -> denotes F n x sc u ->
  yields F (reduce_sum F rows x) (fun z => reveals F (length rows) z sc (fun j => zsum (map u (nth j rows [])))).
Proof.
  intros F n rows x sc u L HR Hx. destruct (reduce_ok F L rows n x sc u HR Hx) as (z & E & D).
  exists z. split; [exact E|]. apply C25_reveal_exact; assumption.
Qed.
Print Assumptions C25_reduce.
Theorem C25_sum_all : forall F n x sc u, lawful F -> denotes F n x sc u ->
  yields F (reduce_sum F (sum_all_rows n) x) (fun z => reveals F 1 z sc (fun _ => zsum (map u (seq 0 n)))).
Proof.
  intros F n x sc u L Hx. destruct (C25_reduce F n (sum_all_rows n) x sc u L) as (z & E & D); [|exact Hx|].
  - repeat constructor. apply Forall_forall. intros i Hi. apply in_seq in Hi. lia.
  - exists z. split; [exact E|]. exact D.
Qed.
Print Assumptions C25_sum_all.
Theorem C25_cumsum : forall F n x sc u, lawful F -> denotes F n x sc u ->
  yields F (reduce_sum F (cumsum_rows n) x) (fun z => reveals F n z sc (fun j => zsum (map u (seq 0 (S j))))).
Proof.
  intros F n x sc u L Hx. destruct (reduce_ok F L (cumsum_rows n) n x sc u) as (z & E & D); [|exact Hx|].
  - unfold cumsum_rows. apply Forall_map, Forall_forall. intros k Hk. apply in_seq in Hk.
    apply Forall_forall. intros i Hi. apply in_seq in Hi. lia.
  - exists z. split; [exact E|]. unfold cumsum_rows in D at 1. rewrite map_length, seq_length in D.
    assert (G : forall w, (forall j, (j < n)%nat -> w j = zsum (map u (seq 0 (S j)))) -> denotes F n z sc w -> reveals F n z sc (fun j => zsum (map u (seq 0 (S j))))).
    { intros w Hw Dw. unfold reveals. rewrite (C25_reveal_exact F n z sc w L Dw).
      assert (Ee : encv F n w = encv F n (fun j => zsum (map u (seq 0 (S j))))).
      { apply map_ext_in. intros j Hj. apply in_seq in Hj. rewrite Hw by lia. reflexivity. }
      rewrite Ee. reflexivity. }
    eapply G; [|exact D]. intros j Hj. cbv beta. unfold zrow, cumsum_rows.
    rewrite (nth_indep _ [] (seq 0 (S 0))) by (rewrite map_length, seq_length; exact Hj).
    rewrite (map_nth (fun i => seq 0 (S i))), seq_nth by exact Hj. reflexivity.
Qed.
Print Assumptions C25_cumsum.
(** Adding two private tensors does not check the encodings: the sum of a scaled and an unscaled
    tensor is computed without an error and keeps the flag of the left operand. *)
Theorem C25_add_mixed_private : forall F n a0 a1 b0 b1 u v, lawful F ->
  denotes F n (Priv a0 a1 true) true u -> denotes F n (Priv b0 b1 false) false v ->
  yields F (add F (Priv a0 a1 true) (Priv b0 b1 false)) (fun z => denotes F n z true (fun i => u i + v i)).
Proof.
  intros F n a0 a1 b0 b1 u v L (_ & D0 & D1 & W0 & W1 & Hu) (_ & D2 & D3 & W2 & W3 & Hv). unfold yields, add.
  cbn [unmasked bind op2 ret fst snd app pdev pval]. rewrite (mk_priv_ok F n) by (cbn [pdev pval]; auto using okT_vadd).
  eexists. split; [reflexivity|]. cbn [denotes pdev pval].
  repeat match goal with |- _ /\ _ => split end; auto using okT_vadd.
  intros i Hi. rewrite !(tval_vadd F L n) by auto. rewrite <- (Hu i Hi), <- (Hv i Hi). apply eqm_eq. ring.
Qed.
Print Assumptions C25_add_mixed_private.

Definition ex_priv : ptensor F64 := Priv (@MkPv F64 Srv0 [2 ^ 63 - 1; -7]) (@MkPv F64 Srv1 [9; 8]) true.
Example C25_nonvacuous : lawful F64 /\
  denotes F64 2 ex_priv true (fun i => if Nat.eqb i 0 then 2 ^ 63 + 8 else 1) /\
  denotes F64 2 (Pub (@MkPv F64 Srv0 [4; -1]) (@MkPv F64 Srv1 [4; -1]) true) true (fun i => if Nat.eqb i 0 then 4 else -1) /\
  reveals F64 2 ex_priv true (fun i => if Nat.eqb i 0 then - 2 ^ 63 + 8 else 1).
Proof.
  split; [apply lawful_native; vm_compute; repeat split; congruence|].
  assert (W : forall a b, in_s 64 a -> in_s 64 b -> okT F64 2 [a; b]) by (intros; split; [reflexivity|repeat constructor; apply H || apply H0]).
  repeat match goal with |- _ /\ _ => split end; cbn [denotes ex_priv pdev pval];
  repeat match goal with |- _ /\ _ => split end; try reflexivity; try (apply W; vm_compute; split; congruence).
  - intros [|[|i]] Hi; try lia; vm_compute; reflexivity.
  - intros [|[|i]] Hi; try lia; vm_compute; split; reflexivity.
Qed.

(** Mixing encodings: sub always raises; add raises when an operand is public, and otherwise takes
    the encoding of the left operand without complaint. *)
Theorem C25_mixed_encodings : forall F n m x y sx sy u v, denotes F n x sx u -> denotes F m y sy v -> sx <> sy ->
  snd (sub F x y) = Err AssertionError /\
  ((exists a b s, x = Pub a b s \/ y = Pub a b s) -> snd (add F x y) = Err AssertionError).
Proof.
  intros F n m x y sx sy u v Hx Hy Hne.
  assert (E : Bool.eqb sx sy = false) by (destruct sx, sy; try reflexivity; exfalso; apply Hne; reflexivity).
  split.
  - destruct x, y; cbn [denotes] in Hx, Hy; unfold sub; cbn [unmasked];
    repeat match goal with H : _ /\ _ |- _ => destruct H end; subst; unfold check_enc; rewrite E; reflexivity.
  - intros (a & b & s & [-> | ->]).
    + destruct y; cbn [denotes] in Hx, Hy; unfold add; cbn [unmasked];
      repeat match goal with H : _ /\ _ |- _ => destruct H end; subst; unfold check_enc; rewrite E; reflexivity.
    + destruct x; cbn [denotes] in Hx, Hy; unfold add; cbn [unmasked];
      repeat match goal with H : _ /\ _ |- _ => destruct H end; subst; unfold check_enc; rewrite E; reflexivity.
Qed.
Print Assumptions C25_mixed_encodings.
Example C25_mixed_nonvacuous : snd (sub F64 (Priv (@MkPv F64 Srv0 [1]) (@MkPv F64 Srv1 [2]) true) (Priv (@MkPv F64 Srv0 [1]) (@MkPv F64 Srv1 [2]) false)) = Err AssertionError.
Proof. reflexivity. Qed.

(** C26: the product, for every pair of visibilities that the code supports, every mask, triple
    randomness and coin. *)
Theorem C26_product : forall F o n m p r x y sx sy u v, lawful F -> bok o n m p -> rnd_ok F r n m p -> supported F o x y ->
  denotes F n x sx u -> denotes F m y sy v ->
  yields F (product F o r x y) (fun z => denotes F p z (sx || sy) (fun j => bspec o j u v) /\
    reveals F p z (sx || sy) (fun j => bspec o j u v)).
Proof.
  intros F o n m p r x y sx sy u v L Hb Hr Hs Hx Hy.
  destruct (product_ok F L o n m p r x y sx sy u v Hb Hr Hs Hx Hy) as (z & E & D & _).
  exists z. auto using C25_reveal_exact.
Qed.
Print Assumptions C26_product.
Theorem C26_mul : forall F n r x y sx sy u v, lawful F -> rnd_ok F r n n n ->
  denotes F n x sx u -> denotes F n y sy v ->
  yields F (product F BMul r x y) (fun z => reveals F n z (sx || sy) (fun i => u i * v i)).
Proof.
  intros F n r x y sx sy u v L Hr Hx Hy.
  destruct (C26_product F BMul n n n r x y sx sy u v L) as (z & E & _ & D); auto.
  - split; reflexivity.
  - exact I.
  - exists z. auto.
Qed.
Print Assumptions C26_mul.

Lemma matmul_tab_nth m k n i j : (i < m)%nat -> (j < n)%nat ->
  nth (i * n + j) (matmul_tab m k n) [] = map (fun l => (Some (i * k + l)%nat, Some (l * n + j)%nat)) (seq 0 k).
Proof.
  intros Hi Hj. unfold matmul_tab.
  assert (G : forall b i, (i < m)%nat -> nth (i * n + j)
     (flat_map (fun i => map (fun j => map (fun l => (Some (i * k + l)%nat, Some (l * n + j)%nat)) (seq 0 k)) (seq 0 n)) (seq b m)) []
     = map (fun l => (Some ((b + i) * k + l)%nat, Some (l * n + j)%nat)) (seq 0 k)).
  { clear i Hi. induction m as [|m IH]; intros b i Hi; [lia|]. cbn [seq flat_map].
    destruct i as [|i].
    - rewrite app_nth1 by (rewrite map_length, seq_length; lia).
      set (g := fun j => map (fun l => (Some (b * k + l)%nat, Some (l * n + j)%nat)) (seq 0 k)).
      rewrite (nth_indep _ [] (g 0%nat)) by (rewrite map_length, seq_length; lia).
      rewrite map_nth, seq_nth by lia. unfold g. rewrite Nat.add_0_r. reflexivity.
    - rewrite app_nth2 by (rewrite map_length, seq_length; nia). rewrite map_length, seq_length.
      replace (S i * n + j - n)%nat with (i * n + j)%nat by nia. rewrite IH by lia.
      replace (S b + i)%nat with (b + S i)%nat by lia. reflexivity. }
  specialize (G 0%nat i Hi). exact G.
Qed.
Lemma flat_map_const_length {A B} (f : A -> list B) l q : (forall a, In a l -> length (f a) = q) ->
  length (flat_map f l) = (length l * q)%nat.
Proof.
  induction l as [|a l IH]; intros H; [reflexivity|]. cbn [flat_map length]. rewrite app_length, (H a), IH; cbn; auto.
  intros; apply H; right; assumption.
Qed.
Lemma matmul_tab_ok m k n : bok (BMat (matmul_tab m k n)) (m * k) (k * n) (m * n).
Proof.
  split.
  - unfold matmul_tab. rewrite (flat_map_const_length _ _ n); [rewrite seq_length; reflexivity|].
    intros; rewrite map_length, seq_length; reflexivity.
  - apply Forall_forall. intros row H. unfold matmul_tab in H. apply in_flat_map in H. destruct H as (i & Hi & H).
    apply in_map_iff in H. destruct H as (j & <- & Hj). apply Forall_map, Forall_forall. intros l Hl.
    apply in_seq in Hi, Hj, Hl. cbn. split; nia.
Qed.
(** Matrix product of an [m] by [k] and a [k] by [n] matrix: entry (i, j) is the inner product. *)
Theorem C26_matmul : forall F m k n r x y sx sy u v, lawful F -> rnd_ok F r (m * k) (k * n) (m * n) ->
  (forall v0 v1 s, y <> Pub v0 v1 s) ->
  denotes F (m * k) x sx u -> denotes F (k * n) y sy v ->
  yields F (product F (BMat (matmul_tab m k n)) r x y) (fun z => exists w, reveals F (m * n) z (sx || sy) w /\
    forall i j, (i < m)%nat -> (j < n)%nat -> w (i * n + j)%nat = zsum (map (fun l => u (i * k + l)%nat * v (l * n + j)%nat) (seq 0 k))).
Proof.
  intros F m k n r x y sx sy u v L Hr Hp Hx Hy.
  destruct (C26_product F (BMat (matmul_tab m k n)) (m * k) (k * n) (m * n) r x y sx sy u v L) as (z & E & _ & D); auto.
  - apply matmul_tab_ok.
  - destruct x; try exact I; destruct y; try exact I; edestruct Hp; reflexivity.
  - exists z. split; [exact E|]. eexists. split; [exact D|]. intros i j Hi Hj. cbn [bspec].
    rewrite matmul_tab_nth by assumption. unfold zform. rewrite map_map. reflexivity.
Qed.
Print Assumptions C26_matmul.
Theorem C26_square : forall F n r x sx u, lawful F -> rnd_ok F r n n n -> (forall v0 v1 s, x <> Pub v0 v1 s) ->
  denotes F n x sx u ->
  yields F (bind (ensure_masked F (rx0 F r) (rx1 F r) x) (fun mx => square_beaver F mx (rrho F r) (rswap F r)))
    (fun z => reveals F n z sx (fun i => u i * u i)).
Proof.
  intros F n r x sx u L (R1 & R2 & R3 & R4 & R5 & R6) Hp Hx.
  destruct (ensure_masked_ok F L n (rx0 F r) (rx1 F r) x sx u R1 R2 Hx Hp) as (mx & E & D & Hm).
  destruct (square_ok F L n mx sx u (rrho F r) (rswap F r) R5 D Hm) as (z & E' & D' & _).
  exists z. split; [|apply C25_reveal_exact; assumption]. unfold bind. rewrite E. exact E'.
Qed.
Print Assumptions C26_square.
(** A product in which at most one operand is scaled is not truncated. *)
Theorem C26_not_truncated : forall F X c o n m p r x y sx sy u v, lawful F -> bok o n m p -> rnd_ok F r n m p -> supported F o x y ->
  denotes F n x sx u -> denotes F m y sy v -> sx && sy = false ->
  yields F (mul F o X c r x y) (fun z => reveals F p z (sx || sy) (fun j => bspec o j u v)).
Proof.
  intros F X c o n m p r x y sx sy u v L Hb Hr Hs Hx Hy Hsc.
  destruct (C26_product F o n m p r x y sx sy u v L Hb Hr Hs Hx Hy) as (z & E & _ & D).
  exists z. split; [|exact D]. unfold mul, bind. destruct (product F o r x y) as [lg rs]. cbn [snd] in E. subst rs.
  assert (Ex : scaled x = sx) by (destruct x; cbn [denotes] in Hx; unfold scaled; tauto).
  assert (Ey : scaled y = sy) by (destruct y; cbn [denotes] in Hy; unfold scaled; tauto).
  rewrite Ex, Ey, Hsc. reflexivity.
Qed.
Print Assumptions C26_not_truncated.
Theorem C26_square_public : forall F X c n r v0 v1 u, lawful F -> denotes F n (Pub v0 v1 false) false u ->
  yields F (square F X c r (Pub v0 v1 false)) (fun z => denotes F n z false (fun i => u i * u i)).
Proof.
  intros F X c n r v0 v1 u L (_ & D0 & D1 & W0 & W1 & Hv). unfold square. destruct v0 as [d0 v0], v1 as [d1 v1]. cbn [pdev pval] in *. subst.
  unfold yields. cbn [bind op2 ret fst snd app pdev pval]. rewrite (mk_pub_ok F n) by (cbn [pdev pval]; auto using okT_vmul).
  cbn [scaled ret snd]. eexists. split; [reflexivity|]. cbn [denotes pdev pval].
  split; [reflexivity|]. split; [reflexivity|]. split; [reflexivity|]. split; [auto using okT_vmul|]. split; [auto using okT_vmul|].
  intros i Hi. destruct (Hv i Hi) as [A B]. rewrite !(tval_vmul F L n) by assumption. rewrite A, B. split; reflexivity.
Qed.
Print Assumptions C26_square_public.
(** The unsupported combinations raise: matmul(private, public), and conv2d with exactly one
    public operand. *)
Theorem C26_unsupported : forall F tab r s0 s1 sx v0 v1 sy,
  (exists lg, product F (BMat tab) r (Priv s0 s1 sx) (Pub v0 v1 sy) = (lg, Err AssertionError)) /\
  product F (BConv tab) r (Priv s0 s1 sx) (Pub v0 v1 sy) = ([], Err NotImplementedError) /\
  product F (BConv tab) r (Pub v0 v1 sy) (Priv s0 s1 sx) = ([], Err NotImplementedError).
Proof. intros. split; [eexists; reflexivity|]. split; reflexivity. Qed.
Print Assumptions C26_unsupported.
Example C26_nonvacuous : rnd_ok F64 (@MkRnd F64 [5; -1] [2 ^ 62; 3] [1; 2] [-9; 0] [7; 7] true [0; 0]) 2 2 2 /\
  match snd (product F64 BMul (@MkRnd F64 [5; -1] [2 ^ 62; 3] [1; 2] [-9; 0] [7; 7] true [0; 0]) ex_priv ex_priv) with
  | Ok (Priv z0 z1 _) => vadd F64 (pval z0) (pval z1) = [64; 1]
  | _ => False
  end.
Proof.
  split.
  - unfold rnd_ok; repeat match goal with |- _ /\ _ => split end; (split; [reflexivity|]); repeat constructor; vm_compute; congruence.
  - vm_compute; reflexivity.
Qed.

(** C27: any sequence of transformations and stackings of masked tensors. *)
Inductive mexp := MBase (k : nat) | MNeg (e : mexp) | MSel (idx : list (option nat)) (e : mexp)
  | MStack (idx : list (option nat)) (e1 e2 : mexp).
Section MExp.
Context (F : factory) (env : list (ptensor F)) (size : nat -> nat) (venv : nat -> nat -> Z).
Fixpoint meval (e : mexp) : M F (ptensor F) :=
  match e with
  | MBase k => match nth_error env k with Some t => ret t | None => raise TypeError end
  | MNeg e => bind (meval e) (negative F)
  | MSel idx e => bind (meval e) (transform F idx)
  | MStack idx e1 e2 => bind (meval e1) (fun a => bind (meval e2) (fun b => stack2 F idx a b))
  end.
Fixpoint msize (e : mexp) : nat :=
  match e with MBase k => size k | MNeg e => msize e | MSel idx _ => length idx | MStack idx _ _ => length idx end.
Fixpoint mspec (e : mexp) : nat -> Z :=
  match e with
  | MBase k => venv k
  | MNeg e => fun i => - mspec e i
  | MSel idx e => fun j => zoi (nth j idx None) (mspec e)
  | MStack idx e1 e2 => fun j => zoi (nth j idx None) (vapp (msize e1) (mspec e1) (mspec e2))
  end.
Fixpoint mwf (e : mexp) : Prop :=
  match e with
  | MBase k => (k < length env)%nat
  | MNeg e => mwf e
  | MSel idx e => mwf e /\ Forall (in_rng (msize e)) idx
  | MStack idx e1 e2 => mwf e1 /\ mwf e2 /\ Forall (in_rng (msize e1 + msize e2)) idx
  end.
End MExp.
Definition is_masked {F} (t : ptensor F) : Prop := match t with Masked _ _ _ _ _ _ _ _ _ => True | _ => False end.
Theorem C27_masked_invariant : forall F env size venv sc e, lawful F ->
  (forall k t, nth_error env k = Some t -> is_masked t /\ denotes F (size k) t sc (venv k)) -> mwf F env size e ->
  yields F (meval F env e) (fun t => is_masked t /\ denotes F (msize size e) t sc (mspec size venv e)).
Proof.
  intros F env size venv sc e L He. induction e as [k|e IH|idx e IH|idx e1 IH1 e2 IH2]; cbn [mwf meval msize mspec]; intros Hw.
  - destruct (nth_error env k) as [t|] eqn:E; [|apply nth_error_None in E; lia].
    exists t. split; [reflexivity|]. apply He, E.
  - apply (bind_yields F) with (P := fun t => is_masked t /\ denotes F (msize size e) t sc (mspec size venv e)); [apply IH, Hw|].
    intros t [Hm D]. destruct (local1_masked_ok F _ _ _ _ t sc _ (linear_vneg F L _) D) as (z & E & D' & K).
    exists z. split; [exact E|]. split; [|exact D']. destruct t; try contradiction. destruct z; try contradiction. exact I.
  - destruct Hw as [Hw Hi]. apply (bind_yields F) with (P := fun t => is_masked t /\ denotes F (msize size e) t sc (mspec size venv e)); [apply IH, Hw|].
    intros t [Hm D]. destruct (local1_masked_ok F _ _ _ _ t sc _ (linear_vsel F L idx _ Hi) D) as (z & E & D' & K).
    exists z. split; [exact E|]. split; [|exact D']. destruct t; try contradiction. destruct z; try contradiction. exact I.
  - destruct Hw as (Hw1 & Hw2 & Hi).
    apply (bind_yields F) with (P := fun t => is_masked t /\ denotes F (msize size e1) t sc (mspec size venv e1)); [apply IH1, Hw1|].
    intros t1 [Hm1 D1].
    apply (bind_yields F) with (P := fun t => is_masked t /\ denotes F (msize size e2) t sc (mspec size venv e2)); [apply IH2, Hw2|].
    intros t2 [Hm2 D2].
    destruct (stack2_ok F L idx _ _ t1 t2 sc _ _ Hi D1 D2) as (z & E & D' & K).
    { destruct t1; try contradiction. destruct t2; try contradiction. exact I. }
    exists z. split; [exact E|]. split; [|exact D']. destruct t1; try contradiction. destruct z; try contradiction. exact I.
Qed.
Print Assumptions C27_masked_invariant.
(** The exception among the transformations: squeezing a masked tensor always raises. *)
Theorem C27_squeeze_masked_refuted : forall F (t : ptensor F), snd (squeeze_masked F t) = Err TypeError.
Proof. reflexivity. Qed.
Print Assumptions C27_squeeze_masked_refuted.
Definition ex_masked : ptensor F64 :=
  match snd (mask F64 [5; -1] [2 ^ 62; 3] ex_priv) with Ok t => t | Err _ => ex_priv end.
Example C27_nonvacuous : is_masked ex_masked /\
  mwf F64 [ex_masked] (fun _ => 2%nat) (MSel [Some 3; None; Some 0]%nat (MStack [Some 0; Some 3; Some 1; Some 2]%nat (MNeg (MBase 0)) (MBase 0))).
Proof.
  split; [vm_compute; exact I|]. cbn. repeat split; try lia; repeat constructor; cbn; lia.
Qed.


(** C28: interactive truncation.  Both ring families; [rv] are the drawn masks. *)
Lemma bound_double_div c : 0 < scaling_base c -> 0 <= precision_fractional c -> 0 <= precision_integral c ->
  0 < scaling_factor c /\ 0 < bound_double c / scaling_factor c /\
  bound_double c / scaling_factor c * scaling_factor c = bound_double c /\
  (bound_double c / scaling_factor c) mod scaling_factor c = 0.
Proof.
  intros Hb Hf Hi. unfold bound_double, scaling_factor.
  set (b := scaling_base c) in *. set (f := precision_fractional c) in *. set (k := precision_integral c) in *.
  pose proof (Z.pow_pos_nonneg b f Hb Hf). pose proof (Z.pow_pos_nonneg b k Hb Hi).
  replace (k + 2 * f) with (k + f + f) by ring.
  rewrite (Z.pow_add_r b (k + f) f), (Z.pow_add_r b k f) by lia.
  rewrite Z.div_mul by lia. rewrite Z.mod_mul by lia. repeat split; nia.
Qed.

Lemma gcd_odd_pow b f w : Z.odd b = true -> 0 <= f -> 0 <= w -> Z.gcd (b ^ f) (2 ^ w) = 1.
Proof.
  intros Ho Hf Hw. apply Zgcd_1_rel_prime. apply rel_prime_sym. apply rel_prime_Zpower_r; [lia|].
  apply rel_prime_sym. apply rel_prime_Zpower_r; [lia|].
  apply Zgcd_1_rel_prime. rewrite Zodd_mod in Ho. apply Zeq_bool_eq in Ho.
  rewrite Z.gcd_comm. rewrite <- Z.gcd_mod by lia. rewrite Ho. reflexivity.
Qed.
Lemma reveals_of F n z sc q : lawful F -> denotes F n z sc q -> reveals F n z sc q.
Proof. intros; apply C25_reveal_exact; assumption. Qed.

Theorem C28_interactive_native : forall w c n a0 a1 sc x r rv, let F := native (MkN w None) in 1 < w ->
  Z.odd (scaling_base c) = true -> 0 < scaling_base c -> 0 <= precision_fractional c -> 0 <= precision_integral c ->
  2 * bound_double c + 2 ^ trunc_mask_bits c <= 2 ^ (w - 1) ->
  denotes F n (Priv a0 a1 sc) sc x -> (forall i, (i < n)%nat -> Z.abs (x i) <= bound_double c) ->
  okT F n r -> (forall i, (i < n)%nat -> tval F r i = rv i /\ rv i < 2 ^ trunc_mask_bits c) ->
  yields F (truncate_interactive F (native_fix w) c r a0 a1 sc) (fun z => exists q,
    denotes F n z sc q /\ reveals F n z sc q /\
    forall i, (i < n)%nat -> q i = x i / scaling_factor c +
      (if scaling_factor c <=? x i mod scaling_factor c + rv i mod scaling_factor c then 1 else 0)).
Proof.
  intros w c n a0 a1 sc x r rv F Hw Ho Hb Hf Hi HB Hx Hxb Wr Hr.
  destruct (bound_double_div c Hb Hf Hi) as (Hs & Hd & Hm & Hmm).
  assert (L : lawful F) by (apply lawful_native; split; [cbn; lia|exact I]).
  pose proof (pow2_half w ltac:(lia)) as Hh. pose proof (pow2_pos (w - 1) ltac:(lia)).
  assert (Hbs : 0 < bound_double c) by (rewrite <- Hm; nia).
  assert (Hsb : scaling_factor c <= bound_double c) by (rewrite <- Hm; nia).
  assert (Hdb : bound_double c / scaling_factor c <= bound_double c) by (apply Z.div_le_upper_bound; nia).
  assert (Hr0 : forall i, (i < n)%nat -> 0 <= rv i) by (intros i Hi'; rewrite <- (proj1 (Hr i Hi')); apply (tval_range F L n); exact Wr).
  destruct (interactive_ok F L (native_fix w) (in_s w)
    (fun base am => 0 < base /\ 0 <= am /\ base ^ am <= 2 ^ (w - 1) /\ (base = 2 \/ Z.odd base = true))
    c n a0 a1 sc x r rv (fixlaw_native w Hw)) as (z & E & D & _).
  - exact Hs.
  - repeat match goal with |- _ /\ _ => split end; auto. change (scaling_factor c <= 2 ^ (w - 1)). 
    pose proof (pow2_pos (trunc_mask_bits c)). assert (0 <= trunc_mask_bits c \/ trunc_mask_bits c < 0) as [?|?] by lia; [lia|].
    rewrite Z.pow_neg_r in HB by lia. lia.
  - cbn [fmod F native]. apply gcd_odd_pow; [assumption|assumption|cbn; lia].
  - destruct sc; [exact I|exact Hmm].
  - exact Hx.
  - exact Wr.
  - intros i Hi'. rewrite (proj1 (Hr i Hi')). reflexivity.
  - intros i Hi'. pose proof (Hr0 i Hi'). pose proof (proj2 (Hr i Hi')). split; lia.
  - intros i Hi'. pose proof (Hr0 i Hi'). pose proof (proj2 (Hr i Hi')). pose proof (Hxb i Hi').
    destruct sc; split; lia.
  - exists z. split; [exact E|]. eexists. split; [exact D|]. split; [apply reveals_of; assumption|]. intros; reflexivity.
Qed.
Print Assumptions C28_interactive_native.

Lemma fixlaw_crt est : is_estimate32 int100_moduli est ->
  fixlaw (crt_factory int100_moduli) (crt_fix est int100_moduli) int100_safe
    (fun base am => 0 < base /\ 0 <= am /\ Z.gcd (base ^ am) (prodZ int100_moduli) = 1 /\
      (base ^ am <= 176892 \/ exists s, 0 <= s <= 31 /\ base ^ am = 2 ^ s)).
Proof.
  intros He. split.
  - intros v am base Hv (Hb & Ha & Hg & Hk). cbn [fx_mod crt_fix fof crt_factory]. unfold crt_tmod.
    rewrite (C15_mod est v (base ^ am) He Hv); [reflexivity|].
    pose proof (Z.pow_pos_nonneg base am Hb Ha). destruct Hk as [Hk|Hk]; [left; lia|right; exact Hk].
  - intros v am base Hv (Hb & Ha & Hg & Hk). cbn [fx_trunc crt_fix fof crt_factory].
    apply C17_truncate; assumption.
Qed.

Theorem C28_interactive_int100 : forall est c n a0 a1 sc x r rv, let F := crt_factory int100_moduli in
  is_estimate32 int100_moduli est ->
  0 < scaling_base c -> 0 <= precision_fractional c -> 0 <= precision_integral c ->
  Z.gcd (scaling_factor c) (prodZ int100_moduli) = 1 ->
  (scaling_factor c <= 176892 \/ exists s, 0 <= s <= 31 /\ scaling_factor c = 2 ^ s) ->
  2 * bound_double c + 2 ^ trunc_mask_bits c <= 2 ^ 101 ->
  denotes F n (Priv a0 a1 sc) sc x -> (forall i, (i < n)%nat -> Z.abs (x i) <= bound_double c) ->
  okT F n r -> (forall i, (i < n)%nat -> tval F r i = rv i /\ rv i < 2 ^ trunc_mask_bits c) ->
  yields F (truncate_interactive F (crt_fix est int100_moduli) c r a0 a1 sc) (fun z => exists q,
    denotes F n z sc q /\ reveals F n z sc q /\
    forall i, (i < n)%nat -> q i = x i / scaling_factor c +
      (if scaling_factor c <=? x i mod scaling_factor c + rv i mod scaling_factor c then 1 else 0)).
Proof.
  intros est c n a0 a1 sc x r rv F He Hb Hf Hi Hg Hk HB Hx Hxb Wr Hr.
  destruct (bound_double_div c Hb Hf Hi) as (Hs & Hd & Hm & Hmm).
  assert (L : lawful F) by (apply lawful_crt, int100_ok).
  assert (Hdb : bound_double c / scaling_factor c <= bound_double c) by (apply Z.div_le_upper_bound; nia).
  assert (Hr0 : forall i, (i < n)%nat -> 0 <= rv i) by (intros i Hi'; rewrite <- (proj1 (Hr i Hi')); apply (tval_range F L n); exact Wr).
  assert (Safe : forall v, Z.abs v <= 2 ^ 101 -> int100_safe v).
  { intros v Hv. unfold int100_safe. assert (E : 2 * 2 ^ 101 < prodZ int100_moduli - 2 * (prodZ int100_moduli / 2 ^ 17 + 1)) by (vm_compute; reflexivity). lia. }
  destruct (interactive_ok F L (crt_fix est int100_moduli) int100_safe
    (fun base am => 0 < base /\ 0 <= am /\ Z.gcd (base ^ am) (prodZ int100_moduli) = 1 /\
      (base ^ am <= 176892 \/ exists s, 0 <= s <= 31 /\ base ^ am = 2 ^ s))
    c n a0 a1 sc x r rv (fixlaw_crt est He)) as (z & E & D & _).
  - exact Hs.
  - repeat match goal with |- _ /\ _ => split end; auto.
  - exact Hg.
  - destruct sc; [exact I|exact Hmm].
  - exact Hx.
  - exact Wr.
  - intros i Hi'. rewrite (proj1 (Hr i Hi')). reflexivity.
  - intros i Hi'. apply Safe. pose proof (Hr0 i Hi'). pose proof (proj2 (Hr i Hi')). lia.
  - intros i Hi'. apply Safe. pose proof (Hr0 i Hi'). pose proof (proj2 (Hr i Hi')). pose proof (Hxb i Hi').
    destruct sc; lia.
  - exists z. split; [exact E|]. eexists. split; [exact D|]. split; [apply reveals_of; assumption|]. intros; reflexivity.
Qed.
Print Assumptions C28_interactive_int100.

(** A power-of-two base over a power-of-two ring has no inverse: interactive truncation raises
    for every input (e.g. fixed64_heuristic with int64). *)
Theorem C28_base2_native_raises : forall w c r a0 a1 sc X, 1 < w -> scaling_base c = 2 -> 0 < precision_fractional c ->
  snd (truncate_interactive (native (MkN w None)) X c r a0 a1 sc) = Err AssertionError.
Proof.
  intros w c r a0 a1 sc X Hw Hb Hf. apply interactive_raises.
  - apply lawful_native; split; [cbn; lia|exact I].
  - unfold scaling_factor. rewrite Hb. apply Z.pow_nonneg; lia.
  - unfold scaling_factor. rewrite Hb. cbn [fmod native n_modulus nmodulus nw]. intros Hg.
    assert (H2 : (2 | Z.gcd (2 ^ precision_fractional c) (2 ^ w))).
    { apply Z.gcd_greatest; [replace (precision_fractional c) with (Z.succ (precision_fractional c - 1)) by lia|replace w with (Z.succ (w - 1)) by lia];
      rewrite Z.pow_succ_r by lia; apply Z.divide_mul_l, Z.divide_refl. }
    unfold n_modulus in Hg; cbn [nmodulus nw] in Hg. rewrite Hg in H2. apply Z.divide_1_r_nonneg in H2; lia.
Qed.
Print Assumptions C28_base2_native_raises.

(** The whole fixed-point product of two private tensors with the shipped interactive
    configurations: the revealed value is the floor of the exact quotient or one more. *)
Lemma mul_interactive F X c o n m p r x y u v : lawful F -> bok o n m p -> rnd_ok F r n m p ->
  (forall v0 v1 s w0 w1 t, ~ (x = Pub v0 v1 s /\ y = Pub w0 w1 t)) -> supported F o x y ->
  denotes F n x true u -> denotes F m y true v ->
  use_noninteractive c = false ->
  (forall a0 a1, denotes F p (Priv a0 a1 true) true (fun j => bspec o j u v) ->
    yields F (truncate_interactive F X c (rtr F r) a0 a1 true) (fun z => exists q, denotes F p z true q /\
      forall i, (i < p)%nat -> q i = bspec o i u v / scaling_factor c \/ q i = bspec o i u v / scaling_factor c + 1)) ->
  yields F (mul F o X c r x y) (fun z => exists q, reveals F p z true q /\
      forall i, (i < p)%nat -> q i = bspec o i u v / scaling_factor c \/ q i = bspec o i u v / scaling_factor c + 1).
Proof.
  intros L Hb Hr Pxy Hs Dx Dy Hni HT.
  destruct (product_ok F L o n m p r x y true true u v Hb Hr Hs Dx Dy) as (z & E & D & Hz).
  unfold mul. rewrite (denotes_scaled F n x true u Dx), (denotes_scaled F m y true v Dy). cbn [andb].
  unfold yields, bind. rewrite E. cbn [snd].
  assert (Hp : exists a0 a1, z = Priv a0 a1 true).
  { pose proof (denotes_scaled F p z _ _ D) as Hsc.
    destruct z as [v0 v1 s|a0 a1 s|]; [|cbn in Hsc; subst s; eauto|destruct x, y; contradiction].
    destruct x; try (destruct y; contradiction). destruct y; try contradiction. edestruct Pxy; split; reflexivity. }
  destruct Hp as (a0 & a1 & ->). unfold truncate. cbn [unmasked]. rewrite Hni.
  destruct (HT a0 a1 D) as (z' & E' & q & D' & Hq). exists z'. split; [exact E'|]. exists q.
  split; [apply reveals_of; assumption|exact Hq].
Qed.
Definition mask_draw (F : factory) (c : fpconfig) (p : nat) (r : list (felt F)) : Prop :=
  forall i, (i < p)%nat -> tval F r i < 2 ^ trunc_mask_bits c.
Theorem C28_mul_fixed64 : forall o n m p r x y u v, let F := native (MkN 64 None) in
  bok o n m p -> rnd_ok F r n m p -> mask_draw F fixed64 p (rtr F r) ->
  (forall v0 v1 s w0 w1 t, ~ (x = Pub v0 v1 s /\ y = Pub w0 w1 t)) -> supported F o x y ->
  denotes F n x true u -> denotes F m y true v ->
  (forall i, (i < p)%nat -> Z.abs (bspec o i u v) <= 3 ^ 23) ->
  yields F (mul F o (native_fix 64) fixed64 r x y) (fun z => exists q, reveals F p z true q /\
    forall i, (i < p)%nat -> q i = bspec o i u v / 3 ^ 8 \/ q i = bspec o i u v / 3 ^ 8 + 1).
Proof.
  intros o n m p r x y u v F Hb Hr Hm Px Hs Dx Dy Hbd. pose proof Hr as (_ & _ & _ & _ & _ & R6).
  change (3 ^ 8) with (scaling_factor fixed64).
  apply (mul_interactive F (native_fix 64) fixed64 o n m p r x y u v); auto.
  - apply lawful_native; split; [cbn; lia|exact I].
  - intros a0 a1 D.
    destruct (C28_interactive_native 64 fixed64 p a0 a1 true (fun j => bspec o j u v) (rtr F r) (tval F (rtr F r))) as (z & E & q & D' & _ & Hq); auto.
    + lia.
    + vm_compute; reflexivity.
    + vm_compute; congruence.
    + vm_compute; congruence.
    + vm_compute; congruence.
    + exists z. split; [exact E|]. exists q. split; [exact D'|]. intros i Hi. rewrite (Hq i Hi).
      match goal with |- context [if ?b then _ else _] => destruct b end; lia.
Qed.
Print Assumptions C28_mul_fixed64.
Theorem C28_mul_fixed100 : forall est o n m p r x y u v, let F := crt_factory int100_moduli in
  is_estimate32 int100_moduli est ->
  bok o n m p -> rnd_ok F r n m p -> mask_draw F fixed100 p (rtr F r) ->
  (forall v0 v1 s w0 w1 t, ~ (x = Pub v0 v1 s /\ y = Pub w0 w1 t)) -> supported F o x y ->
  denotes F n x true u -> denotes F m y true v ->
  (forall i, (i < p)%nat -> Z.abs (bspec o i u v) <= 2 ^ 46) ->
  yields F (mul F o (crt_fix est int100_moduli) fixed100 r x y) (fun z => exists q, reveals F p z true q /\
    forall i, (i < p)%nat -> q i = bspec o i u v / 2 ^ 16 \/ q i = bspec o i u v / 2 ^ 16 + 1).
Proof.
  intros est o n m p r x y u v F He Hb Hr Hm Px Hs Dx Dy Hbd. pose proof Hr as (_ & _ & _ & _ & _ & R6).
  change (2 ^ 16) with (scaling_factor fixed100).
  apply (mul_interactive F (crt_fix est int100_moduli) fixed100 o n m p r x y u v); auto.
  - apply lawful_crt, int100_ok.
  - intros a0 a1 D.
    destruct (C28_interactive_int100 est fixed100 p a0 a1 true (fun j => bspec o j u v) (rtr F r) (tval F (rtr F r))) as (z & E & q & D' & _ & Hq); auto.
    all: match goal with |- yields _ _ _ => idtac | |- _ \/ _ => left; vm_compute; congruence | _ => vm_compute; first [reflexivity|congruence] end.
    exists z. split; [exact E|]. exists q. split; [exact D'|]. intros i Hi. rewrite (Hq i Hi).
      match goal with |- context [if ?b then _ else _] => destruct b end; lia.
Qed.
Print Assumptions C28_mul_fixed100.

(** C28: the mask hides the value statistically: the value server 1 opens depends on the masked
    sum only, so a different value is explained by the shifted mask. *)
Theorem C28_server1_view : forall F X c n r a0 a0' a1 sc, lawful F -> fx_total F X ->
  okT F n a0 -> okT F n a0' -> okT F n a1 -> okT F n r ->
  view Srv1 (truncate_interactive F X c (vadd F r (vsub F a0 a0')) (MkPv Srv0 a0') (MkPv Srv1 a1) sc) =
  view Srv1 (truncate_interactive F X c r (MkPv Srv0 a0) (MkPv Srv1 a1) sc).
Proof. intros F X c n r a0 a0' a1 sc L T W0 W0' W1 Wr. exact (interactive_hides_1 F L X c n r a0 a0' a1 sc T W0 W0' W1 Wr). Qed.
Print Assumptions C28_server1_view.
Theorem C28_server0_view : forall F X c n r a0 a1 a1' sc, lawful F -> fx_total F X ->
  okT F n a0 -> okT F n a1' -> okT F n a1 -> okT F n r ->
  view Srv0 (truncate_interactive F X c r (MkPv Srv0 a0) (MkPv Srv1 a1') sc) =
  view Srv0 (truncate_interactive F X c r (MkPv Srv0 a0) (MkPv Srv1 a1) sc).
Proof. intros F X c n r a0 a1 a1' sc L T W0 W1' W1 Wr. exact (interactive_hides_0 F L X c n r a0 a1 a1' sc T W0 W1' W1 Wr). Qed.
Print Assumptions C28_server0_view.
Example C28_nonvacuous : fx_total F64 (native_fix 64) /\
  2 * bound_double fixed64 + 2 ^ trunc_mask_bits fixed64 <= 2 ^ 63 /\
  2 * bound_double fixed100 + 2 ^ trunc_mask_bits fixed100 <= 2 ^ 101 /\
  (let one := Priv (@MkPv F64 Srv0 [12345]) (@MkPv F64 Srv1 [-5784]) true in
   match snd (mul F64 BMul (native_fix 64) fixed64 (@MkRnd F64 [5] [77] [-8] [2] [13] false [2 ^ 57 + 1]) one one) with
   | Ok (Priv z0 z1 _) => vadd F64 (pval z0) (pval z1) = [3 ^ 8]
   | _ => False
   end).
Proof.
  split; [intros e k; eexists; reflexivity|]. split; [vm_compute; congruence|]. split; [vm_compute; congruence|].
  vm_compute; reflexivity.
Qed.

(** C29: non-interactive truncation, 2^w ring, on every sharing of every value. *)
Theorem C29_ni_native : forall w c n a0 a1 sc x, let F := native (MkN w None) in
  let s := scaling_factor c in let x0 i := swrap w (tval F (pval a0) i) in
  1 < w -> 0 < scaling_base c -> 0 <= precision_fractional c -> s <= 2 ^ (w - 1) ->
  (scaling_base c = 2 \/ Z.odd (scaling_base c) = true) ->
  denotes F n (Priv a0 a1 sc) sc x -> (forall i, (i < n)%nat -> in_s w (x i)) ->
  yields F (truncate_ni F (native_fix w) c a0 a1 sc) (fun z => exists q, reveals F n z sc q /\
    forall i, (i < n)%nat ->
      let wraps := x0 i < x i - 2 ^ (w - 1) \/ x i + 2 ^ (w - 1) <= x0 i in
      (~ wraps -> q i = x i / s \/ q i = x i / s + 1) /\
      (wraps -> 2 ^ w / s - 1 <= Z.abs (q i - x i / s) <= 2 ^ w / s + 2)).
Proof.
  intros w c n a0 a1 sc x F s x0 Hw Hb Hf Hsl Ho Hd Hx.
  assert (L : lawful F) by (apply lawful_native; split; [cbn; lia|exact I]).
  pose proof (pow2_half w ltac:(lia)) as Hh. pose proof (pow2_pos (w - 1) ltac:(lia)).
  assert (Hs : 0 < s) by (apply Z.pow_pos_nonneg; assumption).
  cbn [denotes] in Hd. destruct Hd as (_ & D0 & D1 & W0 & W1 & Hv).
  set (x1 := fun i => swrap w (tval F (pval a1) i)).
  destruct (ni_ok F L (native_fix w) (in_s w)
    (fun base am => 0 < base /\ 0 <= am /\ base ^ am <= 2 ^ (w - 1) /\ (base = 2 \/ Z.odd base = true))
    (-1) c n a0 a1 sc x0 (fun i => swrap w (- x1 i)) (fixlaw_native w Hw)) as (z & E & D & _); auto.
  - intros v. cbn [fx_rsub0 native_fix fof F native nmodulus nw]. unfold n_rsub, n_sub, n_lift, n_norm; cbn [nmodulus nw].
    apply (in_s_eqm_eq w); [lia|apply swrap_range; lia|apply swrap_range; lia|].
    rewrite !(swrap_eqm w) by lia. apply eqm_eq. ring.
  - intros i Hi. unfold x0. rewrite (swrap_eqm w) by lia. reflexivity.
  - intros i Hi. unfold x1. change (fmod F) with (2 ^ w).
    rewrite (swrap_eqm w (- swrap w _)) by lia.
    transitivity (- tval F (pval a1) i); [apply eqm_eq; match goal with |- _ = - ?t => change (-1 * t = - t); generalize t; intros; ring end|].
    apply eqm_opp. symmetry; apply swrap_eqm; lia.
  - intros i Hi. split; apply swrap_range; lia.
  - exists z. split; [exact E|]. eexists. split; [apply reveals_of; [exact L|exact D]|]. intros i Hi. cbv zeta.
    pose proof (ni_native_ok w s (x i) (x0 i) (x1 i) Hw Hs ltac:(lia) (Hx i Hi) ltac:(apply swrap_range; lia) ltac:(apply swrap_range; lia)) as G.
    cbv zeta in G. unfold ni_native in G. fold s.
    replace (x0 i / s + -1 * (swrap w (- x1 i) / s)) with (x0 i / s - swrap w (- x1 i) / s) by ring.
    apply G. rewrite <- (Hv i Hi). unfold x0, x1. cbn [fmod F native]. change (n_modulus (MkN w None)) with (2 ^ w).
    rewrite !(swrap_eqm w) by lia. reflexivity.
Qed.
Print Assumptions C29_ni_native.
(** For each value the wrapping sharings are an interval of exactly |x| of the 2^w first shares. *)
Theorem C29_bad_sharings : forall w x, 1 < w -> in_s w x -> exists lo,
  - 2 ^ (w - 1) <= lo /\ lo + Z.abs x <= 2 ^ (w - 1) /\
  forall x0, in_s w x0 -> ((x0 < x - 2 ^ (w - 1) \/ x + 2 ^ (w - 1) <= x0) <-> lo <= x0 < lo + Z.abs x).
Proof.
  intros w x Hw Hx. unfold in_s in *. pose proof (pow2_pos (w - 1) ltac:(lia)).
  exists (if 0 <=? x then - 2 ^ (w - 1) else x + 2 ^ (w - 1)). destruct (Z.leb_spec 0 x); repeat split; lia.
Qed.
Print Assumptions C29_bad_sharings.
(** int100: the code's [0 - x] is [x], so both shares are truncated directly; for shares that do
    not wrap and lie in the exact range, the result is the floor or one less. *)
Theorem C29_ni_int100 : forall est c n a0 a1 sc x x0 x1, let F := crt_factory int100_moduli in
  let s := scaling_factor c in is_estimate32 int100_moduli est ->
  0 < scaling_base c -> 0 <= precision_fractional c ->
  Z.gcd s (prodZ int100_moduli) = 1 -> (s <= 176892 \/ exists k, 0 <= k <= 31 /\ s = 2 ^ k) ->
  denotes F n (Priv a0 a1 sc) sc x ->
  (forall i, (i < n)%nat -> eqm (fmod F) (tval F (pval a0) i) (x0 i) /\ eqm (fmod F) (tval F (pval a1) i) (x1 i) /\
     int100_safe (x0 i) /\ int100_safe (x1 i)) ->
  yields F (truncate_ni F (crt_fix est int100_moduli) c a0 a1 sc) (fun z => exists q, reveals F n z sc q /\
    forall i, (i < n)%nat ->
      (x0 i + x1 i = x i -> q i = x i / s \/ q i = x i / s - 1) /\
      (forall k, x0 i + x1 i = x i + k * prodZ int100_moduli ->
        q i = (x i + k * prodZ int100_moduli) / s \/ q i = (x i + k * prodZ int100_moduli) / s - 1)).
Proof.
  intros est c n a0 a1 sc x x0 x1 F s He Hb Hf Hg Hk Hd Hsh.
  assert (L : lawful F) by (apply lawful_crt, int100_ok).
  assert (Hs : 0 < s) by (apply Z.pow_pos_nonneg; assumption).
  cbn [denotes] in Hd. destruct Hd as (_ & D0 & D1 & W0 & W1 & Hv).
  destruct (ni_ok F L (crt_fix est int100_moduli) int100_safe
    (fun base am => 0 < base /\ 0 <= am /\ Z.gcd (base ^ am) (prodZ int100_moduli) = 1 /\
      (base ^ am <= 176892 \/ exists s, 0 <= s <= 31 /\ base ^ am = 2 ^ s))
    1 c n a0 a1 sc x0 x1 (fixlaw_crt est He)) as (z & E & D & _); auto.
  - intros v. rewrite Z.mul_1_l. cbn [fx_rsub0 crt_fix fof F crt_factory]. unfold crt_op_rsub, crt_lift.
    apply (law_inj F L).
    + apply (law_sub_wf F L); apply (law_of_wf F L).
    + apply (law_of_wf F L).
    + change (fval F (fsub F (fof F v) (fof F 0)) = fval F (fof F v)).
      rewrite (law_sub F L) by apply (law_of_wf F L). rewrite !(law_of F L).
      rewrite Z.mod_0_l by (pose proof (law_mod F L); lia). rewrite Z.sub_0_r, Z.mod_mod by (pose proof (law_mod F L); lia). reflexivity.
  - intros i Hi. exact (proj1 (Hsh i Hi)).
  - intros i Hi. rewrite Z.mul_1_l. exact (proj1 (proj2 (Hsh i Hi))).
  - intros i Hi. exact (proj2 (proj2 (Hsh i Hi))).
  - exists z. split; [exact E|]. eexists. split; [apply reveals_of; [exact L|exact D]|]. intros i Hi. fold s.
    assert (G : forall t, x0 i + x1 i = t -> x0 i / s + 1 * (x1 i / s) = t / s \/ x0 i / s + 1 * (x1 i / s) = t / s - 1).
    { intros t <-. pose proof (div_add_le s (x0 i) (x1 i) Hs). pose proof (div_add_ge s (x0 i) (x1 i) Hs). lia. }
    split; [apply G|]. intros k. apply G.
Qed.
Print Assumptions C29_ni_int100.
Example C29_nonvacuous : 2 ^ 13 <= 2 ^ 63 /\ scaling_factor fixed64_ni = 2 ^ 13 /\
  (let t a b := match snd (truncate_ni F64 (native_fix 64) fixed64_ni (@MkPv F64 Srv0 [a]) (@MkPv F64 Srv1 [b]) true) with
   | Ok (Priv z0 z1 _) => vadd F64 (pval z0) (pval z1) | _ => [] end in
   t 123456 (2 ^ 20 - 123456) = [2 ^ 7] /\ t (- 2 ^ 63) (- 2 ^ 63 + 2 ^ 20) = [2 ^ 7 - 2 ^ 51]).
Proof. split; [lia|]. split; [reflexivity|]. vm_compute; split; reflexivity. Qed.

(** C34: what each server sees during the product of two private tensors is independent of the
    other server's shares: a bijection on the randomness maps one run to the other. *)
Theorem C34_server_views : forall F d o n m p own x x' sx own' y y' sy, lawful F -> (d = Srv0 \/ d = Srv1) ->
  bok o n m p -> okT F n x -> okT F n x' -> okT F m y -> okT F m y' ->
  let P u v s := match d with Srv0 => Priv (MkPv Srv0 u) (MkPv Srv1 v) s | _ => Priv (MkPv Srv0 v) (MkPv Srv1 u) s end in
  exists f, bijection (fun r => rnd_ok F r n m p) f /\
  forall r, rnd_ok F r n m p ->
    view d (product F o (f r) (P own x' sx) (P own' y' sy)) = view d (product F o r (P own x sx) (P own' y sy)).
Proof.
  intros F d o n m p own x x' sx own' y y' sy L Hd Hb Hx Hx' Hy Hy' P. exists (move_rnd F d o x x' y y').
  split; [apply move_rnd_bij; assumption|]. intros r Hr.
  exact (product_hides F L d o n m p r own x x' sx own' y y' sy Hb Hr Hd Hx Hx' Hy Hy').
Qed.
Print Assumptions C34_server_views.
(** The crypto producer learns nothing at all. *)
Theorem C34_producer_view : forall F o r x0 x1 sx y0 y1 sy x0' x1' sx' y0' y1' sy',
  view Producer (product F o r (Priv (MkPv Srv0 x0) (MkPv Srv1 x1) sx) (Priv (MkPv Srv0 y0) (MkPv Srv1 y1) sy)) =
  view Producer (product F o r (Priv (MkPv Srv0 x0') (MkPv Srv1 x1') sx') (Priv (MkPv Srv0 y0') (MkPv Srv1 y1') sy')).
Proof. intros. exact (product_producer F o r x0 x1 sx y0 y1 sy x0' x1' sx' y0' y1' sy'). Qed.
Print Assumptions C34_producer_view.
(** The two opened values take every value for exactly one mask. *)
Theorem C34_opened_uniform : forall F n x t, lawful F -> okT F n x -> okT F n t ->
  exists! a, okT F n a /\ vsub F x a = t.
Proof.
  intros F n x t L Hx Ht. exists (vsub F x t).
  assert (E : forall q, okT F n q -> vsub F x (vsub F x q) = q).
  { intros q Hq. apply (ten_ext F L n); auto using okT_vsub. intros i Hi.
    rewrite !(tval_vsub F L n) by auto using okT_vsub. apply eqm_eq. ring. }
  split; [split; auto using okT_vsub|]. intros a [Ha <-]. apply E, Ha.
Qed.
Print Assumptions C34_opened_uniform.
Example C34_nonvacuous : bok (BMat (matmul_tab 1 2 1)) 2 2 1 /\
  length (view Srv0 (product F64 (BMat (matmul_tab 1 2 1)) (@MkRnd F64 [5; -1] [2 ^ 62; 3] [1; 2] [-9; 0] [7] true [0]) ex_priv ex_priv)) = 34%nat /\
  In [4; 2 ^ 40] (view Srv0 (mask F64 [5; -1] [2; 3] (Priv (@MkPv F64 Srv0 [0; 0]) (@MkPv F64 Srv1 [6; 2 ^ 40 + 3]) true))).
Proof. split; [exact (matmul_tab_ok 1 2 1)|]. split; [vm_compute; reflexivity|]. vm_compute. tauto. Qed.

(** C33: products with a public operand: a server's view does not depend on the other share, for
    mul in both orders and for matmul(public, private). *)
Theorem C33_public_operand_views : forall F d o r v0 v1 sx y0 y1 y sy, (d = Srv0 \/ d = Srv1) ->
  let P := Priv (MkPv Srv0 y0) (MkPv Srv1 y1) sy in
  let P' := match d with Srv0 => Priv (MkPv Srv0 y0) (MkPv Srv1 y) sy | _ => Priv (MkPv Srv0 y) (MkPv Srv1 y1) sy end in
  view d (product F o r (Pub v0 v1 sx) P) = view d (product F o r (Pub v0 v1 sx) P') /\
  ((forall tab, o <> BMat tab) -> view d (product F o r P (Pub v0 v1 sx)) = view d (product F o r P' (Pub v0 v1 sx))).
Proof.
  intros F d o r v0 v1 sx y0 y1 y sy Hd P P'. split.
  - exact (product_pub_priv_view F d o r v0 v1 sx y0 y1 y sy Hd).
  - exact (product_priv_pub_view F d o r v0 v1 sx y0 y1 y sy Hd).
Qed.
Print Assumptions C33_public_operand_views.
(** Refuted for matmul(private, public): server 0 gets both shares, and the call then raises. *)
Theorem C33_matmul_private_public_refuted : forall F tab r v0 v1 sx y0 y1 sy,
  let m := product F (BMat tab) r (Priv (MkPv Srv0 y0) (MkPv Srv1 y1) sy) (Pub v0 v1 sx) in
  snd m = Err AssertionError /\ In y0 (view Srv0 m) /\ In y1 (view Srv0 m).
Proof. intros. exact (matmul_priv_pub_leak F tab r v0 v1 sx y0 y1 sy). Qed.
Print Assumptions C33_matmul_private_public_refuted.
Example C33_nonvacuous : view Srv0 (product F64 BMul (@MkRnd F64 [] [] [] [] [] true []) ex_priv (Pub (@MkPv F64 Srv0 [4; -1]) (@MkPv F64 Srv1 [4; -1]) true))
  = [[2 ^ 63 - 1; -7]; [4; -1]; [-4; 7]].
Proof. vm_compute. reflexivity. Qed.
