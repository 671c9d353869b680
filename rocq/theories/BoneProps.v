(** C110: compiled functions under Pond and SecureNN. *)
From Coq Require Import Lia.
From Verif Require Import Base CrtModel BoneModel BoneSpec.

Lemma cross_plain est t : plain t -> cross est t = Done t.
Proof. intros (n & I & B). destruct t; cbn in B; subst f; unfold cross; cbn; destruct I as [<-|[<-|[<-|[<-|[]]]]]; reflexivity. Qed.
Lemma cross_all_plain est ts : Forall plain ts -> cross_all est ts = Done ts.
Proof. induction 1 as [|t ts H _ IH]; [reflexivity|]. cbn. rewrite (cross_plain est t H). cbn. rewrite IH. reflexivity. Qed.
(** With 64-bit words (the default) a compiled function returns, share for share and mask for mask, what the function returns,
    and raises when it does. *)
Theorem C110_words : forall est func args, Forall plain args -> (forall r, func args = Done r -> Forall plain r) -> compiled est func args = func args.
Proof.
  intros est func args HA HR. unfold compiled. rewrite (cross_all_plain est args HA). cbn. destruct (func args) as [r| | |] eqn:E; try reflexivity.
  cbn. apply cross_all_plain, HR. reflexivity.
Qed.
Print Assumptions C110_words.
Lemma natives_crt est ms t : backed t (PCrt ms) -> cross est t = AttributeError \/ cross est t = AssertionError.
Proof.
  destruct t; cbn; intros ->; unfold cross, bone, obind; match goal with |- context[natives est ?f ?ws] => destruct (natives est f ws) as [l| | |] eqn:E end; auto;
    try (cbn in E; repeat (destruct (crt_to_native est ms _); [|discriminate]); discriminate);
    repeat (destruct l as [|? l]; auto).
Qed.
(** With high precision (100-bit CRT tensors) no Pond tensor can be an argument of a compiled function, so predict, fit and
    evaluate of a model raise on every tensor. *)
Theorem C110_high_precision_refuted : forall est func ms t args, backed t (PCrt ms) -> forall r, compiled est func (t :: args) <> Done r.
Proof.
  intros est func ms t args B r. unfold compiled. cbn [cross_all]. destruct (natives_crt est ms t B) as [E|E]; rewrite E; discriminate.
Qed.
Print Assumptions C110_high_precision_refuted.
(** A tensor modulo a prime comes out as a tensor of words with the same shares, off by the prime whenever their sum reaches it. *)
Theorem C110_prime_refuted : forall est n m sc a b, In n [8; 16; 32; 64] -> 0 < m -> 2 * m <= 2 ^ (n - 1) -> 0 <= a < m -> 0 <= b < m ->
  exists t, cross est (TPriv (PMod n m) sc [a] [b]) = Done t /\ opened (TPriv (PMod n m) sc [a] [b]) = Some ((a + b) mod m) /\
    opened t = Some ((a + b) mod m + if a + b <? m then 0 else m).
Proof.
  intros est n m sc a b I Hm Hn Ha Hb. exists (TPriv (PN n) sc [a] [b]).
  assert (N : 0 < n) by (destruct I as [<-|[<-|[<-|[<-|[]]]]]; lia).
  split; [unfold cross; cbn; destruct I as [<-|[<-|[<-|[<-|[]]]]]; reflexivity|]. split; [reflexivity|]. cbn. f_equal.
  rewrite (swrap_id n (a + b) N) by (unfold in_s; lia). destruct (a + b <? m) eqn:E; [apply Z.ltb_lt in E|apply Z.ltb_ge in E].
  - rewrite Z.mod_small by lia. lia.
  - rewrite (Z.mod_eq (a + b) m) by lia. assert ((a + b) / m = 1) as -> by (symmetry; apply (Z.div_unique (a + b) m 1 (a + b - m)); lia). lia.
Qed.
Print Assumptions C110_prime_refuted.

(** The default precision, with a masked argument; a function that raises. *)
Example C110_nonvacuous : let f := fun ts : list ptn => match ts with [TPriv g sc [a] [b]; m] => Done [m; TPriv g sc [swrap 64 (2 * a)] [swrap 64 (2 * b)]] | _ => KeyError end in
  let x := TPriv (PN 64) true [7] [-3] in let y := TMask (PN 64) true true [1] [2] [9] [4] [5] [-3] [-3] in
  Forall plain [x; y] /\ compiled (fun _ => 0) f [x; y] = Done [y; TPriv (PN 64) true [14] [-6]] /\ compiled (fun _ => 0) f [x] = KeyError.
Proof.
  assert (P : In 64 [8; 16; 32; 64]) by (cbn; auto). split; [repeat constructor; exists 64; (split; [exact P|reflexivity])|]. split; reflexivity.
Qed.
(** Shares 40 and 40 of 13 modulo 67 open to 80 inside a compiled function. *)
Example C110_prime_run : exists t, cross (fun _ => 0) (TPriv (PMod 64 67) false [40] [40]) = Done t /\ opened (TPriv (PMod 64 67) false [40] [40]) = Some 13 /\ opened t = Some 80.
Proof. eexists. repeat split. Qed.
