(** Properties of variables, configurations, the active protocol and the namespace: C30, C69, C70, C80, C81. *)
From Coq Require Import ZArith List Bool String NArith Lia.
From Verif Require Import Base StateModel StateSpec StateProofs.
Import ListNotations.
Open Scope string_scope.
Open Scope list_scope.

(** C30: after any history, [read_value] of a variable returns the contents of its last legal assignment (its initial
    contents without one), with its own scaling and class. *)
Theorem C30_read_last (vs0 : list variable) (l : list stmt) i v0 :
  Forall (fun v => raising v = false) vs0 -> nth_error vs0 i = Some v0 ->
  let vs := fst (steps vs0 l) in
  exists c, step vs (Read i) = (vs, Got (Tensor c (vscaled v0) (vcls v0))) /\ last_assigned vs0 v0 i l (now v0) c.
Proof.
  intros NR E vs. destruct (steps_last vs0 v0 i NR E l vs0 v0 (alike_refl vs0) E) as (v & Ev & L). fold vs in Ev.
  exists (now v). split; [|exact L]. cbn [step]. rewrite Ev.
  pose proof (alike_nth vs vs0 i (steps_alike l vs0 vs0 (alike_refl vs0))) as N. rewrite Ev, E in N. destruct N as (_ & B & C & _).
  unfold read_value. rewrite B, C. reflexivity.
Qed.
Print Assumptions C30_read_last.

(** C30: the variable itself, used as a tensor, keeps the value it was built with, whatever is assigned. *)
Theorem C30_use_initial (vs0 : list variable) (l : list stmt) i v0 :
  nth_error vs0 i = Some v0 -> let vs := fst (steps vs0 l) in step vs (Use i) = (vs, Got (as_tensor v0)).
Proof.
  intros E vs. cbn [step]. pose proof (alike_nth vs vs0 i (steps_alike l vs0 vs0 (alike_refl vs0))) as N. rewrite E in N.
  destruct (nth_error vs i) as [v|]; [|contradiction]. destruct N as (A & B & C & _). unfold as_tensor. rewrite A, B, C. reflexivity.
Qed.
Print Assumptions C30_use_initial.

(** C30: a tensor of the variable's class (share type included) assigned and read back reveals the same. *)
Theorem C30_reveals (m : Z) (v : variable) (t : tensor) :
  raising v = false -> cls t = vcls v -> scaled t = vscaled v ->
  let '(v', r) := assign v t in r = Done /\ revealed m (read_value v') = revealed m t /\ scaled (read_value v') = scaled t.
Proof.
  intros R C S. unfold assign.
  assert (L : same_class (vcls v) (cls t) && Bool.eqb (vscaled v) (scaled t) = true).
  { apply legal_ok. split; [exact S|]. rewrite C. destruct (vcls v); exact I. }
  rewrite L, R. split; [reflexivity|]. unfold read_value, revealed. cbn. rewrite <- C, <- S. auto.
Qed.
Print Assumptions C30_reveals.

Definition pond7 : tensor := Tensor [[3%Z]; [4%Z]] true Private2.
Definition pond9 : tensor := Tensor [[10%Z]; [-1]%Z] true Private2.
Example C30_example :
  let vs := [fresh pond7 false; fresh pond7 false] in
  let l := [Read 0; Assign 0 (FromTensor pond9); Assign 1 (FromTensor (Tensor [[1%Z]; [1%Z]] false Private2)); Read 0; Read 1; Use 0] in
  snd (steps vs l) = [Got pond7; Done; Fail; Got pond9; Got pond7; Got pond7] /\
  revealed 8 pond7 = [7%Z] /\ revealed 8 pond9 = [9%Z] /\ last_assigned vs (fresh pond7 false) 0 l (cells pond7) (cells pond9).
Proof.
  cbn -[swrap]. split; [reflexivity|]. split; [reflexivity|]. split; [reflexivity|].
  apply la_read. eapply la_hit; [reflexivity|repeat split|]. apply la_other; [discriminate|]. apply la_read, la_read, la_use, la_nil.
Qed.

(** C30 is false of the code for variables on the right: [assign(a, b)] stores what [b] was built with, not what was
    assigned to it since. *)
Theorem C30_copy_stale_refuted (a b t : tensor) :
  cls a = cls b -> cls t = cls b -> scaled a = scaled b -> scaled t = scaled b ->
  snd (steps [fresh a false; fresh b false] [Assign 1 (FromTensor t); Assign 0 (FromVariable 1); Read 0; Read 1])
  = [Done; Done; Got b; Got t].
Proof.
  intros A T SA ST. assert (R : forall c, same_class c c = true) by (destruct c; reflexivity).
  destruct a as [ca sa ka], b as [cb sb kb], t as [ct st kt]. cbn in A, T, SA, ST. subst.
  unfold steps, step, fresh, assign, right_side, as_tensor, read_value. cbn. unfold assign. cbn. rewrite !R, !Bool.eqb_reflx. cbn. unfold assign. cbn.
  rewrite !R, !Bool.eqb_reflx. reflexivity.
Qed.
Print Assumptions C30_copy_stale_refuted.

(** C30 is false of the code for ABY3 variables assigned from another share type: the assignment is accepted and
    the value read back is another one. *)
Theorem C30_share_type_refuted :
  exists (v : variable) (t : tensor), raising v = false /\ legal v t /\ revealed 8 t = [1%Z] /\
    snd (assign v t) = Done /\ revealed 8 (read_value (fst (assign v t))) = [5%Z].
Proof.
  exists (fresh (Tensor [[0]; [0]; [0]; [0]; [0]; [0]]%Z false (Private3 Arith)) false),
         (Tensor [[2]; [3]; [3]; [0]; [0]; [2]]%Z false (Private3 Bool)).
  split; [reflexivity|]. split; [split; [reflexivity|exact I]|]. split; [reflexivity|]. split; reflexivity.
Qed.
Print Assumptions C30_share_type_refuted.

(** C80: an assignment that raises leaves the variable as it was, in the rings whose [assign] does not raise itself. *)
Theorem C80_failed_assign (v : variable) (t : tensor) : raising v = false -> snd (assign v t) = Fail -> fst (assign v t) = v.
Proof. intros R. unfold assign. rewrite R. destruct (_ && _); [discriminate|reflexivity]. Qed.
Print Assumptions C80_failed_assign.
Example C80_failed_assign_example :
  assign (fresh pond7 false) (Tensor [[1%Z]; [1%Z]] false Private2) = (fresh pond7 false, Fail) /\
  assign (fresh pond7 false) (Tensor [[1%Z]; [1%Z]] true Public2) = (fresh pond7 false, Fail).
Proof. split; reflexivity. Qed.

(** C80 is false of the code in the int100 and boolean rings: every legal assignment raises, and leaves the first share
    new and the others old; the variable then reveals neither value. *)
Theorem C80_torn_refuted (v : variable) (t : tensor) x xs : raising v = true -> legal v t -> cells t = x :: xs ->
  snd (assign v t) = Fail /\ cells (read_value (fst (assign v t))) = x :: skipn 1 (now v).
Proof. intros R L E. apply legal_ok in L. unfold assign. rewrite L, R, E. cbn. auto. Qed.
Print Assumptions C80_torn_refuted.
Example C80_torn_example :
  let v := fresh pond7 true in
  legal v pond9 /\ snd (assign v pond9) = Fail /\ revealed 8 (read_value (fst (assign v pond9))) = [14%Z] /\
  revealed 8 pond7 = [7%Z] /\ revealed 8 pond9 = [9%Z].
Proof. split; [split; [reflexivity|exact I]|]. split; [reflexivity|]. split; [reflexivity|]. split; reflexivity. Qed.

(** C69, local: over any history of lookups players are numbered 0, 1, 2, ... and never move; names stay distinct; with
    automatic players every lookup of a name gives the one player with it, now and later. *)
Theorem C69_local (names : list string) (j : string) (a : bool) (l : list string) :
  NoDup names ->
  let c := local_config names j a in
  let '(c', rs) := lookups c l in
  (forall i p, nth_error (players c') i = Some p -> index p = i) /\
  (forall p q, In p (players c') -> In q (players c') -> name p = name q -> p = q) /\
  (exists more, players c' = players c ++ more) /\
  Forall2 (fun n r => if a then exists p, r = Some p /\ In p (players c') /\ name p = n
                      else forall p, r = Some p <-> In p (players c) /\ name p = n) l rs.
Proof.
  intros ND c. destruct (local_config_numbered names j a) as (N & E & A & _). fold c in N, E, A.
  pose proof (lookups_spec l c N) as H. destruct (lookups c l) as [c' rs]. destruct H as (N' & _ & M & D & F).
  assert (ND' : NoDup (map name (players c'))) by (apply D; rewrite E; exact ND).
  split; [exact N'|]. split; [|split; [exact M|]].
  - intros p q Ip Iq En. assert (X : find_name (name q) (players c') = Some p) by (apply find_name_nth; assumption).
    rewrite (find_name_nth (name q) _ q ND' Iq eq_refl) in X. congruence.
  - rewrite A in F. clear - F ND E. induction F as [|n r l rs (H1 & H2 & H3) F IH]; constructor; [|exact IH]. destruct a.
    + destruct H2 as [H2|H2]; [discriminate|]. destruct r as [p|]; [|destruct (H1 eq_refl eq_refl)]. exists p. split; [reflexivity|].
      symmetry in H2. apply find_name_some, H2.
    + rewrite (H3 eq_refl). intros p. split; [apply find_name_some|]. intros [I En]. apply find_name_nth; [rewrite E; exact ND|exact I|exact En].
Qed.
Print Assumptions C69_local.
Example C69_local_example :
  NoDup ["alice"; "bob"] /\
  map (option_map index) (snd (lookups (local_config ["alice"; "bob"] "localhost" true) ["bob"; "carol"; "alice"; "carol"]))
  = [Some 1; Some 2; Some 0; Some 2]%nat /\
  map (option_map index) (snd (lookups (local_config ["alice"; "bob"] "localhost" false) ["bob"; "carol"])) = [Some 1%nat; None].
Proof. split; [repeat constructor; cbn; intuition discriminate|]. split; reflexivity. Qed.

(** C69, local: all players of a local configuration are on one device, and with a name given twice the second player
    is never found. *)
Theorem C69_local_device (names : list string) (j : string) (a : bool) (l : list string) :
  forall p, In p (players (fst (lookups (local_config names j a) l))) -> device p = device_name j 0.
Proof.
  destruct (local_config_numbered names j a) as (_ & _ & _ & J). pose proof (devices_local l (local_config names j a)) as D. rewrite J in D. apply D.
  clear. unfold local_config.
  assert (H : forall c, (forall p, In p (players c) -> device p = device_name (job c) 0) ->
    let c' := fold_left (fun c n => fst (add_player c n)) names c in job c' = job c /\ forall p, In p (players c') -> device p = device_name (job c) 0).
  { induction names as [|n names IH]; intros c D; [auto|]. cbn [fold_left]. destruct (IH (fst (add_player c n))) as [J' D'].
    - unfold add_player. cbn [fst players job]. intros p I. apply in_app_or in I. destruct I as [I|[<-|[]]]; [apply D, I|reflexivity].
    - cbn [add_player fst job] in *. auto. }
  apply (H (Local j a [])). intros p [].
Qed.
Print Assumptions C69_local_device.
Example C69_local_device_example :
  device_name "localhost" 0 = "/job:localhost/replica:0/task:0/device:CPU:0" /\
  map index (players (local_config ["alice"; "alice"] "localhost" true)) = [0; 1]%nat /\
  option_map index (snd (get_player (local_config ["alice"; "alice"] "localhost" true) "alice")) = Some 0%nat /\
  map index (get_players (players (local_config ["alice"; "bob"; "alice"] "localhost" true)) ["carol"; "alice"]) = [0; 2]%nat.
Proof. repeat split; reflexivity. Qed.

(** C69, remote: every name of the host map gets exactly one player, with its host, its position as index and a
    device no other player has. *)
Theorem C69_remote (hosts : list (string * string)) (j : string) : NoDup (map fst hosts) ->
  let c := remote_config hosts j in
  (forall i n h, nth_error hosts i = Some (n, h) -> remote_player c n = Some (Player n i (device_name j i) (Some h))) /\
  (forall n, ~ In n (map fst hosts) -> remote_player c n = None) /\
  (forall p q, In p (rplayers c) -> In q (rplayers c) -> device p = device q -> p = q).
Proof.
  intros ND c. unfold remote_player, c, remote_config. cbn [rplayers].
  assert (ND' : NoDup (map name (enumerate j 0 hosts))) by (rewrite enumerate_names; exact ND).
  split; [|split].
  - intros i n h H. apply find_name_nth; [exact ND'| |reflexivity]. apply (nth_error_In _ i). rewrite enumerate_nth, H. reflexivity.
  - intros n N. destruct (find_name n (enumerate j 0 hosts)) as [p|] eqn:F; [|reflexivity]. exfalso. apply find_name_some in F. destruct F as [I <-].
    apply N. rewrite <- (enumerate_names j 0 hosts). apply in_map, I.
  - intros p q Ip Iq E. apply In_nth_error in Ip. apply In_nth_error in Iq. destruct Ip as [i Hi], Iq as [k Hk].
    pose proof Hi as Hi'. pose proof Hk as Hk'. rewrite enumerate_nth in Hi', Hk'.
    destruct (nth_error hosts i) as [x|]; [|discriminate]. destruct (nth_error hosts k) as [y|]; [|discriminate]. cbn in Hi', Hk'.
    injection Hi' as <-. injection Hk' as <-. cbn in E. apply device_inj in E. subst k. congruence.
Qed.
Print Assumptions C69_remote.

(** C69, remote: saving and loading keeps names, order and hosts; the whole configuration comes back exactly when the job name
    is the default one. *)
Theorem C69_save_load (hosts : list (string * string)) (j : string) :
  let c := remote_config hosts j in
  hostmap (load_saved c) = hosts /\ (j = "tfe" -> load_saved c = c) /\
  (hosts <> [] -> load_saved c = c -> j = "tfe") /\
  map (fun p => (name p, index p, host p)) (rplayers (load_saved c)) = map (fun p => (name p, index p, host p)) (rplayers c).
Proof.
  intros c. unfold load_saved, c, remote_config, hostmap. cbn [rplayers]. rewrite !enumerate_hosts. split; [reflexivity|].
  split; [intros ->; reflexivity|]. split; [intros _ E; injection E; auto|].
  generalize 0%nat. induction hosts as [|[n h] hosts IH]; intros i; cbn; [reflexivity|rewrite IH; reflexivity].
Qed.
Print Assumptions C69_save_load.
Example C69_remote_example :
  let h := [("server0", "10.0.0.1:4440"); ("server1", "10.0.0.2:4440")] in
  NoDup (map fst h) /\
  remote_player (remote_config h "job") "server1" = Some (Player "server1" 1 "/job:job/replica:0/task:1/device:CPU:0" (Some "10.0.0.2:4440")) /\
  map device (rplayers (load_saved (remote_config h "job"))) = ["/job:tfe/replica:0/task:0/device:CPU:0"; "/job:tfe/replica:0/task:1/device:CPU:0"].
Proof. split; [repeat constructor; cbn; intuition discriminate|]. split; reflexivity. Qed.

(** C70: a protocol used as context manager restores the protocol that was active before, whatever its body
    does (other protocols, setting protocol or configuration, raising), unless the body enters the same object again. *)
Theorem C70_restores (p : N) (body : list code) (s : active) :
  Forall (fun c => ~ enters p c) body -> current (fst (exec1 (With p body) s)) = current s.
Proof. apply with_restores. Qed.
Print Assumptions C70_restores.
(** Inside, that protocol is the active one. *)
Theorem C70_inside (p : N) (s : active) : current (enter p s) = Some p.
Proof. reflexivity. Qed.
Print Assumptions C70_inside.
Example C70_example :
  let s := Active (Some 9%N) (fun _ => None) in
  let body := [With 2 [With 3 []; SetProtocol None]; SetConfig; Raise] in
  Forall (fun c => ~ enters 1 c) body /\ exec1 (With 1 body) s = (fst (exec1 (With 1 body) s), true) /\
  current (fst (exec1 (With 1 body) s)) = Some 9%N.
Proof.
  split; [|split; reflexivity].
  assert (S : forall q, ~ enters 1 (SetProtocol q)) by (intros q H; inversion H).
  assert (N : ~ enters 1 (With 3 [])) by (intros H; inversion H; subst; contradiction).
  constructor; [|constructor; [|constructor; [|constructor]]]; try (intros H; inversion H; fail).
  intros H. inversion H as [|? ? c I E]; subst. destruct I as [<-|[<-|[]]]; [exact (N E)|exact (S _ E)].
Qed.

(** C70 is false of the code for re-entering: with p inside p, p stays active for good. *)
Theorem C70_reentry_refuted (p : N) (s : active) :
  current (fst (exec1 (With p [With p []]) s)) = Some p /\
  exists s0, current s0 <> current (fst (exec1 (With p [With p []]) s0)).
Proof.
  assert (E : forall s, current (fst (exec1 (With p [With p []]) s)) = Some p).
  { intros t. rewrite exec1_with. cbn. rewrite !N.eqb_refl. reflexivity. }
  split; [apply E|]. exists (Active None (fun _ => None)). rewrite E. discriminate.
Qed.
Print Assumptions C70_reentry_refuted.

(** C81: after any history of [set_protocol], an operation of the shipped protocols called through the namespace is the
    active protocol's method, or the stub that raises if it has none; never a method of an earlier protocol. *)
Theorem C81_dispatch (all : list string) (methods : N -> list string) (l : list (option N)) (q : option N) (n : string) :
  In n all -> rebinds all methods (l ++ [q]) n =
    match q with Some p => if in_dec string_dec n (methods p) then Method p else Stub | None => Stub end.
Proof.
  intros I. rewrite rebinds_last. apply existsb_in in I. rewrite I. destruct q as [p|]; [|reflexivity].
  destruct (in_dec string_dec n (methods p)) as [J|J].
  - apply existsb_in in J. rewrite J. reflexivity.
  - destruct (existsb (String.eqb n) (methods p)) eqn:E; [|reflexivity]. apply existsb_in in E. contradiction.
Qed.
Print Assumptions C81_dispatch.
(** C81 is false of the code for protocols of one's own: a method whose name no shipped protocol has stays bound to
    the old protocol after a switch. *)
Theorem C81_own_method_refuted (all : list string) (methods : N -> list string) (l : list (option N)) p q n :
  ~ In n all -> In n (methods p) -> ~ In n (methods q) -> rebinds all methods (l ++ [Some p; Some q]) n = Method p.
Proof.
  intros A P Q. change [Some p; Some q] with ([Some p] ++ [Some q]). rewrite app_assoc, rebinds_last, rebinds_last.
  destruct (existsb (String.eqb n) all) eqn:Ea; [apply existsb_in in Ea; contradiction|].
  destruct (existsb (String.eqb n) (methods q)) eqn:Eq; [apply existsb_in in Eq; contradiction|].
  apply existsb_in in P. rewrite P. reflexivity.
Qed.
Print Assumptions C81_own_method_refuted.
Example C81_example :
  let all := ["add"; "matmul"; "relu"] in
  let methods p := if N.eqb p 1 then ["add"; "matmul"; "custom"] else ["add"; "relu"] in
  map (rebinds all methods [None; Some 2%N; Some 1%N]) ["add"; "relu"; "matmul"] = [Method 1; Stub; Method 1]%N /\
  map (rebinds all methods [Some 1%N; Some 2%N]) ["add"; "matmul"; "custom"] = [Method 2; Stub; Method 1]%N.
Proof. split; reflexivity. Qed.
