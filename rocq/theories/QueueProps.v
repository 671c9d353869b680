(** Properties of secret-shared queues and of queue serving. *)
From Coq Require Import List Arith Bool Lia ZArith.
From Verif Require Import QueueModel QueueSpec QueueProofs.
Import ListNotations.

(** ** C31: one producer, one consumer *)

(** Whatever the capacity, the ordering within operations and the schedule, what the consumer has been given are the first tensors
    enqueued, both shares each, in order. *)
Theorem C31_prefix : forall A cap md (ts : list (A * A)) l s,
  runs A cap md (start A [ts] 1) l = Some s -> prefix (dequeued A s 0) ts.
Proof.
  intros A cap md ts l s E. rewrite start_counts in E.
  destruct (runs_counts A cap md ts l 0 0 0 0 s ltac:(unfold sane; lia) E) as (n0 & n1 & m0 & m1 & -> & _ & _).
  rewrite dequeued_counts. exists (skipn (Nat.min m0 m1) ts). symmetry. apply firstn_skipn.
Qed.
Print Assumptions C31_prefix.

(** No schedule goes on for ever, and one that cannot be continued has delivered everything. *)
Theorem C31_delivers : forall A cap md (ts : list (A * A)) l s,
  runs A cap md (start A [ts] 1) l = Some s ->
  length l <= 4 * length ts /\ (0 < cap -> (forall x, step A cap md s x = None) -> dequeued A s 0 = ts).
Proof.
  intros A cap md ts l s E. rewrite start_counts in E. assert (S0 : sane A ts 0 0 0 0) by (unfold sane; lia).
  destruct (runs_counts A cap md ts l 0 0 0 0 s S0 E) as (n0 & n1 & m0 & m1 & -> & S1 & L).
  split; [unfold sane in S1; lia|]. intros Hc B.
  assert (C0 : close md 0 0 0 0) by (unfold close; destruct md; try exact I; lia).
  pose proof (runs_close A cap md ts l 0 0 0 0 n0 n1 m0 m1 S0 C0 S1 E) as C1.
  destruct (progress A cap md ts n0 n1 m0 m1 Hc S1 C1 B) as [-> ->].
  rewrite dequeued_counts, Nat.min_id. apply firstn_all.
Qed.
Print Assumptions C31_delivers.

Definition three := [(10, 1); (20, 2); (30, 3)].
Example C31_example_eager : exists s,
  runs nat 1 Eager (start nat [three] 1) [Put0 0; Get0 0; Put1 0; Put0 0; Get1 0; Get0 0; Put1 0; Get1 0] = Some s /\ dequeued nat s 0 = [(10, 1); (20, 2)].
Proof. eexists. split; [vm_compute; reflexivity|reflexivity]. Qed.
Example C31_example_free : exists s,
  runs nat 3 Free (start nat [three] 1) [Put1 0; Put1 0; Put0 0; Get1 0; Get1 0; Put1 0; Get0 0; Put0 0; Get1 0; Put0 0; Get0 0; Get0 0] = Some s /\
  dequeued nat s 0 = three /\ forall x, step nat 3 Free s x = None.
Proof.
  eexists. split; [vm_compute; reflexivity|]. split; [reflexivity|]. intros x. destruct x as [[|[|p]]|[|[|p]]|[|[|p]]|[|[|p]]]; vm_compute; reflexivity.
Qed.

(** ** C32: several producers, or several consumers *)

(** Even when both enqueues and the dequeue run eagerly, for any two tensors there is a schedule on which the consumer is given the
    first share of one and the second share of the other. *)
Theorem C32_producers_refuted : forall A cap md (a b : A * A), 2 <= cap ->
  exists l s, runs A cap md (start A [[a]; [b]] 1) l = Some s /\ dequeued A s 0 = [(fst a, snd b)].
Proof.
  intros A cap md [a0 a1] [b0 b1] Hc. exists [Put0 0; Put0 1; Put1 1; Put1 0; Get0 0; Get1 0].
  destruct cap as [|[|cap]]; [lia|lia|]. destruct md; (eexists; split; [cbn; reflexivity|cbn; reflexivity]).
Qed.
Print Assumptions C32_producers_refuted.
(** One producer and two consumers: the consumers swap second shares. *)
Theorem C32_consumers_refuted : forall A cap md (a b : A * A), 2 <= cap ->
  exists l s, runs A cap md (start A [[a; b]] 2) l = Some s /\ dequeued A s 0 = [(fst a, snd b)] /\ dequeued A s 1 = [(fst b, snd a)].
Proof.
  intros A cap md [a0 a1] [b0 b1] Hc. exists [Put0 0; Put1 0; Put0 0; Put1 0; Get0 0; Get0 1; Get1 1; Get1 0].
  destruct cap as [|[|cap]]; [lia|lia|]. destruct md; (eexists; split; [cbn; reflexivity|split; cbn; reflexivity]).
Qed.
Print Assumptions C32_consumers_refuted.
(** So the consumer reconstructs a value nobody enqueued. *)
Example C32_example : exists l s, runs Z 2 Eager (start Z [[(5, 7)]; [(100, 200)]]%Z 1) l = Some s /\
  map (fun p => fst p + snd p)%Z (dequeued Z s 0) = [205%Z].
Proof.
  destruct (C32_producers_refuted Z 2 Eager (5, 7)%Z (100, 200)%Z ltac:(lia)) as (l & s & E & D). exists l, s. split; [exact E|]. rewrite D. reflexivity.
Qed.

(** ** C66: serving *)

(** One client, any calls of [send_input] and [receive_output], any capacities and schedule: the results it has received are those
    of its inputs, in order. *)
Theorem C66_one_client : forall A compute cin cout cs l s c,
  moves A compute cin cout (opening A [cs]) l = Some s -> nth_error (clients A s) 0 = Some c ->
  prefix (received A c) (results compute 0 (sends cs)).
Proof.
  intros A compute cin cout cs l s c E Ec. eapply fine_received; [|exact Ec].
  exact (moves_ok A compute cin cout (sends cs) l 0 _ _ (opening_ok A compute (sends cs) cs eq_refl) E).
Qed.
Print Assumptions C66_one_client.
(** If every computation computes f on what the shares stand for, the values received are the values of f, in order. *)
Theorem C66_values : forall A V (value : A * A -> V) (f : V -> V) compute cin cout cs l s c,
  (forall k x, value (compute k x) = f (value x)) ->
  moves A compute cin cout (opening A [cs]) l = Some s -> nth_error (clients A s) 0 = Some c ->
  prefix (map value (received A c)) (map (fun x => f (value x)) (sends cs)).
Proof.
  intros A V value f compute cin cout cs l s c H E Ec. destruct (C66_one_client A compute cin cout cs l s c E Ec) as [rest P].
  exists (map value rest). rewrite <- map_app, <- P. clear P. generalize 0. induction (sends cs) as [|x xs IH]; intros k; [reflexivity|].
  cbn [map results]. rewrite H, (IH (S k)). reflexivity.
Qed.
Print Assumptions C66_values.
(** Calls of [run] one after the other never deadlock: every schedule ends, and one that cannot go on has answered every call. *)
Theorem C66_answers : forall A compute cin cout xs l s,
  moves A compute cin cout (opening A [run_calls A xs]) l = Some s ->
  length l <= 8 * length xs /\
  (0 < cin -> 0 < cout -> (forall m, move_step A compute cin cout s m = None) ->
   exists c, clients A s = [c] /\ received A c = results compute 0 xs).
Proof.
  intros A compute cin cout xs l s E. split.
  - pose proof (moves_ok A compute cin cout xs l 0 _ _ (opening_ok A compute xs (run_calls A xs) (sends_run_calls A xs)) E) as F.
    apply fine_bound in F. lia.
  - intros Hi Ho B. pose proof (moves_ok' A compute cin cout xs l _ _ (opening_ok' A compute xs) E) as F.
    exact (serve_progress A compute cin cout xs s Hi Ho F B).
Qed.
Print Assumptions C66_answers.
(** A client that sends more inputs than the queues hold before receiving blocks for ever: with capacities one, after four
    sends nobody can move and nothing has been received. *)
Theorem C66_sends_ahead_refuted : forall A compute (x : A * A),
  exists l s, moves A compute 1 1 (opening A [[Some x; Some x; Some x; Some x; None; None; None; None]]) l = Some s /\
    (forall m, move_step A compute 1 1 s m = None) /\ exists c, clients A s = [c] /\ received A c = [].
Proof.
  intros A compute [a b].
  exists [ClientMove 0; ClientMove 0; Take0; Take1; Give0; Give1; ClientMove 0; ClientMove 0; Take0; Take1; ClientMove 0; ClientMove 0].
  cbn. unfold think. cbn. destruct (compute 0 (a, b)) as [u v]. cbn. unfold think. cbn. destruct (compute 1 (a, b)) as [u' v']. cbn.
  eexists. split; [reflexivity|]. split.
  - intros m. destruct m as [[|[|i]]| | | |]; reflexivity.
  - eexists. split; reflexivity.
Qed.
Print Assumptions C66_sends_ahead_refuted.
(** Two clients on the same queues: whatever is computed, one may receive the other's result. *)
Theorem C66_two_clients_refuted : forall A compute (x y : A * A) cin cout, 1 <= cin -> 1 <= cout ->
  exists l s c, moves A compute cin cout (opening A [run_calls A [x]; run_calls A [y]]) l = Some s /\
    nth_error (clients A s) 1 = Some c /\ received A c = [compute 0 x].
Proof.
  intros A compute [a b] [a' b'] cin cout Hi Ho.
  exists [ClientMove 0; ClientMove 0; Take0; Take1; Give0; Give1; ClientMove 1; ClientMove 1; ClientMove 1; ClientMove 1].
  destruct cin as [|cin]; [lia|]. destruct cout as [|cout]; [lia|].
  cbn. unfold think. cbn. destruct (compute 0 (a, b)) as [u v]. cbn. eexists. eexists. split; [reflexivity|]. split; reflexivity.
Qed.
Print Assumptions C66_two_clients_refuted.
(** Or the server computes on a value neither of them sent. *)
Theorem C66_mixed_refuted : forall A compute (x y : A * A) cin cout, 2 <= cin -> 1 <= cout ->
  exists l s c, moves A compute cin cout (opening A [run_calls A [x]; run_calls A [y]]) l = Some s /\
    nth_error (clients A s) 0 = Some c /\ received A c = [compute 0 (fst x, snd y)].
Proof.
  intros A compute [a b] [a' b'] cin cout Hi Ho.
  exists [ClientMove 0; ClientMove 1; ClientMove 1; ClientMove 0; Take0; Take1; Give0; Give1; ClientMove 0; ClientMove 0].
  destruct cin as [|[|cin]]; [lia|lia|]. destruct cout as [|cout]; [lia|].
  cbn. unfold think. cbn. destruct (compute 0 (a, b')) as [u v]. cbn. eexists. eexists. split; [reflexivity|]. split; reflexivity.
Qed.
Print Assumptions C66_mixed_refuted.

(** Squaring additive shares: three calls, all answered. *)
Definition square (k : nat) (s : Z * Z) : Z * Z := ((fst s + snd s) * (fst s + snd s) - Z.of_nat k, Z.of_nat k)%Z.
Definition one_run := [ClientMove 0; ClientMove 0; Take1; Take0; Give1; Give0; ClientMove 0; ClientMove 0].
Example C66_example : exists s c,
  moves Z square 1 1 (opening Z [run_calls Z [(1, 2); (3, 4); (5, 6)]%Z]) (one_run ++ one_run ++ one_run) = Some s /\
  (forall m, move_step Z square 1 1 s m = None) /\ clients Z s = [c] /\
  map (fun p => fst p + snd p)%Z (received Z c) = [9; 49; 121]%Z /\ (forall k x, let v p := (fst p + snd p)%Z in v (square k x) = v x * v x)%Z.
Proof.
  eexists. eexists. split; [vm_compute; reflexivity|]. split; [intros m; destruct m as [[|[|i]]| | | |]; vm_compute; reflexivity|].
  split; [reflexivity|]. split; [reflexivity|]. intros k [x y]. cbn. lia.
Qed.
