(** Secret-shared queues as two bounded queues filled and emptied by separate steps, and the serving loop on
    top of them. *)
From Coq Require Import List Arith Bool.
Import ListNotations.

(** ** AdditiveFIFOQueue *)

Section Queue.
  Variable A : Type.   (* one server's share of a tensor *)

  (** How the two halves of one operation are ordered.  [Eager]: queue 0 first, then queue 1, then the next operation
      (pond.py 1599-1603 and 1610-1616 run line by line).  [Grouped]: the halves in any order, both before the next
      operation (tf.group in pond.py 1605).  [Free]: only the order on each single queue is kept (several operations
      traced into one graph). *)
  Inductive mode := Eager | Grouped | Free.
  (** Whether a thread that has [a] halves left (or done) on queue 0 and [b] on queue 1 may go on with queue 0
      (pond.py 1599-1616). *)
  Definition may0 (md : mode) (left0 left1 : nat) : bool :=
    match md with Eager => Nat.eqb left0 left1 | Grouped => Nat.leb left1 left0 | Free => true end.
  (** The same for queue 1 (pond.py 1602-1616). *)
  Definition may1 (md : mode) (left0 left1 : nat) : bool :=
    match md with Eager => Nat.ltb left0 left1 | Grouped => Nat.leb left0 left1 | Free => true end.

  (** The two queues (pond.py 1569-1583), the shares each producer has still to put, the shares each consumer has got. *)
  Record state := State { q0 : list A; q1 : list A; producers : list (list A * list A); consumers : list (list A * list A) }.
  (** One step of one thread on one queue (pond.py 1599-1616). *)
  Inductive label := Put0 (p : nat) | Put1 (p : nat) | Get0 (c : nat) | Get1 (c : nat).
  (** Write one element of a list of threads (pond.py 1588-1616). *)
  Fixpoint set {B} (l : list B) (i : nat) (x : B) : list B :=
    match l, i with [], _ => [] | _ :: l, O => x :: l | y :: l, S i => y :: set l i x end.
  (** pond.py 1588-1606 [enqueue], 1608-1623 [dequeue]; [None] when the step blocks: the queue is full ([cap] elements), empty, or
      it is not this half's turn. *)
  Definition step (cap : nat) (md : mode) (s : state) (l : label) : option state :=
    match l with
    | Put0 p =>
      match nth_error (producers s) p with
      | Some (a :: r0, r1) =>
        if Nat.ltb (List.length (q0 s)) cap && may0 md (List.length (a :: r0)) (List.length r1)
        then Some (State (q0 s ++ [a]) (q1 s) (set (producers s) p (r0, r1)) (consumers s)) else None
      | _ => None
      end
    | Put1 p =>
      match nth_error (producers s) p with
      | Some (r0, b :: r1) =>
        if Nat.ltb (List.length (q1 s)) cap && may1 md (List.length r0) (List.length (b :: r1))
        then Some (State (q0 s) (q1 s ++ [b]) (set (producers s) p (r0, r1)) (consumers s)) else None
      | _ => None
      end
    | Get0 c =>
      match nth_error (consumers s) c, q0 s with
      | Some (g0, g1), a :: q =>
        if may0 md (List.length g1) (List.length g0)
        then Some (State q (q1 s) (producers s) (set (consumers s) c (g0 ++ [a], g1))) else None
      | _, _ => None
      end
    | Get1 c =>
      match nth_error (consumers s) c, q1 s with
      | Some (g0, g1), b :: q =>
        if may1 md (List.length g1) (List.length g0)
        then Some (State (q0 s) q (producers s) (set (consumers s) c (g0, g1 ++ [b]))) else None
      | _, _ => None
      end
    end.
  (** A schedule (chosen by the runtime under pond.py 1588-1623). *)
  Fixpoint runs (cap : nat) (md : mode) (s : state) (l : list label) : option state :=
    match l with
    | [] => Some s
    | x :: l => match step cap md s x with Some s => runs cap md s l | None => None end
    end.
  (** Producers with the tensors they will enqueue, [n] consumers, empty queues (pond.py 1546-1583). *)
  Definition start (tensors : list (list (A * A))) (n : nat) : state :=
    State [] [] (map (fun ts => (map fst ts, map snd ts)) tensors) (repeat ([], []) n).
  (** The tensors a consumer has been given so far (pond.py 1618-1623). *)
  Definition dequeued (s : state) (c : nat) : list (A * A) :=
    match nth_error (consumers s) c with Some (g0, g1) => combine g0 g1 | None => [] end.

  (** ** Serving (serving/queues.py) *)

  (** One client: the calls it has still to make ([Some x] sends the shares of x, [None] receives), what it is in the middle of,
      and what it has received (serving/queues.py 99-119). *)
  Inductive midway := Between | HalfSent (second : A) | HalfReceived (first : A).
  (** The state of a client (serving/queues.py 73-119). *)
  Record client := Client { calls : list (option (A * A)); mid : midway; received : list (A * A) }.
  (** The server's step: halves taken from the input queue, halves of the result still to be put (serving/queues.py 40-46),
      number of computations done. *)
  Record server := Server { g0 : option A; g1 : option A; p0 : option A; p1 : option A; served : nat }.
  (** The whole system: input and output queue, two halves each (serving/queues.py 27-37). *)
  Record system := System { in0 : list A; in1 : list A; out0 : list A; out1 : list A; clients : list client; srv : server }.
  (** Steps: the next half of a client's call (eager, as in serving/queues.py 106, 112), or one of the four queue operations of the
      server's compiled step (serving/queues.py 42-44). *)
  Inductive move := ClientMove (i : nat) | Take0 | Take1 | Give0 | Give1.

  Variable compute : nat -> A * A -> A * A.   (* the k-th computation on shares; k stands for its randomness *)

  (** When both halves are there the computation runs (serving/queues.py 43). *)
  Definition think (s : server) : server :=
    match g0 s, g1 s with
    | Some a, Some b => let '(x, y) := compute (served s) (a, b) in Server None None (Some x) (Some y) (S (served s))
    | _, _ => s
    end.
  (** The server may take an input only when it has given the previous result away (serving/queues.py 54-63). *)
  Definition idle (s : server) : bool := match p0 s, p1 s with None, None => true | _, _ => false end.
  (** One move; [None] when it blocks (serving/queues.py 40-63, 99-119). *)
  Definition move_step (cin cout : nat) (s : system) (m : move) : option system :=
    match m with
    | ClientMove i =>
      match nth_error (clients s) i with
      | Some (Client cs md rec) =>
        match md, cs with
        | Between, Some (a, b) :: cs =>
          if Nat.ltb (List.length (in0 s)) cin
          then Some (System (in0 s ++ [a]) (in1 s) (out0 s) (out1 s) (set (clients s) i (Client cs (HalfSent b) rec)) (srv s))
          else None
        | HalfSent b, cs =>
          if Nat.ltb (List.length (in1 s)) cin
          then Some (System (in0 s) (in1 s ++ [b]) (out0 s) (out1 s) (set (clients s) i (Client cs Between rec)) (srv s))
          else None
        | Between, None :: cs =>
          match out0 s with
          | x :: q => Some (System (in0 s) (in1 s) q (out1 s) (set (clients s) i (Client cs (HalfReceived x) rec)) (srv s))
          | [] => None
          end
        | HalfReceived x, cs =>
          match out1 s with
          | y :: q => Some (System (in0 s) (in1 s) (out0 s) q (set (clients s) i (Client cs Between (rec ++ [(x, y)]))) (srv s))
          | [] => None
          end
        | Between, [] => None
        end
      | None => None
      end
    | Take0 =>
      match idle (srv s), g0 (srv s), in0 s with
      | true, None, a :: q =>
        Some (System q (in1 s) (out0 s) (out1 s) (clients s) (think (Server (Some a) (g1 (srv s)) None None (served (srv s)))))
      | _, _, _ => None
      end
    | Take1 =>
      match idle (srv s), g1 (srv s), in1 s with
      | true, None, b :: q =>
        Some (System (in0 s) q (out0 s) (out1 s) (clients s) (think (Server (g0 (srv s)) (Some b) None None (served (srv s)))))
      | _, _, _ => None
      end
    | Give0 =>
      match p0 (srv s) with
      | Some x => if Nat.ltb (List.length (out0 s)) cout
                  then Some (System (in0 s) (in1 s) (out0 s ++ [x]) (out1 s) (clients s)
                               (Server (g0 (srv s)) (g1 (srv s)) None (p1 (srv s)) (served (srv s)))) else None
      | None => None
      end
    | Give1 =>
      match p1 (srv s) with
      | Some y => if Nat.ltb (List.length (out1 s)) cout
                  then Some (System (in0 s) (in1 s) (out0 s) (out1 s ++ [y]) (clients s)
                               (Server (g0 (srv s)) (g1 (srv s)) (p0 (srv s)) None (served (srv s)))) else None
      | None => None
      end
    end.
  (** A schedule of moves (serving/queues.py 48-63). *)
  Fixpoint moves (cin cout : nat) (s : system) (l : list move) : option system :=
    match l with
    | [] => Some s
    | m :: l => match move_step cin cout s m with Some s => moves cin cout s l | None => None end
    end.
  (** Empty queues, idle server, clients with their calls (serving/queues.py 14-46, 73-97). *)
  Definition opening (cs : list (list (option (A * A)))) : system :=
    System [] [] [] [] (map (fun c => Client c Between []) cs) (Server None None None None 0).
  (** [QueueClient.run] on each of some inputs in turn (serving/queues.py 114-119). *)
  Definition run_calls (xs : list (A * A)) : list (option (A * A)) := flat_map (fun x => [Some x; None]) xs.
End Queue.
