(** State that lives in the process: variables, configurations, the active protocol and the
    functions of the [tfe] namespace. *)
From Coq Require Import ZArith List Bool String NArith Decimal DecimalString DecimalNat.
From Verif Require Import Base.
Import ListNotations.

(** ** Variables *)

(** The classes of tensors that variables hold: public ones with one copy per server, Pond's two shares, ABY3's
    six shares with a share type (pond.py 1858-2204, aby3_tensors.py 395-650). *)
Inductive share_type := Arith | Bool.
(** The class of a tensor (pond.py 1858-2204, aby3_tensors.py 395-650); [Public3] and [Private3] belong to ABY3. *)
Inductive class := Public2 | Private2 | Public3 | Private3 (s : share_type).
(** A tensor: its backing tensors in the order of the code, flat, and its scaling flag (pond.py 1858-2010,
    aby3_tensors.py 395-575).  ABY3's shares are in the order 00, 01, 10, 11, 20, 21. *)
Record tensor := Tensor { cells : list (list Z); scaled : bool; cls : class }.
(** A variable: what the [tf.Variable]s behind it hold now, the snapshots its tensor part was built from
    (native.py 606-612), and whether the ring's [Variable.assign] raises after writing (int100.py 813-821 and
    boolfactory.py 291-297 do, native.py 617-623 and int128.py 602-608 do not). *)
Record variable := MkVar { now : list (list Z); built : list (list Z); vscaled : bool; vcls : class; raising : bool }.

(** The [isinstance] checks of pond.py 852, 870 and aby3.py 1123, 1150: share types are not looked at. *)
Definition same_class (a b : class) : bool :=
  match a, b with
  | Public2, Public2 | Private2, Private2 | Public3, Public3 | Private3 _, Private3 _ => true
  | _, _ => false
  end.
(** What stands on the right of an assignment: a tensor, or a variable, which is a tensor too (pond.py 2172). *)
Inductive source := FromTensor (t : tensor) | FromVariable (j : nat).
(** The variables of a program, by number, and a result of a step (pond.py 844-888). *)
Inductive result := Got (t : tensor) | Done | Fail.
(** Statements: [prot.assign(v, source)], [v.read_value()], and [v] used as a tensor (pond.py 844-888, 2160-2204). *)
Inductive stmt := Assign (i : nat) (s : source) | Read (i : nat) | Use (i : nat).

(** The variable seen as a tensor: the snapshots (native.py 611). *)
Definition as_tensor (v : variable) : tensor := Tensor (built v) (vscaled v) (vcls v).
(** pond.py 2160-2168, 2196-2204 and aby3_tensors.py 536-545, 634-650 [read_value]. *)
Definition read_value (v : variable) : tensor := Tensor (now v) (vscaled v) (vcls v).
(** Write one element of a list (one variable of the program changes, as under pond.py 861-863). *)
Fixpoint update {A} (l : list A) (i : nat) (x : A) : list A :=
  match l, i with [], _ => [] | _ :: l, O => x :: l | y :: l, S i => y :: update l i x end.
(** pond.py 844-888 and aby3.py 1117-1168 [assign]: the checks come first; the backing variables are
    written one after the other, and if the ring's [assign] raises only the first is. *)
Definition assign (v : variable) (t : tensor) : variable * result :=
  if same_class (vcls v) (cls t) && Bool.eqb (vscaled v) (scaled t)
  then if raising v
       then (MkVar (firstn 1 (cells t) ++ skipn 1 (now v)) (built v) (vscaled v) (vcls v) true, Fail)
       else (MkVar (cells t) (built v) (vscaled v) (vcls v) false, Done)
  else (v, Fail).
(** One statement on all variables (pond.py 844-888, 2160-2204). *)
Definition step (vs : list variable) (s : stmt) : list variable * result :=
  match s with
  | Assign i src =>
    let t := match src with FromTensor t => Some t | FromVariable j => option_map as_tensor (nth_error vs j) end in
    match nth_error vs i, t with
    | Some v, Some t => let '(v, r) := assign v t in (update vs i v, r)
    | _, _ => (vs, Fail)
    end
  | Read i => (vs, match nth_error vs i with Some v => Got (read_value v) | None => Fail end)
  | Use i => (vs, match nth_error vs i with Some v => Got (as_tensor v) | None => Fail end)
  end.
(** A history of statements, exceptions caught by the caller (pond.py 844-888). *)
Fixpoint steps (vs : list variable) (l : list stmt) : list variable * list result :=
  match l with
  | [] => (vs, [])
  | s :: l => let '(vs, r) := step vs s in let '(vs, rs) := steps vs l in (vs, r :: rs)
  end.
(** A freshly defined variable (pond.py 211-340, aby3.py 330-470): snapshots and contents agree. *)
Definition fresh (t : tensor) (r : bool) : variable := MkVar (cells t) (cells t) (scaled t) (cls t) r.

(** What a tensor reveals: pond.py 839-841 (the two shares added), aby3.py 923-925 (server 0's view: shares 00, 01 and 20
    added or xored), a public tensor's copy on server 0. *)
Definition revealed (m : Z) (t : tensor) : list Z :=
  let c i := nth i (cells t) [] in
  match cls t with
  | Public2 | Public3 => c 0%nat
  | Private2 => map (fun p => swrap m (fst p + snd p)) (combine (c 0%nat) (c 1%nat))
  | Private3 Arith => map (fun p => swrap m (fst p + fst (snd p) + snd (snd p))) (combine (c 0%nat) (combine (c 1%nat) (c 4%nat)))
  | Private3 Bool => map (fun p => Z.lxor (Z.lxor (fst p) (fst (snd p))) (snd (snd p))) (combine (c 0%nat) (combine (c 1%nat) (c 4%nat)))
  end.

(** ** Configurations *)

(** player/player.py 5-20. *)
Record player := Player { name : string; index : nat; device : string; host : option string }.
(** [str.format] of an integer (config.py 176). *)
Definition digits (n : nat) : string := NilEmpty.string_of_uint (Nat.to_uint n).
(** The device strings of config.py 117 (task 0) and 169. *)
Definition device_name (job : string) (task : nat) : string :=
  ("/job:" ++ job ++ "/replica:0/task:" ++ digits task ++ "/device:CPU:0")%string.

(** config.py 84-148 [LocalConfig]; the players and whether unknown ones are added on lookup. *)
Record local := Local { job : string; auto : bool; players : list player }.
(** config.py 115-124 [add_player]. *)
Definition add_player (c : local) (n : string) : local * player :=
  let p := Player n (List.length (players c)) (device_name (job c) 0) None in
  (Local (job c) (auto c) (players c ++ [p]), p).
(** config.py 99-113 [__init__]. *)
Definition local_config (names : list string) (j : string) (a : bool) : local :=
  fold_left (fun c n => fst (add_player c n)) names (Local j a []).
(** The first player with a name (config.py 137-139). *)
Definition find_name (n : string) (l : list player) : option player := find (fun p => String.eqb (name p) n) l.
(** config.py 130-142 [get_player] with a name. *)
Definition get_player (c : local) (n : string) : local * option player :=
  match find_name n (players c) with
  | Some p => (c, Some p)
  | None => if auto c then let '(c, p) := add_player c n in (c, Some p) else (c, None)
  end.
(** config.py 144-148 and 224-228 [get_players] with a list of names; splitting a comma separated string is not modelled. *)
Definition get_players (l : list player) (names : list string) : list player :=
  filter (fun p => existsb (String.eqb (name p)) names) l.
(** A history of lookups by name (config.py 130-142). *)
Fixpoint lookups (c : local) (l : list string) : local * list (option player) :=
  match l with
  | [] => (c, [])
  | n :: l => let '(c, p) := get_player c n in let '(c, ps) := lookups c l in (c, p :: ps)
  end.

(** config.py 151-181 [RemoteConfig]; a dictionary from names to hosts in order. *)
Record remote := Remote { rjob : string; rplayers : list player }.
(** The enumeration of config.py 170-181. *)
Fixpoint enumerate (j : string) (i : nat) (hosts : list (string * string)) : list player :=
  match hosts with
  | [] => []
  | (n, h) :: hosts => Player n i (device_name j i) (Some h) :: enumerate j (S i) hosts
  end.
(** config.py 159-181 [__init__]. *)
Definition remote_config (hosts : list (string * string)) (j : string) : remote := Remote j (enumerate j 0 hosts).
(** config.py 201-205 [hostmap]; a remote player always has a host. *)
Definition hostmap (c : remote) : list (string * string) :=
  map (fun p => (name p, match host p with Some h => h | None => EmptyString end)) (rplayers c).
(** config.py 183-191 [load] after 193-199 [save]; writing and reading JSON is taken to keep the map and its order. *)
Definition load_saved (c : remote) : remote := remote_config (hostmap c) "tfe".
(** config.py 215-222 [get_player] with a name. *)
Definition remote_player (c : remote) (n : string) : option player := find_name n (rplayers c).

(** ** The active protocol *)

(** The global variable of __init__.py 39 and the attribute [last_protocol] of each protocol object
    (protocol.py 29). *)
Record active := Active { current : option N; last : N -> option N }.
(** Code that uses protocols as context managers, sets the protocol or the configuration, or raises
    (protocol.py 28-40, __init__.py 63-94). *)
Inductive code := With (p : N) (body : list code) | SetProtocol (q : option N) | SetConfig | Raise.
(** protocol.py 28-31 [__enter__]. *)
Definition enter (p : N) (s : active) : active :=
  Active (Some p) (fun q => if N.eqb q p then current s else last s q).
(** protocol.py 33-40 [__exit__], also when an exception passes. *)
Definition leave (p : N) (s : active) : active := Active (last s p) (last s).
(** Execution of the [with] statement around protocol.py 28-40; the flag tells whether an exception is under way. *)
Fixpoint exec1 (c : code) (s : active) : active * bool :=
  match c with
  | With p body =>
    let '(s, raised) := (fix go l s := match l with
                                       | [] => (s, false)
                                       | c :: l => let '(s, r) := exec1 c s in if r : bool then (s, true) else go l s
                                       end) body (enter p s) in
    (leave p s, raised)
  | SetProtocol q => (Active q (last s), false)        (* __init__.py 63-83 *)
  | SetConfig => (Active None (last s), false)         (* __init__.py 86-94 *)
  | Raise => (s, true)
  end.
(** A sequence of statements (the bodies of [with] in protocol.py 28-40). *)
Fixpoint exec (l : list code) (s : active) : active * bool :=
  match l with
  | [] => (s, false)
  | c :: l => let '(s, r) := exec1 c s in if r : bool then (s, true) else exec l s
  end.

(** ** The functions of the namespace *)

(** What a name of the [tfe] module stands for: nothing, the stub that raises, a method bound to a protocol
    (__init__.py 43-45, 71-80). *)
Inductive binding := Unbound | Stub | Method (p : N).
(** __init__.py 63-83 [set_protocol] on the namespace.  [methods p] are the public methods of the protocol
    object, [all] the names collected from the shipped protocols (protocol/__init__.py 20-31). *)
Definition rebind (all : list string) (methods : N -> list string) (env : string -> binding) (q : option N)
  : string -> binding :=
  let env1 n := if existsb (String.eqb n) all then Stub else env n in
  match q with
  | None => env1
  | Some p => fun n => if existsb (String.eqb n) (methods p) then Method p else env1 n
  end.
(** A history of [set_protocol] calls (__init__.py 63-83). *)
Definition rebinds all methods (l : list (option N)) : string -> binding :=
  fold_left (rebind all methods) l (fun _ => Unbound).
