(** Training, prediction and evaluation loops of tfe.keras models (/repo/tf_encrypted/keras/models/base_model.py). *)
From Coq Require Import List Arith Bool Lia.
Import ListNotations.

(** Exceptions that the loops raise: slicing an empty tensor, a missing index, None as a number, concatenating nothing,
    concatenating the wrong kind of arrays, or whatever the step raises (base_model.py 112-204, 215-259). *)
Inductive exn := SliceError | IndexError | TypeError | ValueError | ConcatError | StepError.
(** Result of a statement (base_model.py 76-204). *)
Inductive res (X : Type) := Ok (x : X) | Err (e : exn).
Arguments Ok {X} _. Arguments Err {X} _.

Section FIT.
(** One sample of an input, one label (the entries [x_data[i]], [y_data[i]]; base_model.py 216-256). *)
Context {A B : Type}.

(** A private tensor: its samples and its second dimension, [None] for rank one (base_model.py 210-247). *)
Record tensor (X : Type) := MkT { rows : list X; dim1 : option nat }.
Arguments MkT {X} _ _. Arguments rows {X} _. Arguments dim1 {X} _.
(** [t[start:stop]]; [None] leaves the end open (base_model.py 216, 230-231, 243, 257). *)
Definition slice {X} (t : tensor X) (start : nat) (stop : option nat) : list X :=
  match stop with Some e => firstn (e - start) (skipn start (rows t)) | None => skipn start (rows t) end.

(** A generator: what it still yields and how it ends; generators that never end are left out (base_model.py 207-268). *)
Inductive ending := Stop | Raise (e : exn).
(** See [ending] (base_model.py 207-268). *)
Definition gen (X : Type) : Type := (list X * ending)%type.
(** The loops of [iter_over_data] (base_model.py 212-218, 224-233, 239-245, 251-260): [bound] is the number compared with,
    [cut] builds the batch, [None] stands for batch_size=None, which fails at [start_index += batch_size].  The fuel is
    enough for positive batch sizes; batch_size=0 never ends and is left out. *)
Fixpoint iter_over_data {X} (fuel bound : nat) (bs : option nat) (cut : nat -> option nat -> X) (start : nat) : gen X :=
  match fuel with
  | O => ([], Stop)
  | S fuel =>
    if start <? bound then
      match bs with
      | None => ([cut start None], Raise TypeError)
      | Some b => let g := iter_over_data fuel bound bs cut (start + b) in (cut start (Some (start + b)) :: fst g, snd g)
      end
    else ([], Stop)
  end.
(** One input, or the inputs of a model with several (base_model.py 230, 257). *)
Inductive xbatch := One (x : list A) | Many (xs : list (list A)).
(** What [fit] and [evaluate] accept: an iterator of pairs, a private tensor or a list of private tensors with private
    labels (base_model.py 208-236); iterators are finite here. *)
Inductive source := FromIter (l : list (xbatch * list B)) | FromPrivate (x : tensor A) (y : tensor B) | FromList (xs : list (tensor A)) (y : tensor B).
(** What [predict] accepts (base_model.py 208, 237-263). *)
Inductive xsource := XIter (l : list xbatch) | XPrivate (x : tensor A) | XList (xs : list (tensor A)).
(** [data_wrap] with labels (base_model.py 207-236).  The bound is [x_data[0].shape[0]]: for a private tensor that is the
    second dimension, for a list the number of samples of its first tensor.  Errors come at the first [next]. *)
Definition data_wrap (s : source) (bs : option nat) : gen (xbatch * list B) :=
  match s with
  | FromIter l => (l, Stop)
  | FromPrivate x y =>
    match rows x, dim1 x with
    | [], _ => ([], Raise SliceError)
    | _, None => ([], Raise IndexError)
    | _, Some w => iter_over_data (S w) w bs (fun i e => (One (slice x i e), slice y i e)) 0
    end
  | FromList [] _ => ([], Raise IndexError)
  | FromList (x :: xs) y =>
    let n := length (rows x) in iter_over_data (S n) n bs (fun i e => (Many (map (fun x => slice x i e) (x :: xs)), slice y i e)) 0
  end.
(** [data_wrap] without labels (base_model.py 207-209, 237-263). *)
Definition xdata_wrap (s : xsource) (bs : option nat) : gen xbatch :=
  match s with
  | XIter l => (l, Stop)
  | XPrivate x => let n := length (rows x) in iter_over_data (S n) n bs (fun i e => One (slice x i e)) 0
  | XList [] => ([], Raise IndexError)
  | XList (x :: xs) =>
    let n := length (rows x) in iter_over_data (S n) n bs (fun i e => Many (map (fun x => slice x i e) (x :: xs))) 0
  end.

(** ** fit *)

(** State of the model and the compiled training step (base_model.py 54-74). *)
Context {W : Type} (step : W -> xbatch * list B -> res W).
(** [if steps is not None and index + 1 >= steps: break] (base_model.py 123, 196). *)
Definition enough (steps : option nat) (index : nat) : bool := match steps with Some k => k <=? index + 1 | None => false end.
(** One epoch (base_model.py 118-124): the new state and the generator as the loop leaves it. *)
Fixpoint epoch (steps : option nat) (index : nat) (l : list (xbatch * list B)) (e : ending) (w : W) : res (W * gen (xbatch * list B)) :=
  match l with
  | [] => match e with Stop => Ok (w, ([], Stop)) | Raise x => Err x end
  | b :: l =>
    match step w b with
    | Err x => Err x
    | Ok w => if enough steps index then Ok (w, (l, e)) else epoch steps (S index) l e w
    end
  end.
(** base_model.py 115-124: the generator is made once, before the loop over the epochs. *)
Fixpoint epochs_loop (epochs : nat) (steps : option nat) (g : gen (xbatch * list B)) (w : W) : res W :=
  match epochs with
  | O => Ok w
  | S n => match epoch steps 0 (fst g) (snd g) w with Err x => Err x | Ok (w, g) => epochs_loop n steps g w end
  end.
(** base_model.py 76-124 [fit]. *)
Definition fit (s : source) (bs : option nat) (epochs : nat) (steps : option nat) (w : W) : res W :=
  epochs_loop epochs steps (data_wrap s bs) w.

(** ** predict *)

(** Output of the model: one tensor or a list of tensors (base_model.py 131-134, 154). *)
Context {O : Type}.
(** See above (base_model.py 131-134, 154). *)
Inductive out := Single (y : list O) | Multi (ys : list (list O)).
(** Applied to a batch: [self.call] (base_model.py 129). *)
Context (call : xbatch -> out).
(** What a call of predict returns: plain arrays or private tensors, with what was opened on the way
    (base_model.py 130-134, 149-163). *)
Record answer := MkAns { value : out; plain : bool; opened : list out }.
(** [concat] of the collected results (base_model.py 149-163): np.concatenate for [reveal], tfe.concat otherwise; each
    refuses what the other takes.  For lists, output [j] collects the [j]th entry of every batch. *)
Definition collect (reveal got : bool) (ys : list out) : res out :=
  match ys with
  | [] => Err IndexError
  | Single _ :: _ =>
    if Bool.eqb reveal got then
      match forallb (fun y => match y with Single _ => true | _ => false end) ys with
      | true => Ok (Single (concat (map (fun y => match y with Single l => l | Multi _ => [] end) ys)))
      | false => Err ConcatError
      end
    else Err ConcatError
  | Multi zs :: _ =>
    if forallb (fun y => match y with Multi l => length zs <=? length l | _ => false end) ys then
      if Bool.eqb reveal got || (length zs =? 0) then
        Ok (Multi (map (fun j => concat (map (fun y => match y with Multi l => nth j l [] | Single _ => [] end) ys)) (seq 0 (length zs))))
      else Err ConcatError
    else Err IndexError
  end.
(** [predict] (base_model.py 139-163): [cached] is the [reveal] with which [predict_function] was made, if it was; the
    function that exists is used whatever [reveal] is now. *)
Definition predict (cached : option bool) (s : xsource) (bs : option nat) (reveal : bool) : option bool * list out * res answer :=
  let made := match cached with Some r => r | None => reveal end in
  let g := xdata_wrap s bs in
  let ys := map call (fst g) in
  let seen := if made then ys else [] in
  match snd g with
  | Raise e => (Some made, seen, Err e)
  | Stop => (Some made, seen, match collect reveal made ys with Ok v => Ok (MkAns v made seen) | Err e => Err e end)
  end.
(** Calls of predict on one model, one after the other: what each opens (base_model.py 139-163). *)
Fixpoint predicts (cached : option bool) (calls : list (xsource * option nat * bool)) : list (list out * res answer) :=
  match calls with
  | [] => []
  | (s, bs, reveal) :: calls =>
    match predict cached s bs reveal with (c, seen, r) => (seen, r) :: predicts c calls end
  end.

(** ** evaluate *)

(** base_model.py 189-200: the loop and what goes to the metrics; the model has one output here.  Later batches that the
    loop does not reach are not computed. *)
Fixpoint evaluate_loop (steps : option nat) (index : nat) (l : list (xbatch * list B)) (e : ending) : res (list (list O) * list (list B)) :=
  match l with
  | [] => match e with Stop => Ok ([], []) | Raise x => Err x end
  | (x, y) :: l =>
    let o := match call x with Single o => o | Multi _ => [] end in
    if enough steps index then Ok ([o], [y])
    else match evaluate_loop steps (S index) l e with Ok (os, ys) => Ok (o :: os, y :: ys) | Err x => Err x end
  end.
(** base_model.py 172-204 [evaluate] with some metrics: predictions and labels handed to each of them;
    np.concatenate of no arrays raises. *)
Definition evaluate (s : source) (bs steps : option nat) : res (list O * list B) :=
  let g := data_wrap s bs in
  match evaluate_loop steps 0 (fst g) (snd g) with
  | Err e => Err e
  | Ok ([], _) => Err ValueError
  | Ok (os, ys) => Ok (concat os, concat ys)
  end.
End FIT.
Arguments tensor X : clear implicits.
Arguments MkT {X} _ _.
Arguments rows {X} _.
Arguments dim1 {X} _.
Arguments xbatch A : clear implicits.
Arguments source A B : clear implicits.
Arguments xsource A : clear implicits.
Arguments out O : clear implicits.
Arguments answer O : clear implicits.
