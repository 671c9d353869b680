(** Model of private ABY3 tensors written to disk and read back: tf_encrypted/protocol/aby3/aby3.py 4723-4787 ([_write_private],
    [_read_]), operations/dataset/write_record.cc.  A tensor is its shape and six lists of entries in row-major order. *)
From Coq Require Import String Ascii.
From Verif Require Import Base TensorModel Aby3Model.
Local Open Scope Z_scope.

(** Word size of the protocol, [default_nbits] (aby3.py 94-95; config "l" and "h"). *)
Inductive width := W64 | W128.
(** [default_nbits] (aby3.py 94). *)
Definition bits (w : width) : Z := match w with W64 => 64 | W128 => 128 end.

(** An ABY3PrivateTensor (aby3_tensors.py 555-575) of any shape. *)
Record tens := Tens { tdims : list nat; tsc : bool; tty : sty; tfc : fac;
                      t00 : list Z; t01 : list Z; t10 : list Z; t11 : list Z; t20 : list Z; t21 : list Z }.
(** [x.unwrapped[i][j]] (aby3.py 4726-4732). *)
Definition share_at (x : tens) (i j : nat) : list Z :=
  match i, j with 0, 0 => t00 x | 0, _ => t01 x | 1, 0 => t10 x | 1, _ => t11 x | _, 0 => t20 x | _, _ => t21 x end%nat.

(** A record: element type, shape and elements (tf.io.serialize_tensor, aby3.py 4731). *)
Inductive dtype := Int64 | Boolean.
(** The same (aby3.py 4731). *)
Record rec := Rec { rtype : dtype; rdims : list nat; rdata : list Z }.
(** The two 64-bit words of a 128-bit one, the low one first (int128.py 85-91). *)
Definition limbs (v : Z) : list Z := [swrap 64 v; v / 2 ^ 64].
(** The inverse, on the flat list of words (int128.py 85-91; [view] in KernModel). *)
Fixpoint unlimb (ws : list Z) : list Z := match ws with lo :: hi :: ws' => (hi * 2 ^ 64 + lo mod 2 ^ 64) :: unlimb ws' | _ => [] end.
(** [tf.io.serialize_tensor(share.value)] (aby3.py 4731): 128-bit tensors have a last axis of length 2 (int128.py 274-276). *)
Definition serialize (f : fac) (dims : list nat) (l : list Z) : rec :=
  match f with
  | FB => Rec Boolean dims l
  | FI n => if n =? 128 then Rec Int64 (dims ++ [2%nat]) (flat_map limbs l) else Rec Int64 dims l
  end.

(** Files and their records.  The three servers are taken to share one directory; the names below differ anyway
    (aby3.py 4727-4733). *)
Definition disk := string -> option (list rec).
(** operations/dataset/write_record.cc 23-43; a failing file system is left out. *)
Definition write_record (name : string) (r : rec) (append : bool) (d : disk) : disk :=
  fun g => if String.eqb g name then Some ((if append then match d name with Some l => l | None => [] end else []) ++ [r]) else d g.
(** [str(i)] for 0, 1, 2 (aby3.py 4730). *)
Definition digit (i : nat) : string := String (ascii_of_nat (48 + i)) EmptyString.
(** ["{}_share{}{}".format(prefix, i, j)] (aby3.py 4730, 4758). *)
Definition file (prefix : string) (i j : nat) : string := (prefix ++ "_share" ++ digit i ++ digit j)%string.
(** The order of the loops (aby3.py 4727-4729, 4754-4756, 4776-4784). *)
Definition places : list (nat * nat) := [(0, 0); (0, 1); (1, 0); (1, 1); (2, 0); (2, 1)]%nat.
(** aby3.py 4723-4734 [_write_private]. *)
Definition write (x : tens) (prefix : string) (append : bool) (d : disk) : disk :=
  fold_left (fun d p => write_record (file prefix (fst p) (snd p)) (serialize (tfc x) (tdims x) (share_at x (fst p) (snd p))) append d) places d.

(** Exceptions of [read] and its generator (aby3.py 4737-4787); TensorFlow's NotFoundError and InvalidArgumentError. *)
Inductive exn := NotFound | InvalidArgument | ZeroDivision | IndexError | StopIteration | RuntimeError.
(** Outcomes (aby3.py 4737-4787). *)
Inductive res (A : Type) := Ok (a : A) | Err (e : exn).
Arguments Ok {A} _.
Arguments Err {A} _.

(** Number of elements (aby3.py 4751-4752, tf.reshape). *)
Definition volume (dims : list nat) : nat := fold_right Nat.mul 1%nat dims.
(** All records of the files in order (tf.data.TFRecordDataset, aby3.py 4757-4763).  Files are opened when they are reached;
    here a missing one is noticed at once. *)
Fixpoint all_records (prefixes : list string) (i j : nat) (d : disk) : option (list rec) :=
  match prefixes with
  | [] => Some []
  | p :: ps => match d (file p i j), all_records ps i j d with Some l, Some ls => Some (l ++ ls) | _, _ => None end
  end.
(** Two shapes or types agree (dataset.batch raises otherwise; aby3.py 4765). *)
Definition same_shape (a b : list nat) : bool := if list_eq_dec Nat.eq_dec a b then true else false.
(** [map(decode).batch(q).map(shaping)] (aby3.py 4748-4752, 4764-4766): batch number [b]; a last shorter batch is kept. *)
Definition batch_at (q : nat) (out : list nat) (l : list rec) (b : nat) : res (list Z) :=
  let rs := firstn q (skipn (b * q) l) in
  let data := flat_map rdata rs in
  if forallb (fun r => match rtype r with Int64 => true | Boolean => false end) rs
     && forallb (fun r => same_shape (rdims r) (match rs with r0 :: _ => rdims r0 | [] => [] end)) rs
     && Nat.eqb (List.length data) (volume out)
  then Ok data else Err InvalidArgument.
(** The number of batches before [repeat] starts again (aby3.py 4767). *)
Definition nbatches (q m : nat) : nat := Nat.div (m + q - 1) q.
(** [next] of one of the six iterators at its call number [t] (aby3.py 4768-4769, 4779-4784).  The end of an empty data set
    inside the generator is a RuntimeError. *)
Definition stream (q : nat) (out : list nat) (l : option (list rec)) (t : nat) : res (list Z) :=
  match l with
  | None => Err NotFound
  | Some l => if Nat.eqb (List.length l) 0 then Err RuntimeError else batch_at q out l (Nat.modulo t (nbatches q (List.length l)))
  end.

(** The generator (aby3.py 4771-4787): word size, batch size, shape, records of the six places, and the number of the next call, absent
    once an exception has ended it.  Records are taken from the disk when the generator is made. *)
Record gen := Gen { gw : width; gq : nat; gout : list nat; grecs : nat -> nat -> option (list rec); gpos : option nat }.
(** aby3.py 4737-4769 [_read_]: the generator and the caller's list [output_shape] afterwards (4747-4748 append to it). *)
Definition read (w : width) (prefixes : list string) (file_batch : nat) (output_shape : list nat) (d : disk) : list nat * res gen :=
  let out := match w with W64 => output_shape | W128 => output_shape ++ [2%nat] end in
  (out, match out with
        | [] => Err IndexError
        | o :: _ =>
          if Nat.eqb file_batch 0 then Err ZeroDivision else
          let q := Nat.div o file_batch in
          if Nat.eqb q 0 then Err InvalidArgument else Ok (Gen w q out (fun i j => all_records prefixes i j d) (Some 0%nat))
        end).
(** [default_factory.tensor(batch, encode=False)] (aby3.py 4779-4784): the entries of the words. *)
Definition entries (w : width) (ws : list Z) : list Z := match w with W64 => ws | W128 => unlimb ws end.
(** The shape of the tensor (int128.py 274-276: without the last axis). *)
Definition out_dims (w : width) (out : list nat) : list nat := match w with W64 => out | W128 => removelast out end.
(** [next] of the generator (aby3.py 4771-4787): always a scaled, arithmetic sharing of the default word size. *)
Definition next (g : gen) : gen * res tens :=
  match gpos g with
  | None => (g, Err StopIteration)
  | Some t =>
    let s i j := stream (gq g) (gout g) (grecs g i j) t in
    let at_ p := Gen (gw g) (gq g) (gout g) (grecs g) p in
    match s 0%nat 0%nat, s 0%nat 1%nat, s 1%nat 0%nat, s 1%nat 1%nat, s 2%nat 0%nat, s 2%nat 1%nat with
    | Ok a, Ok b, Ok c, Ok d, Ok e, Ok f =>
      let en := entries (gw g) in
      (at_ (Some (S t)), Ok (Tens (out_dims (gw g) (gout g)) true Arith (FI (bits (gw g))) (en a) (en b) (en c) (en d) (en e) (en f)))
    | Err x, _, _, _, _, _ | Ok _, Err x, _, _, _, _ | Ok _, Ok _, Err x, _, _, _ | Ok _, Ok _, Ok _, Err x, _, _
    | Ok _, Ok _, Ok _, Ok _, Err x, _ | Ok _, Ok _, Ok _, Ok _, Ok _, Err x => (at_ None, Err x)
    end
  end.
(** [k] calls of [next] (aby3.py 4772 [while True]). *)
Fixpoint calls (k : nat) (g : gen) : list (res tens) :=
  match k with O => [] | S k' => let '(g', r) := next g in r :: calls k' g' end.
