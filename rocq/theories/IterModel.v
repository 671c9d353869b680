(** Model of [iterate], which deals out the rows of a private ABY3 tensor in batches (/repo/tf_encrypted/protocol/aby3/aby3.py
    1631-1641, 4790-4844).  The library makes the iterators but does not run their initializers (4823), and TensorFlow refuses
    them in eager mode; modelled is what a graph gives once they are initialised. *)
From Verif Require Import Base TensorModel Aby3Model.

(** A row: its entries (tf.data.Dataset.from_tensor_slices, aby3.py 4813). *)
Definition row := list Z.
(** An ABY3PrivateTensor with at least one axis (aby3_tensors.py 555-575): the rows of the six shares. *)
Record mat := Mat { m00 : list row; m01 : list row; m10 : list row; m11 : list row; m20 : list row; m21 : list row;
                    msc : bool; mty : sty; mfc : fac }.
(** Exceptions of TensorFlow at run time: the end of the data (aby3.py 4827) and a batch that cannot be reshaped (4830). *)
Inductive exn := OutOfRange | InvalidArgument.
(** Outcomes (aby3.py 4827-4844). *)
Inductive res (A : Type) := Ok (a : A) | Err (e : exn).
Arguments Ok {A} _.
Arguments Err {A} _.

(** The dataset of aby3.py 4813-4816, element by element: [None] is its end.  Repeating nothing gives nothing. *)
Definition source {A} (repeat : bool) (l : list A) (t : nat) : option A :=
  if repeat then match l with [] => None | _ => nth_error l (t mod length l) end else nth_error l t.

(** TensorFlow's shuffle (aby3.py 4819): before every draw the buffer is filled up. *)
Fixpoint fill {A} (fuel cap : nat) (src : nat -> option A) (buf : list A) (next : nat) : list A * nat :=
  match fuel with
  | O => (buf, next)
  | S fuel =>
    if (length buf <? cap)%nat
    then match src next with Some a => fill fuel cap src (buf ++ [a]) (S next) | None => (buf, next) end
    else (buf, next)
  end.
(** [l] with entry [i] replaced (ShuffleDataset swaps the drawn entry with the first, aby3.py 4819). *)
Fixpoint put {A} (i : nat) (a : A) (l : list A) : list A :=
  match l, i with
  | [], _ => []
  | _ :: l, O => a :: l
  | b :: l, S i => b :: put i a l
  end.
(** [k] draws from number [t] on; [pick] is the sequence of random numbers of the seed (aby3.py 4819).  The drawn entry is
    swapped with the first one, which is removed. *)
Fixpoint draws {A} (cap : nat) (pick : nat -> nat) (src : nat -> option A) (k t : nat) (buf : list A) (next : nat) : list A :=
  match k with
  | O => []
  | S k =>
    let '(buf, next) := fill cap cap src buf next in
    match buf with
    | [] => []
    | h :: _ =>
      let i := (pick t mod length buf)%nat in
      nth i buf h :: draws cap pick src k (S t) (tl (put i h buf)) next
    end
  end.
(** Element [t] of the dataset that is cut into batches (aby3.py 4813-4819). *)
Definition stream {A} (repeat shuffle : bool) (pick : nat -> nat) (l : list A) (t : nat) : option A :=
  if shuffle then nth_error (draws 512 pick (source repeat l) (S t) 0 [] 0) t else source repeat l t.
(** [b] elements from number [t] on, or fewer at the end (aby3.py 4821). *)
Fixpoint collect {A} (s : nat -> option A) (b t : nat) : list A :=
  match b with
  | O => []
  | S b => match s t with Some a => a :: collect s b (S t) | None => [] end
  end.
(** Batch number [j] (aby3.py 4806, 4821, 4827, 4829-4831): a shorter one cannot be reshaped (rows have entries). *)
Definition batch {A} (batch_size : Z) (repeat shuffle : bool) (pick : nat -> nat) (l : list A) (j : nat) : res (list A) :=
  let b := Z.to_nat (Z.max 1 batch_size) in
  let r := collect (stream repeat shuffle pick l) b (j * b) in
  match r with
  | [] => Err OutOfRange
  | _ => if Nat.eqb (length r) b then Ok r else Err InvalidArgument
  end.
(** aby3.py 4790-4844 [_iterate_private], the [j]-th value of the result.  [g] is [default_factory]; the seed is the same for
    all six iterators (4804-4805, 4819). *)
Definition iterate (g : fac) (x : mat) (batch_size : Z) (repeat shuffle : bool) (pick : nat -> nat) (j : nat) : res mat :=
  let get l := batch batch_size repeat shuffle pick l j in
  match get (m00 x), get (m01 x), get (m10 x), get (m11 x), get (m20 x), get (m21 x) with
  | Ok a00, Ok a01, Ok a10, Ok a11, Ok a20, Ok a21 => Ok (Mat a00 a01 a10 a11 a20 a21 (msc x) (mty x) g)
  | Err e, _, _, _, _, _ | _, Err e, _, _, _, _ | _, _, Err e, _, _, _ | _, _, _, Err e, _, _ | _, _, _, _, Err e, _ | _, _, _, _, _, Err e => Err e
  end.
