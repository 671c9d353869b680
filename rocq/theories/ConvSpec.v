(** Vocabulary of the theorems about convolutions, independent of the programs. *)
From Coq Require Import List Arith Bool.
From Verif Require Import ConvModel.
Import ListNotations.

(** [o] windows of length [k], [s] apart, lie within a line of length [h] ("VALID"); with "SAME" there is one for each start
    within the line. *)
Definition windows (p : padding) (h k s o : nat) : Prop :=
  match p with VALID => forall i, i < o <-> i * s + k <= h | SAME => forall i, i < o <-> i * s < h end.
(** The line is extended at both ends so that the last window fits; [t] places come first, half of them rounded down. *)
Definition placed (p : padding) (h k s o t : nat) : Prop :=
  match p with VALID => t = 0 | SAME => t = ((o - 1) * s + k - h) / 2 end.
(** Every place of the extended line lies before the end of the last window. *)
Definition covered (p : padding) (h k s o : nat) : Prop :=
  match p with VALID => (o - 1) * s + k = h | SAME => h <= (o - 1) * s + k end.
(** The shape of [n] images of [c] channels, [h] rows and [w] columns, in either data format. *)
Definition shape (first : bool) (n c h w : nat) : list nat := if first then [n; c; h; w] else [n; h; w; c].

Section ConvSpec.
Context {A : Type} (zero : A) (add mul : A -> A -> A).
(** The sum of [f i] for [i < n]. *)
Definition sigma (n : nat) (f : nat -> A) : A := fold_right add zero (map f (seq 0 n)).
(** The image extended by zeros: [h] lines from [top] on, [w] columns from [left] on. *)
Definition extended (x : nat -> nat -> nat -> nat -> A) (h w top left b c y z : nat) : A :=
  if (top <=? y) && (y <? top + h) && (left <=? z) && (z <? left + w) then x b c (y - top) (z - left) else zero.
(** The entry at [i], [j] of channel [g] of the cross-correlation of the image [b] with the kernel [w]. *)
Definition correlation (img : nat -> nat -> nat -> nat -> A) (ker : nat -> nat -> nat -> nat -> A) (c kh kw sh sw : nat) (b g i j : nat) : A :=
  sigma kh (fun u => sigma kw (fun v => sigma c (fun ch => mul (img b ch (i * sh + u) (j * sw + v)) (ker u v ch g)))).
(** The entries of a tensor of rank 4. *)
Definition at4 (t : ten A) (a b c d : nat) : A := val t [a; b; c; d].
(** [z] is the cross-correlation of the images [x], extended by zeros, with the kernel [y]. *)
Definition cross_correlation (z x y : ten A) (p : padding) (n c h w kh kw f sh sw : nat) : Prop :=
  exists ho wo top left, windows p h kh sh ho /\ windows p w kw sw wo /\ placed p h kh sh ho top /\ placed p w kw sw wo left /\
  dims z = [n; f; ho; wo] /\ forall b g i j, b < n -> g < f -> i < ho -> j < wo ->
    at4 z b g i j = correlation (extended (at4 x) h w top left) (at4 y) c kh kw sh sw b g i j.
(** The entries of images in either data format, by image, channel, row and column. *)
Definition nchw (first : bool) (t : ten A) (b ch y z : nat) : A := if first then at4 t b ch y z else at4 t b y z ch.
(** The inner product of two tensors of rank 4 and of the same shape. *)
Definition inner4 (n c h w : nat) (x y : ten A) : A :=
  sigma n (fun a => sigma c (fun b => sigma h (fun i => sigma w (fun j => mul (at4 x a b i j) (at4 y a b i j))))).
Definition inner (x y : ten A) : A := match dims x with [n; c; h; w] => inner4 n c h w x y | _ => zero end.
(** [x] + [y], entry by entry. *)
Definition plus (x y : ten A) : ten A := Ten (dims x) (fun idx => add (val x idx) (val y idx)).
(** [y] is [x], or the quotients of its entries by [n]. *)
Definition averaged (over : A -> nat -> A) (avg : bool) (n : nat) (x y : ten A) : Prop :=
  dims y = dims x /\ forall idx, val y idx = if avg then over (val x idx) n else val x idx.
(** The sum of the products of the entries of two biases. *)
Definition bias_inner (f : nat) (x y : ten A) : A := sigma f (fun g => mul (val x [g; 0; 0]) (val y [g; 0; 0])).
End ConvSpec.
