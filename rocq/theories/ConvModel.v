(** Model of convolutions of tensors (tf_encrypted/tensor/shared.py, tensor/int100.py) and of the Conv2D layer
    (tf_encrypted/keras/layers/convolutional.py). Entries are taken from any ring; truncation and wrap-around are not
    modelled here. *)
From Coq Require Import List Arith Bool.
Import ListNotations.

(** The exceptions that may occur (shared.py 100, 258, convolutional.py 267-272, native.py 226-227, convert.py 191-193; shape errors of TensorFlow are
    [ValueError]). *)
Inductive exn := ValueError | AssertionError | TypeError | KeyError | IndexError | AttributeError | NotImplementedError.
(** The result of a call, or the exception it raises (convolutional.py 171-274). *)
Inductive res (X : Type) := Ok (x : X) | Err (e : exn).
Arguments Ok {X}. Arguments Err {X}.
Notation "'do' x <- m ; k" := (match m with Ok x => k | Err e => Err e end) (at level 200, x name, m at level 100, k at level 200).

(** A tensor: its shape and its entries, by a list of indices (tf.Tensor of native.py 20-40, shares of a private tensor). *)
Record ten (A : Type) := Ten { dims : list nat; val : list nat -> A }.
Arguments Ten {A}. Arguments dims {A}. Arguments val {A}.

(** The number of entries of a shape (tf.reshape in native.py 464-465). *)
Definition psize (d : list nat) : nat := fold_right Nat.mul 1 d.
(** The row-major position of an index (tf.reshape in native.py 464-465). *)
Fixpoint ravel (d idx : list nat) : nat :=
  match d, idx with _ :: d, i :: idx => i * psize d + ravel d idx | _, _ => 0 end.
(** The index at a row-major position (tf.reshape in native.py 464-465). *)
Fixpoint unravel (d : list nat) (p : nat) : list nat :=
  match d with [] => [] | _ :: d => p / psize d :: unravel d (p mod psize d) end.
(** native.py 464-465 [reshape]; -1 is replaced by the number it stands for. *)
Definition reshape {A} (d : list nat) (t : ten A) : res (ten A) :=
  if Nat.eqb (psize d) (psize (dims t)) then Ok (Ten d (fun idx => val t (unravel (dims t) (ravel d idx)))) else Err ValueError.
(** The position of [q] in a permutation, for tf.transpose (native.py 439-440). *)
Fixpoint pos (q : nat) (perm : list nat) : nat :=
  match perm with [] => 0 | p :: perm => if Nat.eqb p q then 0 else S (pos q perm) end.
(** native.py 439-440 [transpose]. *)
Definition transpose {A} (perm : list nat) (t : ten A) : ten A :=
  Ten (map (fun p => nth p (dims t) 0) perm) (fun idx => val t (map (fun q => nth (pos q perm) idx 0) (seq 0 (length perm)))).
(** native.py 460-462 [reverse] of the first two axes. *)
Definition reverse2 {A} (t : ten A) : ten A :=
  Ten (dims t) (fun idx => match dims t, idx with h :: w :: _, u :: v :: r => val t (h - 1 - u :: w - 1 - v :: r) | _, _ => val t idx end).

(** The padding of a convolution or pooling ("SAME", "VALID"; shared.py 251-258). *)
Inductive padding := SAME | VALID.
(** [math.ceil(a / b)] (shared.py 251-256). *)
Definition ceil_div (a b : nat) : nat := (a + b - 1) / b.
(** One entry of shared.py 249-259 [out_size]. Of a kernel larger than a "VALID" image this makes no windows; the code
    computes a negative number of them or none, and TensorFlow raises. *)
Definition out_len (p : padding) (h k s : nat) : nat := match p with SAME => ceil_div h s | VALID => ceil_div (h + 1 - k) s end.
(** Padding on the top or left by tf.image.extract_patches (shared.py 56-62): half of what the last patch lacks. *)
Definition tf_before (p : padding) (h k s : nat) : nat := match p with SAME => ((ceil_div h s - 1) * s + k - h) / 2 | VALID => 0 end.
(** shared.py 193-210 [pad_size] and convolutional.py 276-292: all the padding along one axis. *)
Definition pad_along (h k s : nat) : nat := if Nat.eqb (h mod s) 0 then k - s else k - h mod s.

Section Conv.
Context {A : Type} (zero : A) (add mul : A -> A -> A).

(** The sum of [f 0], ..., [f (n - 1)] (tf.matmul in native.py 363-368; tf.reduce_sum in convolutional.py 262). *)
Fixpoint sum (n : nat) (f : nat -> A) : A := match n with O => zero | S n => add (sum n f) (f n) end.

(** shared.py 45-68 [im2patches] of an NHWC tensor: tf.image.extract_patches, which lists the pixels of a patch by row, column
    and channel, and reads zeros outside of the image. *)
Definition patches (x : ten A) (kh kw sh sw : nat) (p : padding) : ten A :=
  match dims x with
  | [n; h; w; c] =>
    Ten [n; out_len p h kh sh; out_len p w kw sw; kh * kw * c] (fun idx =>
      match idx with
      | [b; i; j; d] =>
        match unravel [kh; kw; c] d with
        | [u; v; ch] =>
          let y := i * sh + u in
          let z := j * sw + v in
          let top := tf_before p h kh sh in
          let left := tf_before p w kw sw in
          if (top <=? y) && (y <? top + h) && (left <=? z) && (z <? left + w) then val x [b; y - top; z - left; ch] else zero
        | _ => zero
        end
      | _ => zero
      end)
  | _ => Ten [] (fun _ => zero)
  end.
(** native.py 363-368 [matmul]. *)
Definition matmul (x y : ten A) : res (ten A) :=
  match dims x, dims y with
  | [a; b], [b'; c] =>
    if Nat.eqb b b' then Ok (Ten [a; c] (fun idx => match idx with [i; j] => sum b (fun q => mul (val x [i; q]) (val y [q; j])) | _ => zero end))
    else Err ValueError
  | _, _ => Err ValueError
  end.

(** shared.py 213-246 [im2col]; [nchw] is the data format "NCHW". *)
Definition im2col (nchw : bool) (x : ten A) (kh kw sh sw : nat) (p : padding) : res (ten A) :=
  let x := if nchw then transpose [0; 2; 3; 1] x else x in
  let c := nth 3 (dims x) 0 in
  let t := transpose [3; 1; 2; 0] (patches x kh kw sh sw p) in
  do t <- reshape [kh; kw; c; psize (dims t) / (kh * kw * c)] t;
  let t := if nchw then transpose [2; 0; 1; 3] t else t in
  reshape [c * kh * kw; psize (dims t) / (c * kh * kw)] t.
(** shared.py 262-289 [conv2d] with the data format "NCHW" (native.py 418-423, int128.py 427-429). *)
Definition conv2d (x y : ten A) (sh sw : nat) (p : padding) : res (ten A) :=
  let x := transpose [0; 2; 3; 1] x in
  match dims y, dims x with
  | [kh; kw; _; f], [n; h; w; _] =>
    let ho := out_len p h kh sh in
    let wo := out_len p w kw sw in
    do xcol <- im2col false x kh kw sh sw p;
    do wcol <- reshape [f; psize (dims y) / f] (transpose [3; 0; 1; 2] y);
    do out <- matmul wcol xcol;
    do out <- reshape [f; ho; wo; n] out;
    Ok (transpose [3; 0; 1; 2] out)
  | _, _ => Err ValueError
  end.
(** int100.py 692-722 [conv2d] for kernels with as many input channels as the image has. *)
Definition crt_conv2d (x y : ten A) (sh sw : nat) (p : padding) : res (ten A) :=
  match dims y, dims x with
  | [kh; kw; _; f], [n; _; h; w] =>
    let ho := out_len p h kh sh in
    let wo := out_len p w kw sw in
    do xcol <- im2col true x kh kw sh sw p;
    do wcol <- reshape [f; psize (dims y) / f] (transpose [3; 2; 0; 1] y);
    do out <- matmul wcol xcol;
    do out <- reshape [f; ho; wo; n] out;
    Ok (transpose [3; 0; 1; 2] out)
  | _, _ => Err ValueError
  end.

(** Replaces the entry at [ax] of an index or a shape (aby3.py 1934-1937). *)
Fixpoint set_nth (ax v : nat) (l : list nat) : list nat :=
  match l, ax with [], _ => [] | _ :: l, O => v :: l | a :: l, S ax => a :: set_nth ax v l end.
(** aby3.py 1927-1957 [prepend_zeros] and [append_zeros] along one axis. *)
Definition pad_axis (ax before after : nat) (t : ten A) : ten A :=
  let d := nth ax (dims t) 0 in
  Ten (set_nth ax (before + d + after) (dims t)) (fun idx =>
    let y := nth ax idx 0 in
    if (before <=? y) && (y <? before + d) then val t (set_nth ax (y - before) idx) else zero).
(** [x[..., before : dim - after, ...]] along one axis (convolutional.py 236-241). *)
Definition crop_axis (ax before after : nat) (t : ten A) : ten A :=
  Ten (set_nth ax (nth ax (dims t) 0 - after - before) (dims t)) (fun idx => val t (set_nth ax (nth ax idx 0 + before) idx)).
(** aby3.py 5435-5456 [_expand_private]. *)
Definition expand (s : nat) (t : ten A) : ten A :=
  match dims t with
  | h :: w :: r =>
    Ten ((h - 1) * s + 1 :: (w - 1) * s + 1 :: r) (fun idx =>
      match idx with
      | y :: z :: q => if (Nat.eqb (y mod s) 0) && (Nat.eqb (z mod s) 0) then val t (y / s :: z / s :: q) else zero
      | _ => zero
      end)
  | _ => t
  end.

(** The arguments of a Conv2D layer that matter here (convolutional.py 110-131); there is no activation. *)
Record conv := Conv { stride0 : nat; stride1 : nat; pad : padding; channels_first : bool; lazy : bool }.
(** [outputs + bias] for a bias of shape [[f, 1, 1]] (convolutional.py 181-182). *)
Definition add_bias (t b : ten A) : ten A :=
  Ten (dims t) (fun idx => add (val t idx) (val b [nth 1 idx 0; 0; 0])).
(** convolutional.py 171-191 [call]; [bias] is absent without [use_bias]. *)
Definition conv_call (L : conv) (kernel : ten A) (bias : option (ten A)) (x : ten A) : res (ten A) :=
  let x := if channels_first L then x else transpose [0; 3; 1; 2] x in
  do out <- conv2d x kernel (stride0 L) (stride1 L) (pad L);
  let out := match bias with Some b => add_bias out b | None => out end in
  Ok (if channels_first L then out else transpose [0; 2; 3; 1] out).

Context (over : A -> nat -> A).
(** Division of every entry by the batch size (convolutional.py 257-258, 263-264). *)
Definition scaled (L : conv) (n : nat) (t : ten A) : ten A := if lazy L then Ten (dims t) (fun idx => over (val t idx) n) else t.
(** [d_y.reduce_sum(axis=[0, 1, 2]).reshape(self.bias.shape)] (convolutional.py 262). *)
Definition sum_bias (t : ten A) : res (ten A) :=
  match dims t with
  | [h; w; n; f] => reshape [f; 1; 1] (Ten [f] (fun idx => sum h (fun i => sum w (fun j => sum n (fun b => val t [i; j; b; nth 0 idx 0])))))
  | _ => Err ValueError
  end.
(** List equality of shapes, for the assertions of convolutional.py 267-272. *)
Definition same_shape (d e : list nat) : bool := if list_eq_dec Nat.eq_dec d e then true else false.
(** convolutional.py 193-274 [backward]: the gradients of the kernel, of the bias, and of the input [x]. *)
Definition conv_backward (L : conv) (kernel : ten A) (bias : option (ten A)) (x dy : ten A) : res (ten A * option (ten A) * ten A) :=
  let k0 := nth 0 (dims kernel) 0 in
  let k1 := nth 1 (dims kernel) 0 in
  let xin := if channels_first L then x else transpose [0; 3; 1; 2] x in
  let nx := nth 0 (dims xin) 0 in
  let dy := if channels_first L then transpose [2; 3; 0; 1] dy else transpose [1; 2; 0; 3] dy in
  let inner := expand (stride0 L) dy in
  let padded := pad_axis 1 (k1 - 1) (k1 - 1) (pad_axis 0 (k0 - 1) (k0 - 1) inner) in
  let padded := transpose [2; 3; 0; 1] padded in
  let flipped := transpose [0; 1; 3; 2] (reverse2 kernel) in
  do dx <- conv2d padded flipped 1 1 VALID;
  let ph := pad_along (nth 2 (dims xin) 0) k0 (stride0 L) in
  let pw := pad_along (nth 3 (dims xin) 0) k1 (stride1 L) in
  let dx := match pad L with SAME => crop_axis 3 (pw / 2) (pw - pw / 2) (crop_axis 2 (ph / 2) (ph - ph / 2) dx) | VALID => dx end in
  let xin := match pad L with SAME => pad_axis 3 (pw / 2) (pw - pw / 2) (pad_axis 2 (ph / 2) (ph - ph / 2) xin) | VALID => xin end in
  let dx := if channels_first L then dx else transpose [0; 2; 3; 1] dx in
  do dk <- conv2d (transpose [1; 0; 2; 3] xin) inner 1 1 VALID;
  let dk := scaled L nx (transpose [2; 3; 0; 1] dk) in
  do db <- match bias with Some _ => do b <- sum_bias dy; Ok (Some (scaled L nx b)) | None => Ok None end;
  if same_shape (dims dx) (dims x) then
    if same_shape (dims dk) (dims kernel) then Ok (dk, db, dx) else Err AssertionError
  else Err AssertionError.
End Conv.
