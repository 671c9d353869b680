(** Model of pooling: tf_encrypted/protocol/aby3/aby3.py (avgpool2d, maxpool2d), tensor/shared.py (patches2im) and
    keras/layers/pooling.py. Entries are taken from any ring; truncation and wrap-around are not modelled here. *)
From Coq Require Import List Arith Bool.
From Verif Require Import ConvModel.
Import ListNotations.
Notation "'do' x <- m ; k" := (match m with Ok x => k | Err e => Err e end) (at level 200, x name, m at level 100, k at level 200).

(** The arguments of a pooling layer (pooling.py 33-52). *)
Record pool := Pool { size0 : nat; size1 : nat; step0 : nat; step1 : nat; ppad : padding; pfirst : bool }.

Section Pool.
Context {A : Type} (zero one : A) (add mul : A -> A -> A).
Notation sum := (ConvModel.sum zero add).

(** aby3.py 5333-5352 [avgpool2d]; [sc] is the scalar 1 / (h * w), whose encoding is not modelled. *)
Definition avgpool (sc : A) (x : ten A) (k0 k1 s0 s1 : nat) (p : padding) : res (ten A) :=
  match dims x with
  | [b; c; h; w] =>
    let ho := out_len p h k0 s0 in
    let wo := out_len p w k1 s1 in
    do xs <- reshape [b * c; 1; h; w] x;
    do y <- im2col zero true xs k0 k1 s0 s1 p;
    let r := Ten [nth 1 (dims y) 0] (fun idx => mul (sum (nth 0 (dims y) 0) (fun q => val y [q; nth 0 idx 0])) sc) in
    do r <- reshape [ho; wo; b; c] r;
    Ok (transpose [2; 3; 0; 1] r)
  | _ => Err ValueError
  end.

(** shared.py 45-68 [im2patches] of an NCHW tensor. *)
Definition im2patches (x : ten A) (k0 k1 s0 s1 : nat) (p : padding) : ten A :=
  transpose [0; 3; 1; 2] (patches zero (transpose [0; 2; 3; 1] x) k0 k1 s0 s1 p).
(** aby3.py 5285-5312 [maxpool2d_with_argmax]; [arg n f] is the position of the maximum of [f 0], ..., [f (n - 1)] that
    [reduce_max_with_argmax] finds, which returns the entry there and the one-hot encoding of the position. *)
Definition maxpool (arg : nat -> (nat -> A) -> nat) (x : ten A) (k0 k1 s0 s1 : nat) (p : padding) : res (ten A * ten A) :=
  match dims x with
  | [b; c; h; w] =>
    let ho := out_len p h k0 s0 in
    let wo := out_len p w k1 s1 in
    do xs <- reshape [b * c; 1; h; w] x;
    let y := im2patches xs k0 k1 s0 s1 p in
    let len := nth 1 (dims y) 0 in
    let best := fun a i j => arg len (fun q => val y [a; q; i; j]) in
    let m := Ten [b * c; ho; wo] (fun idx => match idx with [a; i; j] => val y [a; best a i j; i; j] | _ => zero end) in
    let hot := Ten (dims y) (fun idx => match idx with [a; q; i; j] => if Nat.eqb q (best a i j) then one else zero | _ => zero end) in
    do m <- reshape [b; c; ho; wo] m;
    do hot <- reshape [b; c; ho; wo; len] (transpose [0; 2; 3; 1] hot);
    Ok (m, hot)
  | _ => Err ValueError
  end.

(** shared.py 70-190 [patches2im] of an NHWC tensor with the consolidation "SUM"; [s0], [s1] are [strides]. An entry of the
    scattered image is the sum of the entries of one patch that land there; padding raises (native.py 226-227,
    int128.py 191-193: [tf.pad] is called without its second argument). *)
Definition patches2im (t : ten A) (k0 k1 s0 s1 ih iw : nat) : res (ten A) :=
  match dims t with
  | [bs; nh; nw; d] =>
    let col := d / (k0 * k1) in
    if Nat.eqb (d mod (k0 * k1)) 0 then
      do t <- reshape [bs; psize (dims t) / (bs * k0 * k1 * col); k0; k1; col] t;
      let wout := (nw - 1) * s0 + k1 in
      let hout := (nh - 1) * s1 + k0 in
      let strat := Ten [bs; hout; wout; col; nh * nw] (fun idx =>
        match idx with
        | [b; Y; X; ch; q] =>
          sum k0 (fun y => sum k1 (fun x => if (Nat.eqb Y (y + q / nw * s1)) && (Nat.eqb X (x + q mod nw * s0)) then val t [b; q; y; x; ch] else zero))
        | _ => zero
        end) in
      let strat := transpose [0; 4; 1; 2; 3] strat in
      let img := Ten [bs; hout; wout; col] (fun idx => match idx with [b; Y; X; ch] => sum (nh * nw) (fun q => val strat [b; q; Y; X; ch]) | _ => zero end) in
      let top := (hout - ih) / 2 in
      let left := (wout - iw) / 2 in
      if hout <? ih then Err TypeError else
      let img := if ih <? hout then crop_axis 1 top (hout - ih - top) img else img in
      if wout <? iw then Err TypeError else
      Ok (if iw <? wout then crop_axis 2 left (wout - iw - left) img else img)
    else Err AssertionError
  | _ => Err ValueError
  end.

(** [tfe.tile(tfe.expand_dims(d_y, 4), [1, 1, 1, 1, len])] (pooling.py 175, 275). *)
Definition tile_last (len : nat) (t : ten A) : ten A := Ten (dims t ++ [len]) (fun idx => val t (removelast idx)).
(** What the two [backward] methods share (pooling.py 165-192, 266-292): the gradient, given the weights of the patches. *)
Definition pool_grad (L : pool) (weigh : ten A -> ten A) (x dy : ten A) : res (ten A) :=
  let dy := if pfirst L then dy else transpose [0; 3; 1; 2] dy in
  let hx := nth (if pfirst L then 2 else 1) (dims x) 0 in
  let wx := nth (if pfirst L then 3 else 2) (dims x) 0 in
  match dims dy with
  | [b; c; hy; wy] =>
    let len := size0 L * size1 L in
    do t <- reshape [b * c; hy; wy; len] (weigh (tile_last len dy));
    do d <- patches2im t (size0 L) (size1 L) (step0 L) (step1 L) hx wx;
    do d <- reshape [b; c; hx; wx] d;
    Ok (if pfirst L then d else transpose [0; 2; 3; 1] d)
  | _ => Err ValueError
  end.

(** pooling.py 246-259 [AveragePooling2D.call]. *)
Definition avg_call (L : pool) (sc : A) (x : ten A) : res (ten A) :=
  let x := if pfirst L then x else transpose [0; 3; 1; 2] x in
  do o <- avgpool sc x (size0 L) (size1 L) (step0 L) (step1 L) (ppad L);
  Ok (if pfirst L then o else transpose [0; 2; 3; 1] o).
(** pooling.py 261-292 [AveragePooling2D.backward]. *)
Definition avg_backward (L : pool) (sc : A) (x dy : ten A) : res (ten A) :=
  pool_grad L (fun t => Ten (dims t) (fun idx => mul (val t idx) sc)) x dy.
(** pooling.py 142-158 [MaxPooling2D.call]. *)
Definition max_call (L : pool) (arg : nat -> (nat -> A) -> nat) (x : ten A) : res (ten A * ten A) :=
  let x := if pfirst L then x else transpose [0; 3; 1; 2] x in
  do om <- maxpool arg x (size0 L) (size1 L) (step0 L) (step1 L) (ppad L);
  Ok (if pfirst L then om else (transpose [0; 2; 3; 1] (fst om), transpose [0; 2; 3; 1; 4] (snd om))).
(** pooling.py 160-191 [MaxPooling2D.backward], given the one-hot encoding that [call] kept. *)
Definition max_backward (L : pool) (hot x dy : ten A) : res (ten A) :=
  let hot := if pfirst L then hot else transpose [0; 3; 1; 2; 4] hot in
  pool_grad L (fun t => Ten (dims t) (fun idx => mul (val t idx) (val hot idx))) x dy.

(** pooling.py 358-369 [GlobalAveragePooling2D.call]. *)
Definition gap_call (first keep : bool) (sc : A) (x : ten A) : res (ten A) :=
  match dims x with
  | [a; p; q; r] =>
    let red := if first
      then Ten [a; p] (fun idx => match idx with [b; ch] => sum q (fun i => sum r (fun j => val x [b; ch; i; j])) | _ => zero end)
      else Ten [a; r] (fun idx => match idx with [b; ch] => sum p (fun i => sum q (fun j => val x [b; i; j; ch])) | _ => zero end) in
    reshape (if first then if keep then [a; p; 1; 1] else [a; p] else if keep then [a; 1; 1; r] else [a; r])
      (Ten (dims red) (fun idx => mul (val red idx) sc))
  | _ => Err ValueError
  end.
(** [tfe.tile] of a tensor of rank 4 (native.py 242-243). *)
Definition tile4 (m : list nat) (t : ten A) : ten A :=
  Ten (map (fun '(a, b) => a * b) (combine (dims t) m)) (fun idx => val t (map (fun '(i, d) => i mod d) (combine idx (dims t)))).
(** pooling.py 371-387 [GlobalAveragePooling2D.backward]. *)
Definition gap_backward (first keep : bool) (sc : A) (x dy : ten A) : ten A :=
  let hx := nth (if first then 2 else 1) (dims x) 0 in
  let wx := nth (if first then 3 else 2) (dims x) 0 in
  let d := Ten (dims dy) (fun idx => mul (val dy idx) sc) in
  let d := if keep then d else Ten (dims d ++ [1; 1]) (fun idx => val d (firstn 2 idx)) in
  let d := tile4 [1; 1; hx; wx] d in
  if first then d else transpose [0; 2; 3; 1] d.

(** pooling.py 418-430 [GlobalMaxPooling2D.call]; [arg] as for [maxpool]. *)
Definition gmp_call (first : bool) (arg : nat -> (nat -> A) -> nat) (x : ten A) : res (ten A * ten A) :=
  let x := if first then x else transpose [0; 3; 1; 2] x in
  match dims x with
  | [b; c; h; w] =>
    do t <- reshape [b; c; h * w] x;
    let best := fun a ch => arg (h * w) (fun q => val t [a; ch; q]) in
    Ok (Ten [b; c] (fun idx => match idx with [a; ch] => val t [a; ch; best a ch] | _ => zero end),
        Ten [b; c; h * w] (fun idx => match idx with [a; ch; q] => if Nat.eqb q (best a ch) then one else zero | _ => zero end))
  | _ => Err ValueError
  end.
(** pooling.py 432-449 [GlobalMaxPooling2D.backward]. *)
Definition gmp_backward (first : bool) (hot x dy : ten A) : res (ten A) :=
  match dims x with
  | [a; p; q; r] =>
    let b := a in
    let c := if first then p else r in
    let hx := if first then q else p in
    let wx := if first then r else q in
    let d := Ten (dims dy ++ [hx * wx]) (fun idx => mul (val dy (removelast idx)) (val hot idx)) in
    do d <- reshape [b; c; hx; wx] d;
    Ok (if first then d else transpose [0; 2; 3; 1] d)
  | _ => Err ValueError
  end.
End Pool.
