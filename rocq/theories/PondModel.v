(** Model of the two-party protocol Pond, /repo/tf_encrypted/protocol/pond/pond.py and
    triple_sources.py.

    A tensor of ring elements is the flat list of its entries.  TensorFlow's structural
    primitives (transpose, reshape, slice, gather, pad, broadcasting, im2col, ...) are index
    selections determined by the shapes ([vsel]); reductions are index sums ([vlin]); matmul
    and conv2d are index sums of products ([vbil]).  Every operation is executed on a device
    and the model records, per device, each tensor that an operation reads or produces (the
    view of that machine).  Exceptions are values.  Random draws are arguments. *)
From Verif Require Import Base Factory TensorModel CrtModel.

(** The machines: [server_0], [server_1] and the crypto producer of pond.py 81-126, and the
    input provider of a private input (pond.py 418-507). *)
Inductive dev := Srv0 | Srv1 | Producer | Provider.
(** Device name comparison (pond.py 1877, 1967, 2053). *)
Definition dev_eqb (a b : dev) : bool :=
  match a, b with
  | Srv0, Srv0 | Srv1, Srv1 | Producer, Producer | Provider, Provider => true
  | _, _ => false
  end.
(** Python exceptions raised by the modelled functions (pond.py passim, e.g. 1868-1883, 2519,
    3238-3247). *)
Inductive exn := AssertionError | TypeError | NotImplementedError.

(** Outcome of a call (result or exception, pond.py passim), with the log of tensors that operations read or produced. *)
Inductive res (A : Type) := Ok (a : A) | Err (e : exn).
Arguments Ok {A} _.
Arguments Err {A} _.

Section Pond.
Context (F : factory).

(** The ring's operations that only truncation needs: reduction by a public integer
    (native.py 433-437, int100.py 617-619), truncation (native.py 504-509, int100.py 773-776)
    and the Python expression [0 - x] (native.py 309-311, int100.py 554-556). *)
Record fixops := MkFix {
  fx_mod : felt F -> Z -> option (felt F);
  fx_trunc : felt F -> Z -> Z -> option (felt F);
  fx_rsub0 : felt F -> felt F }.

(** AbstractTensor: flat list of entries (native.py 252-282, int100.py 411-443). *)
Definition ten := list (felt F).
(** Zero entry, also the value used for padding (native.py [pad], tf.pad). *)
Definition f0 : felt F := fof F 0.
(** Entry [i] of a flat tensor (native.py 370-380 indexing). *)
Definition ent (i : nat) (x : ten) : felt F := nth i x f0.

(** native.py 342-361, 467-471, int100.py 571-579, 761: elementwise operations. *)
Definition vadd (x y : ten) : ten := zip2 (fadd F) x y.
(** native.py 349-354. *)
Definition vsub (x y : ten) : ten := zip2 (fsub F) x y.
(** native.py 356-361. *)
Definition vmul (x y : ten) : ten := zip2 (fmul F) x y.
(** native.py 467-471. *)
Definition vneg (x : ten) : ten := map (fneg F) x.
(** An integer lifted by [_lift] (native.py 254-268, int100.py 394-409), broadcast to n entries. *)
Definition vconst (n : nat) (k : Z) : ten := repeat (fof F k) n.
(** Structural primitives (native.py 370-380, 396-416, 439-465, 554 ff.): output entry j is the
    input entry [idx j], or zero padding. *)
Definition vsel (idx : list (option nat)) (x : ten) : ten :=
  map (fun o => match o with Some i => ent i x | None => f0 end) idx.
(** reduce_sum and cumsum (native.py 473-485): output entry j is the sum of the listed entries. *)
Definition vlin (rows : list (list nat)) (x : ten) : ten :=
  map (fun ps => fold_right (fadd F) f0 (map (fun p => ent p x) ps)) rows.
(** Entry read by a possibly padded index (im2col pads with zeros, shared.py 213-247). *)
Definition oent (o : option nat) (x : ten) : felt F :=
  match o with Some i => ent i x | None => f0 end.
(** matmul and conv2d (native.py 363-368, 418-423; shared.py 250-295): output entry j is the sum
    of products of the listed pairs of entries. *)
Definition vbil (tab : list (list (option nat * option nat))) (x y : ten) : ten :=
  map (fun ps => fold_right (fadd F) f0 (map (fun p => fmul F (oent (fst p) x) (oent (snd p) y)) ps)) tab.
(** The bilinear tensor operations used by the protocol (pond.py 2872, 3092, 3218). *)
Inductive bop := BMul | BMat (tab : list (list (option nat * option nat)))
                      | BConv (tab : list (list (option nat * option nat))).
(** Dispatch on the operation ([*], [.matmul], [.conv2d]; native.py 356-368, 418-423). *)
Definition bapply (o : bop) (x y : ten) : ten :=
  match o with BMul => vmul x y | BMat tab => vbil tab x y | BConv tab => vbil tab x y end.

(** A tensor together with the device it lives on ([value.device], native.py 306-307). *)
Record pv := MkPv { pdev : dev; pval : ten }.

(** Log entries: (machine, tensor seen by it).  Not in the code: records the effect of the
    [with tf.device(...)] blocks (pond.py 2516 ff.). *)
Definition log := list (dev * ten).
(** Computations: log and outcome (modelling device for Python control flow, pond.py 1-4453). *)
Definition M (A : Type) : Type := (log * res A)%type.
(** Python [return] (pond.py passim, lines 1-4453). *)
Definition ret {A} (a : A) : M A := ([], Ok a).
(** Python [raise] (pond.py e.g. 3238-3247). *)
Definition raise {A} (e : exn) : M A := ([], Err e).
(** Python statement sequencing with exceptions (pond.py passim, lines 1-4453). *)
Definition bind {A B} (m : M A) (k : A -> M B) : M B :=
  match snd m with
  | Ok a => (fst m ++ fst (k a), snd (k a))
  | Err e => (fst m, Err e)
  end.
Notation "'do' x <- m ; k" := (bind m (fun x => k)) (at level 200, x name, m at level 100, k at level 200).

(** One operation executed under [with tf.device(d)] (pond.py e.g. 2529-2533): the machine sees
    inputs and output. *)
Definition op1 (d : dev) (f : ten -> ten) (x : pv) : M pv :=
  ([(d, pval x); (d, f (pval x))], Ok (MkPv d (f (pval x)))).
(** Two-operand version of [op1] (pond.py e.g. 2529-2533). *)
Definition op2 (d : dev) (f : ten -> ten -> ten) (x y : pv) : M pv :=
  ([(d, pval x); (d, pval y); (d, f (pval x) (pval y))], Ok (MkPv d (f (pval x) (pval y)))).
(** A random draw or constant created on device [d] (pond.py 798-829, 2439-2441). *)
Definition fresh (d : dev) (x : ten) : M pv := ([(d, x)], Ok (MkPv d x)).
(** An operation that may raise (elementwise, [None] = AssertionError of [inverse],
    math_utils / native.py 504-509, int100.py 773-776). *)
Definition opo (d : dev) (f : felt F -> option (felt F)) (x : pv) : M pv :=
  match sequence (map f (pval x)) with
  | Some y => ([(d, pval x); (d, y)], Ok (MkPv d y))
  | None => ([(d, pval x)], Err AssertionError)
  end.

(** PondPublicTensor, PondPrivateTensor and PondMaskedTensor (pond.py 1856-1945, 1951-2018,
    2029-2104).  The masked tensor keeps its unmasked private tensor (two shares). *)
Inductive ptensor :=
| Pub (v0 v1 : pv) (sc : bool)
| Priv (s0 s1 : pv) (sc : bool)
| Masked (u0 u1 : pv) (usc : bool) (a a0 a1 al0 al1 : pv) (sc : bool).

(** [is_scaled] of a tensor (pond.py 1645). *)
Definition scaled (t : ptensor) : bool :=
  match t with Pub _ _ s => s | Priv _ _ s => s | Masked _ _ _ _ _ _ _ _ s => s end.

(** pond.py 1868-1883: the constructor asserts that the two copies live on the two servers. *)
Definition mk_pub (v0 v1 : pv) (sc : bool) : M ptensor :=
  if dev_eqb (pdev v0) Srv0 && dev_eqb (pdev v1) Srv1
     && Nat.eqb (length (pval v0)) (length (pval v1))
  then ret (Pub v0 v1 sc) else raise AssertionError.
(** pond.py 1958-1973. *)
Definition mk_priv (s0 s1 : pv) (sc : bool) : M ptensor :=
  if dev_eqb (pdev s0) Srv0 && dev_eqb (pdev s1) Srv1
     && Nat.eqb (length (pval s0)) (length (pval s1))
  then ret (Priv s0 s1 sc) else raise AssertionError.
(** pond.py 2041-2065; the first argument is the unmasked tensor and must be private. *)
Definition mk_masked (u : ptensor) (a a0 a1 al0 al1 : pv) (sc : bool) : M ptensor :=
  match u with
  | Priv u0 u1 usc =>
    if dev_eqb (pdev a) Producer && dev_eqb (pdev a0) Srv0 && dev_eqb (pdev al0) Srv0
       && dev_eqb (pdev a1) Srv1 && dev_eqb (pdev al1) Srv1
    then ret (Masked u0 u1 usc a a0 a1 al0 al1 sc) else raise AssertionError
  | _ => raise AssertionError
  end.
(** [x.unmasked] (pond.py 2060). *)
Definition unmasked (t : ptensor) : ptensor :=
  match t with Masked u0 u1 usc _ _ _ _ _ _ => Priv u0 u1 usc | _ => t end.

(** pond.py 798-829 [_share], called under the input provider's device: [r] is the draw that
    [seed] determines (re-expanded from the seed on the receiving server), [swap] the outcome of
    [random.random() < 0.5]. *)
Definition share (secret r : ten) (swap : bool) : M (pv * pv) :=
  do s0 <- fresh Provider r;
  do s1 <- op2 Provider vsub (MkPv Provider secret) s0;
  if swap then
    do t0 <- fresh Srv0 r;
    do t1 <- op1 Srv1 (fun x => x) s1;
    ret (t0, t1)
  else
    do t0 <- op1 Srv0 (fun x => x) s1;
    do t1 <- fresh Srv1 r;
    ret (t0, t1).
(** pond.py 831-837 [_share_and_wrap]. *)
Definition share_and_wrap (secret r : ten) (swap sc : bool) : M ptensor :=
  do p <- share secret r swap; mk_priv (fst p) (snd p) sc.

(** pond.py 2490-2503 [_reveal_private], 2506-2508 [_reveal_masked]; revealing a public tensor
    returns it (pond.py [reveal]). *)
Definition reveal (t : ptensor) : M ptensor :=
  match unmasked t with
  | Priv x0 x1 sc =>
    do z0 <- op2 Srv0 vadd x0 x1;
    do z1 <- op2 Srv1 vadd x0 x1;
    mk_pub z0 z1 sc
  | u => ret u
  end.

(** [assert x.is_scaled == y.is_scaled] (pond.py 2519 and siblings). *)
Definition check_enc (a b : bool) : M unit := if Bool.eqb a b then ret tt else raise AssertionError.

(** pond.py 2516-2629: addition, all nine operand kinds (masked operands are unmasked). *)
Definition add (x y : ptensor) : M ptensor :=
  match unmasked x, unmasked y with
  | Pub x0 x1 sx, Pub y0 y1 sy =>
    do _ <- check_enc sx sy;
    do z0 <- op2 Srv0 vadd x0 y0; do z1 <- op2 Srv1 vadd x1 y1; mk_pub z0 z1 sx
  | Pub x0 _ sx, Priv y0 y1 sy =>
    do _ <- check_enc sx sy;
    do z0 <- op2 Srv0 vadd x0 y0; mk_priv z0 y1 sx
  | Priv x0 x1 sx, Pub y0 _ sy =>
    do _ <- check_enc sx sy;
    do z0 <- op2 Srv0 vadd x0 y0; mk_priv z0 x1 sx
  | Priv x0 x1 sx, Priv y0 y1 _ =>
    do z0 <- op2 Srv0 vadd x0 y0; do z1 <- op2 Srv1 vadd x1 y1; mk_priv z0 z1 sx
  | _, _ => raise TypeError
  end.

(** pond.py 2753-2864: subtraction. *)
Definition sub (x y : ptensor) : M ptensor :=
  match unmasked x, unmasked y with
  | Pub x0 x1 sx, Pub y0 y1 sy =>
    do _ <- check_enc sx sy;
    do z0 <- op2 Srv0 vsub x0 y0; do z1 <- op2 Srv1 vsub x1 y1; mk_pub z0 z1 sx
  | Pub x0 _ sx, Priv y0 y1 sy =>
    do _ <- check_enc sx sy;
    do z0 <- op2 Srv0 vsub x0 y0; do z1 <- op1 Srv1 vneg y1; mk_priv z0 z1 sx
  | Priv x0 x1 sx, Pub y0 _ sy =>
    do _ <- check_enc sx sy;
    do z0 <- op2 Srv0 vsub x0 y0; mk_priv z0 x1 sx
  | Priv x0 x1 sx, Priv y0 y1 sy =>
    do _ <- check_enc sx sy;
    do z0 <- op2 Srv0 vsub x0 y0; do z1 <- op2 Srv1 vsub x1 y1; mk_priv z0 z1 sx
  | _, _ => raise TypeError
  end.

(** A local operation applied to every copy or share.  Public/private: reduce_sum 2637-2674,
    cumsum 2691-2730, negative 4231-4265, transpose 3604-3633, strided_slice 3670-3699, gather
    3736-3773, reshape 4149-4191, expand_dims 4301-4338, squeeze 4378-4420, indexer 3545-3568,
    batch_to_space 3436-3471, space_to_batch 3487-3524. *)
Definition local1 (f : ten -> ten) (t : ptensor) : M ptensor :=
  match t with
  | Pub v0 v1 sc => do z0 <- op1 Srv0 f v0; do z1 <- op1 Srv1 f v1; mk_pub z0 z1 sc
  | Priv s0 s1 sc => do z0 <- op1 Srv0 f s0; do z1 <- op1 Srv1 f s1; mk_priv z0 z1 sc
  | _ => raise TypeError
  end.
(** reduce_sum and cumsum of a masked tensor are those of the unmasked one (2677-2683,
    2733-2745); likewise batch_to_space and space_to_batch (3474-3484, 3527-3537). *)
Definition reduce_sum (rows : list (list nat)) (t : ptensor) : M ptensor := local1 (vlin rows) (unmasked t).
(** A transformation of a masked tensor: the same function on the producer's mask, on the mask
    shares, on both copies of the masked value and on the unmasked tensor.  negative 4268-4293,
    indexer 3571-3596, transpose 3636-3662, strided_slice 3702-3728, gather 3776-3807, split
    3858-3893 (each part), reshape 4194-4224, expand_dims 4341-4371;
    triple_sources.py 73-155. *)
Definition local1_masked (f : ten -> ten) (t : ptensor) : M ptensor :=
  match t with
  | Masked u0 u1 usc a a0 a1 al0 al1 sc =>
    do a' <- op1 Producer f a;
    do a0' <- op1 Srv0 f a0;
    do al0' <- op1 Srv0 f al0;
    do a1' <- op1 Srv1 f a1;
    do al1' <- op1 Srv1 f al1;
    do u <- local1 f (Priv u0 u1 usc);
    mk_masked u a' a0' a1' al0' al1' sc
  | _ => local1 f t
  end.
(** pond.py [negative] dispatch. *)
Definition negative (t : ptensor) : M ptensor := local1_masked vneg t.
(** The structural transformations (pond.py 3545-4371). *)
Definition transform (idx : list (option nat)) (t : ptensor) : M ptensor := local1_masked (vsel idx) t.
(** pond.py 4423-4453 [_squeeze_masked]: [squeeze_mask(axis=axis)] lacks its positional argument. *)
Definition squeeze_masked (t : ptensor) : M ptensor := raise TypeError.
(** stack and concat of two tensors (3899-3980, 3983-4060; triple_sources.py 121-139): the
    output entries are chosen from the concatenation of the inputs.  Longer lists are repeated
    applications. *)
Definition vcat (idx : list (option nat)) (x y : ten) : ten := vsel idx (x ++ y).
(** pond.py 3899-3980 [stack], 3983-4060 [concat] of two tensors. *)
Definition stack2 (idx : list (option nat)) (x y : ptensor) : M ptensor :=
  match x, y with
  | Pub x0 x1 sx, Pub y0 y1 sy =>
    do _ <- check_enc sx sy;
    do z0 <- op2 Srv0 (vcat idx) x0 y0; do z1 <- op2 Srv1 (vcat idx) x1 y1; mk_pub z0 z1 sx
  | Priv x0 x1 sx, Priv y0 y1 sy =>
    do _ <- check_enc sx sy;
    do z0 <- op2 Srv0 (vcat idx) x0 y0; do z1 <- op2 Srv1 (vcat idx) x1 y1; mk_priv z0 z1 sx
  | Masked u0 u1 us a a0 a1 al0 al1 sx, Masked w0 w1 ws b b0 b1 be0 be1 sy =>
    do _ <- check_enc sx sy;
    do c <- op2 Producer (vcat idx) a b;
    do c0 <- op2 Srv0 (vcat idx) a0 b0;
    do ga0 <- op2 Srv0 (vcat idx) al0 be0;
    do c1 <- op2 Srv1 (vcat idx) a1 b1;
    do ga1 <- op2 Srv1 (vcat idx) al1 be1;
    do z0 <- op2 Srv0 (vcat idx) u0 w0;
    do z1 <- op2 Srv1 (vcat idx) u1 w1;
    do u <- mk_priv z0 z1 us;
    mk_masked u c c0 c1 ga0 ga1 sx
  | _, _ => raise TypeError
  end.

(** pond.py 4067-4101 [_mask_private] with triple_sources.py 26-35 [mask]; [ra0], [ra1] are the
    producer's two draws. *)
Definition mask (ra0 ra1 : ten) (t : ptensor) : M ptensor :=
  match t with
  | Priv x0 x1 sc =>
    do p0 <- fresh Producer ra0;
    do p1 <- fresh Producer ra1;
    do a <- op2 Producer vadd p0 p1;
    do a0 <- op1 Srv0 (fun v => v) p0;
    do alpha0 <- op2 Srv0 vsub x0 a0;
    do a1 <- op1 Srv1 (fun v => v) p1;
    do alpha1 <- op2 Srv1 vsub x1 a1;
    do al0 <- op2 Srv0 vadd alpha0 alpha1;
    do al1 <- op2 Srv1 vadd alpha0 alpha1;
    mk_masked t a a0 a1 al0 al1 sc
  | _ => raise TypeError
  end.

(** triple_sources.py 165-172 [_share]: [rho] is the draw, [swap] the coin. *)
Definition triple_share (ab : pv) (rho : ten) (swap : bool) : M (pv * pv) :=
  do s0 <- fresh Producer rho;
  do s1 <- op2 Producer vsub ab s0;
  ret (if swap then (s1, s0) else (s0, s1)).
(** triple_sources.py 37-71 [mul_triple], [matmul_triple], [conv2d_triple]. *)
Definition triple (o : bop) (a b : pv) (rho : ten) (swap : bool) : M (pv * pv) :=
  do ab <- op2 Producer (bapply o) a b; triple_share ab rho swap.

(** Randomness of one multiplication (triple_sources.py 26-71, 165-172; pond.py 2439-2441): the masks of the two operands, the share of the triple,
    the coin, and the mask of a following interactive truncation. *)
Record mulrnd := MkRnd { rx0 : ten; rx1 : ten; ry0 : ten; ry1 : ten; rrho : ten; rswap : bool; rtr : ten }.

(** pond.py 2962-2987, 3184-3209, 3272-3311: [_mul_masked_masked], [_matmul_masked_masked],
    [_conv2d_masked_masked] before the truncation. *)
Definition beaver (o : bop) (x y : ptensor) (rho : ten) (swap : bool) : M ptensor :=
  match x, y with
  | Masked _ _ _ a a0 a1 al0 al1 sx, Masked _ _ _ b b0 b1 be0 be1 sy =>
    do ab <- triple o a b rho swap;
    do t1 <- op2 Srv0 (bapply o) a0 be0;
    do t2 <- op2 Srv0 vadd (fst ab) t1;
    do t3 <- op2 Srv0 (bapply o) al0 b0;
    do t4 <- op2 Srv0 vadd t2 t3;
    do t5 <- op2 Srv0 (bapply o) al0 be0;
    do z0 <- op2 Srv0 vadd t4 t5;
    do u1 <- op2 Srv1 (bapply o) a1 be1;
    do u2 <- op2 Srv1 vadd (snd ab) u1;
    do u3 <- op2 Srv1 (bapply o) al1 b1;
    do z1 <- op2 Srv1 vadd u2 u3;
    mk_priv z0 z1 (sx || sy)
  | _, _ => raise TypeError
  end.
(** pond.py 3063-3084 [_square_masked] and triple_sources.py 46-53, before the truncation. *)
Definition square_beaver (x : ptensor) (rho : ten) (swap : bool) : M ptensor :=
  match x with
  | Masked _ _ _ a a0 a1 al0 al1 sx =>
    do aa <- op2 Producer vmul a a;
    do s <- triple_share aa rho swap;
    do t1 <- op2 Srv0 vmul a0 al0;
    do t2 <- op1 Srv0 (fun v => vmul v (vconst (length v) 2)) t1;
    do t3 <- op2 Srv0 vadd (fst s) t2;
    do t4 <- op2 Srv0 vmul al0 al0;
    do y0 <- op2 Srv0 vadd t3 t4;
    do u1 <- op2 Srv1 vmul a1 al1;
    do u2 <- op1 Srv1 (fun v => vmul v (vconst (length v) 2)) u1;
    do y1 <- op2 Srv1 vadd (snd s) u2;
    mk_priv y0 y1 sx
  | _ => raise TypeError
  end.

(** Multiplication of a public and a private operand, before the truncation: pond.py 2892-2909,
    2918-2935 ([mul]), 3114-3131 ([matmul] public private).  In [_matmul_private_public]
    (3140-3157) both products are computed under [server_0].  conv2d with one public operand
    raises (3238-3247, 3262-3263). *)
Definition mul_pub_priv (o : bop) (x0 x1 : pv) (sx : bool) (y0 y1 : pv) (sy : bool) : M ptensor :=
  match o with
  | BConv _ => raise NotImplementedError
  | _ =>
    do z0 <- op2 Srv0 (bapply o) x0 y0;
    do z1 <- op2 Srv1 (bapply o) x1 y1;
    mk_priv z0 z1 (sx || sy)
  end.
(** pond.py 2918-2935 [_mul_private_public], 3140-3157 [_matmul_private_public] (both products
    under server 0), 3262-3263 [_conv2d_private_public]. *)
Definition mul_priv_pub (o : bop) (x0 x1 : pv) (sx : bool) (y0 y1 : pv) (sy : bool) : M ptensor :=
  match o with
  | BConv _ => raise NotImplementedError
  | BMul =>
    do z0 <- op2 Srv0 (bapply o) x0 y0;
    do z1 <- op2 Srv1 (bapply o) x1 y1;
    mk_priv z0 z1 (sx || sy)
  | BMat _ =>
    do z0 <- op2 Srv0 (bapply o) x0 y0;
    do z1 <- op2 Srv0 (bapply o) x1 y1;
    mk_priv z0 z1 (sx || sy)
  end.

(** [prot.mask(x)] where needed: a masked operand is used as it is (2938-2987, 3160-3209). *)
Definition ensure_masked (ra0 ra1 : ten) (t : ptensor) : M ptensor :=
  match t with Masked _ _ _ _ _ _ _ _ _ => ret t | _ => mask ra0 ra1 t end.

(** The product before truncation for all operand kinds: pond.py 2872-2987 (mul), 3092-3209
    (matmul), 3218-3311 (conv2d). *)
Definition product (o : bop) (r : mulrnd) (x y : ptensor) : M ptensor :=
  match x, y with
  | Pub x0 x1 sx, Pub y0 y1 sy =>
    do z0 <- op2 Srv0 (bapply o) x0 y0;
    do z1 <- op2 Srv1 (bapply o) x1 y1;
    mk_pub z0 z1 (sx || sy)
  | Pub x0 x1 sx, _ =>
    match unmasked y with
    | Priv y0 y1 sy => mul_pub_priv o x0 x1 sx y0 y1 sy
    | _ => raise TypeError
    end
  | _, Pub y0 y1 sy =>
    match unmasked x with
    | Priv x0 x1 sx => mul_priv_pub o x0 x1 sx y0 y1 sy
    | _ => raise TypeError
    end
  | _, _ =>
    do mx <- ensure_masked (rx0 r) (rx1 r) x;
    do my <- ensure_masked (ry0 r) (ry1 r) y;
    beaver o mx my (rrho r) (rswap r)
  end.

(** pond.py 2358-2376 [_truncate_public]. *)
Definition truncate_public (X : fixops) (c : fpconfig) (v0 v1 : pv) (sc : bool) : M ptensor :=
  do y0 <- opo Srv0 (fun e => fx_trunc X e (precision_fractional c) (scaling_base c)) v0;
  do y1 <- opo Srv1 (fun e => fx_trunc X e (precision_fractional c) (scaling_base c)) v1;
  mk_pub y0 y1 sc.
(** pond.py 2391-2409 [_truncate_private_noninteractive]. *)
Definition truncate_ni (X : fixops) (c : fpconfig) (x0 x1 : pv) (sc : bool) : M ptensor :=
  do y0 <- opo Srv0 (fun e => fx_trunc X e (precision_fractional c) (scaling_base c)) x0;
  do n1 <- op1 Srv1 (map (fx_rsub0 X)) x1;
  do t1 <- opo Srv1 (fun e => fx_trunc X e (precision_fractional c) (scaling_base c)) n1;
  do y1 <- op1 Srv1 (map (fx_rsub0 X)) t1;
  mk_priv y0 y1 sc.
(** pond.py 2412-2474 [_truncate_private_interactive]; [r] is the draw of [sample_bounded].
    [a + bound / scaling_factor] lifts the constant by the scaling factor again when [a] is
    scaled, else by one (904-959, 724-778); the float division and product are exact for the
    shipped configurations and modelled as integer operations. *)
Definition truncate_interactive (X : fixops) (c : fpconfig) (r : ten) (a0 a1 : pv) (sc : bool) : M ptensor :=
  let s := scaling_factor c in
  match inverse s (fmod F) with
  | None => raise AssertionError
  | Some sinv =>
    let n := length (pval a0) in
    let shift := if sc then (bound_double c / s) * s else bound_double c / s in
    do k0 <- fresh Srv0 (vconst n shift);
    do k1 <- fresh Srv1 (vconst n shift);
    do b <- add (Priv a0 a1 sc) (Pub k0 k1 sc);
    match b with
    | Priv b0 b1 _ =>
      do rr <- fresh Srv0 r;
      do c0 <- op2 Srv0 vadd b0 rr;
      do cc <- op2 Srv1 vadd c0 b1;
      do c_lower <- opo Srv1 (fun e => fx_mod X e s) cc;
      do r_lower <- opo Srv0 (fun e => fx_mod X e s) rr;
      do a_lower0 <- op1 Srv0 (fun v => vmul v (vconst (length v) (-1))) r_lower;
      do e0 <- op2 Srv0 vsub a0 a_lower0;
      do d0 <- op1 Srv0 (fun v => vmul v (vconst (length v) sinv)) e0;
      do e1 <- op2 Srv1 vsub a1 c_lower;
      do d1 <- op1 Srv1 (fun v => vmul v (vconst (length v) sinv)) e1;
      mk_priv d0 d1 sc
    | _ => raise TypeError
    end
  end.
(** pond.py 2379-2388, 2477-2482: [truncate] dispatch. *)
Definition truncate (X : fixops) (c : fpconfig) (r : ten) (t : ptensor) : M ptensor :=
  match unmasked t with
  | Pub v0 v1 sc => truncate_public X c v0 v1 sc
  | Priv x0 x1 sc =>
    if use_noninteractive c then truncate_ni X c x0 x1 sc else truncate_interactive X c r x0 x1 sc
  | _ => raise TypeError
  end.
(** [z = prot.truncate(z) if x.is_scaled and y.is_scaled else z] (pond.py 2888 and siblings). *)
Definition mul (o : bop) (X : fixops) (c : fpconfig) (r : mulrnd) (x y : ptensor) : M ptensor :=
  do z <- product o r x y;
  if scaled x && scaled y then truncate X c (rtr r) z else ret z.
(** pond.py 3040-3084 [square] dispatch. *)
Definition square (X : fixops) (c : fpconfig) (r : mulrnd) (x : ptensor) : M ptensor :=
  do y <- match x with
          | Pub x0 x1 sc =>
            do y0 <- op2 Srv0 vmul x0 x0; do y1 <- op2 Srv1 vmul x1 x1; mk_pub y0 y1 sc
          | _ => do mx <- ensure_masked (rx0 r) (rx1 r) x; square_beaver mx (rrho r) (rswap r)
          end;
  if scaled y then truncate X c (rtr r) y else ret y.

(** What machine [d] saw (specification device; the placements are those of pond.py 798-3311). *)
Definition view (d : dev) {A} (m : M A) : list ten :=
  map snd (filter (fun e => dev_eqb (fst e) d) (fst m)).

End Pond.

Arguments MkPv {F} _ _.
Arguments pdev {F} _.
Arguments pval {F} _.
Arguments Pub {F} _ _ _.
Arguments Priv {F} _ _ _.
Arguments Masked {F} _ _ _ _ _ _ _ _ _.
Arguments ret {F A} _.
Arguments raise {F A} _.
Arguments bind {F A B} _ _.
Arguments view {F} _ {A} _.
Arguments scaled {F} _.
Arguments unmasked {F} _.
Arguments MkFix {F} _ _ _.
Arguments fx_mod {F} _ _ _.
Arguments fx_trunc {F} _ _ _ _.
Arguments fx_rsub0 {F} _ _.
Arguments MkRnd {F} _ _ _ _ _ _ _.
Arguments ent {F} _ _.
Arguments op1 {F} _ _ _.
Arguments op2 {F} _ _ _ _.
Arguments opo {F} _ _ _.
Arguments fresh {F} _ _.
Arguments mk_pub {F} _ _ _.
Arguments mk_priv {F} _ _ _.
Arguments mk_masked {F} _ _ _ _ _ _ _.

(** (native.py 309-311, 433-437, 504-509) The truncation operations of a native [w]-bit factory without explicit modulus. *)
Definition native_fix (w : Z) : fixops (native (MkN w None)) :=
  @MkFix (native (MkN w None))
    (fun x k => Some (n_mod (MkN w None) x k))
    (fun x amount base => n_truncate (MkN w None) x amount base)
    (fun x => n_rsub (MkN w None) x 0).
(** The truncation operations of the CRT factory (int100.py 617-619, 773-776, 554-556). *)
Definition crt_fix (est : list Z -> Z) (ms : list Z) : fixops (crt_factory ms) :=
  @MkFix (crt_factory ms)
    (fun x k => crt_tmod est ms x k)
    (fun x amount base => crt_truncate est ms x amount base)
    (fun x => match crt_op_rsub ms x (OpI 0) with Some y => y | None => x end).

(** Index pairs of a matrix product of an [m] by [k] and a [k] by [n] matrix, both flattened by
    rows (tf.matmul, used at native.py 363-368). *)
Definition matmul_tab (m k n : nat) : list (list (option nat * option nat)) :=
  flat_map (fun i => map (fun j =>
    map (fun l => (Some (i * k + l)%nat, Some (l * n + j)%nat)) (seq 0 k)) (seq 0 n)) (seq 0 m).
(** Index lists of a full reduction of [n] entries, and of a reduction of an [m] by [n] matrix
    over axis 0 (tf.reduce_sum, native.py 473-477). *)
Definition sum_all_rows (n : nat) : list (list nat) := [seq 0 n].
(** The axis-0 reduction (native.py 473-477). *)
Definition sum_axis0_rows (m n : nat) : list (list nat) :=
  map (fun j => map (fun i => (i * n + j)%nat) (seq 0 m)) (seq 0 n).
(** Index lists of an inclusive cumulative sum of [n] entries (tf.cumsum, native.py 479-485). *)
Definition cumsum_rows (n : nat) : list (list nat) := map (fun i => seq 0 (S i)) (seq 0 n).
