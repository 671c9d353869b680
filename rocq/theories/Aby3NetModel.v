(** Model of the ABY3 operations built from many scalar ones: sums, bit composition, products,
    powers, polynomials, selections over several pieces, maxima and sorting
    (/repo/tf_encrypted/protocol/aby3/aby3.py).  A tensor is the list of its entries along the
    reduced axis; the other axes are independent copies and are left out. *)
From Verif Require Import Base TensorModel Aby3Model.

Notation "'do' x <- m ; k" := (bind m (fun x => k)) (at level 200, x name, m at level 100, k at level 200).

Section NET.
(** The oracle and placement flag of Aby3Model (aby3.py 944-1020, config.py 117-121). *)
Context (prf : fac -> key -> Z -> nat -> Z) (colo : bool).

(** An entrywise operation on a tensor (aby3.py passim, e.g. 3895-3974). *)
Fixpoint mapM {A B} (f : A -> M B) (xs : list A) : M (list B) :=
  match xs with
  | [] => ret []
  | x :: xs' => do y <- f x; do ys <- mapM f xs'; ret (y :: ys)
  end.

(** A private tensor of zero shares (aby3.py 5394-5414 [_zeros_private]; also the entries that
    tf.scatter_nd leaves out, 5749-5780). *)
Definition zeros_private (sc : bool) (ty : sty) (f : fac) : priv :=
  MkPr (MkV S0 0) (MkV S0 0) (MkV S1 0) (MkV S1 0) (MkV S2 0) (MkV S2 0) sc ty f.
(** aby3.py 5355-5375 [_ones_private] without scaling. *)
Definition ones_private (ty : sty) (f : fac) : priv :=
  MkPr (MkV S0 (fcast f 1)) (MkV S0 0) (MkV S1 0) (MkV S1 0) (MkV S2 0) (MkV S2 (fcast f 1)) false ty f.
(** aby3_tensors.py 488-493 [to_private], on a fresh tensor of zeros (the cache is in
    MemoModel). *)
Definition to_private (ty : sty) (x : pub) : priv :=
  MkPr (q0 x) (MkV S0 0) (MkV S1 0) (MkV S1 0) (MkV S2 0) (q2 x) (qsc x) ty (qfc x).
(** [x.is_scaled = b] (aby3.py 3972, 5861). *)
Definition set_scaled (b : bool) (x : priv) : priv :=
  MkPr (p00 x) (p01 x) (p10 x) (p11 x) (p20 x) (p21 x) b (pty x) (pfc x).

(** Sum of words in the ring (native.py 473-477 [reduce_sum]). *)
Definition wsum (f : fac) (l : list Z) : Z := fold_left (wadd f) l 0.
(** aby3.py 4406-4416 [_reduce_sum_private], on the entries along the axis. *)
Definition reduce_sum (f : fac) (sc : bool) (ty : sty) (xs : list priv) : M priv :=
  do a00 <- opl S0 (wsum f) (map p00 xs);
  do a01 <- opl S0 (wsum f) (map p01 xs);
  do a10 <- opl S1 (wsum f) (map p10 xs);
  do a11 <- opl S1 (wsum f) (map p11 xs);
  do a20 <- opl S2 (wsum f) (map p20 xs);
  do a21 <- opl S2 (wsum f) (map p21 xs);
  mk_priv colo a00 a01 a10 a11 a20 a21 sc ty f.

(** One entry of aby3.py 5696-5708 [_bits_private]; native.py 290-296 and shared.py [binarize]: [(x >> i) & 1]
    of every share, as booleans. *)
Definition bit_at (x : priv) (i : Z) : M priv :=
  do z <- sharewise colo (fun v => fcast FB (Z.land (Z.shiftr v i) 1)) FB x;
  ret (set_scaled false z).
(** aby3.py 3962-3972, the bit-injection branch of [_b2a_private]; [g] is the default factory.
    [np.exp2(i)] is exact; its conversion to the word wraps for i = nbits - 1 (float to int64 of
    2^63 gives -2^63 on the usual processors).  Asked for more than 64 bits, the 128-bit tensors
    return two bit vectors side by side (int128.py 289-299), whose shape [... , k, 2] does not
    broadcast with the powers of two of shape [... , k]: the product fails. *)
Definition b2a_bits (g : fac) (nbits : option Z) (x : priv) : M priv :=
  do _ <- assert_ (negb (is_arith x));
  let k := match nbits with Some k => k | None => fbits (pfc x) end in
  do _ <- (if fac_eqb (pfc x) (FI 128) && (64 <? k) then raise ValueError else ret tt);
  do terms <- mapM (fun t : nat =>
      do b <- bit_at x (Z.of_nat t);
      do a <- b2a_single prf colo g b;
      do w <- const colo g (2 ^ Z.of_nat t) false;
      mul_pq prf colo 0 a w) (seq 0 (Z.to_nat k));
  do r <- reduce_sum g false Arith terms;
  ret (set_scaled (psc x) r).
(** aby3.py 3895-3974 [_b2a_private]: choice of the method. *)
Definition b2a (g : fac) (nbits : option Z) (ppa_method : bool) (x : priv) : M priv :=
  do _ <- assert_ (negb (is_arith x));
  if (match nbits with None => true | Some k => k =? fbits (pfc x) end) && ppa_method
  then b2a_ppa prf colo x else b2a_bits g nbits x.

(** The recursion of [build_comparison_tree] and [build_prod_tree] (aby3.py 5037-5044, 5730-5737)
    on a non-empty list; [fuel] bounds the depth and is the length of the list. *)
Fixpoint tree {A} (op : A -> A -> M A) (fuel : nat) (ts : list A) : M A :=
  match ts with
  | [] => raise ValueError
  | [t] => ret t
  | _ =>
    match fuel with
    | O => raise ValueError
    | S fuel' =>
      let halfway := Nat.div2 (length ts) in
      do l <- tree op fuel' (firstn halfway ts);
      do r <- tree op fuel' (skipn halfway ts);
      op l r
    end
  end.
(** aby3.py 5725-5743 [_prod_private]; [scale] is the number of fractional bits. *)
Definition prod (scale : Z) (xs : list priv) : M priv := tree (mul_pp prf colo scale) (length xs) xs.
(** aby3.py 5029-5068 [_reduce_max_tree_private] along an axis. *)
Definition reduce_max_tree (xs : list priv) : M priv := tree (maximum prf colo) (length xs) xs.
(** aby3.py 5046-5056 [vector_max]: the two halves overlap in the middle entry of a vector of odd
    length. *)
Fixpoint vector_max (fuel : nat) (xs : list priv) : M priv :=
  match xs with
  | [] => raise ValueError
  | [x] => ret x
  | _ =>
    match fuel with
    | O => raise ValueError
    | S fuel' =>
      let halfway := Nat.div2 (length xs) in
      let left := firstn (halfway + Nat.modulo (length xs) 2) xs in
      let right := skipn halfway xs in
      do ms <- mapM (fun p => maximum prf colo (fst p) (snd p)) (combine left right);
      vector_max fuel' ms
    end
  end.
(** aby3.py 5058-5061: [axis = None]. *)
Definition reduce_max_all (xs : list priv) : M priv := vector_max (length xs) xs.

(** An index of the argmax computation: public at the leaves, private above (aby3.py
    5139-5159). *)
Inductive tens := TPub (q : pub) | TPriv (p : priv).
(** [select] (aby3.py 1782-1811) on arithmetic public or private operands. *)
Definition select_t (c : priv) (x y : tens) : M tens :=
  match x, y with
  | TPub x, TPub y => do d <- sub_qq colo y x; do e <- mul_ab_qp prf colo d c; do r <- add_pq colo e x; ret (TPriv r)
  | TPub x, TPriv y => do d <- sub_pq colo y x; do e <- mul_ab_pp prf colo d c; do r <- add_pq colo e x; ret (TPriv r)
  | TPriv x, TPub y => do d <- sub_qp colo y x; do e <- mul_ab_pp prf colo d c; do r <- add_pp colo e x; ret (TPriv r)
  | TPriv x, TPriv y => do d <- sub_pp colo y x; do e <- mul_ab_pp prf colo d c; do r <- add_pp colo e x; ret (TPriv r)
  end.
(** aby3.py 5128-5135: one node of the comparison tree with indices. *)
Definition argmax_node (l r : priv * tens) : M (priv * tens) :=
  do greater <- greater_than prf colo (fst l) (fst r);
  do mx <- select prf colo greater (fst r) (fst l);
  do am <- select_t greater (snd r) (snd l);
  ret (mx, am).
(** aby3.py 5107-5166 [_reduce_max_with_argmax_private], output style "normal"; [scale] is the
    number of fractional bits of the encoded index. *)
Definition argmax (g : fac) (scale : Z) (xs : list priv) : M (priv * tens) :=
  do idx <- mapM (fun i : nat => const colo g (Z.of_nat i * 2 ^ scale) true) (seq 0 (length xs));
  tree argmax_node (length xs) (combine xs (map TPub idx)).

(** aby3.py 3108-3120 [_xor_public_public]. *)
Definition xor_qq (x y : pub) : M pub :=
  do _ <- assert_ (fac_eqb (qfc x) (qfc y) && Bool.eqb (qsc x) (qsc y)); pubwise2 colo Z.lxor (qsc x) x y.
(** [select] (aby3.py 1782-1811) when the first candidate is backed by booleans:
    [((x ^ y) & c) ^ x]; public and private operands commute (3086-3105, 3193-3215). *)
Definition select_b (c : priv) (x y : tens) : M tens :=
  do e <- match x, y with
    | TPub x, TPub y => do d <- xor_qq x y; and_pq colo c d
    | TPub x, TPriv y | TPriv y, TPub x => do d <- xor_pq colo y x; and_pp prf colo d c
    | TPriv x, TPriv y => do d <- xor_pp colo x y; and_pp prf colo d c
    end;
  do r <- match x with TPub x => xor_pq colo e x | TPriv x => xor_pp colo e x end;
  ret (TPriv r).
(** aby3.py 5128-5135 with the index as a one-hot vector. *)
Definition onehot_node (l r : priv * list tens) : M (priv * list tens) :=
  do greater <- greater_than prf colo (fst l) (fst r);
  do mx <- select prf colo greater (fst r) (fst l);
  do am <- mapM (fun p => select_b greater (fst p) (snd p)) (combine (snd r) (snd l));
  ret (mx, am).
(** aby3.py 5107-5166 [_reduce_max_with_argmax_private], output style "onehot" (5139-5154). *)
Definition argmax_onehot (xs : list priv) : M (priv * list tens) :=
  do idx <- mapM (fun i : nat => mapM (fun j : nat => const colo FB (if Nat.eqb i j then 1 else 0) false) (seq 0 (length xs))) (seq 0 (length xs));
  tree onehot_node (length xs) (combine xs (map (map TPub) idx)).

(** aby3.py 4083-4100 [_pow_private]: square and multiply from the low bit; the first product
    [1 * tmp] is the fast case of 1256-1262. *)
Fixpoint pow_loop (scale : Z) (p : positive) (result : option priv) (tmp : priv) : M priv :=
  let times t := match result with None => ret t | Some r => mul_pp prf colo scale r t end in
  match p with
  | xH => times tmp
  | xO p' => do t <- mul_pp prf colo scale tmp tmp; pow_loop scale p' result t
  | xI p' => do r <- times tmp; do t <- mul_pp prf colo scale tmp tmp; pow_loop scale p' (Some r) t
  end.
(** aby3.py 4083-4100. *)
Definition pow (scale : Z) (x : priv) (p : Z) : M priv :=
  do _ <- assert_ (is_arith x);
  match p with Zpos q => pow_loop scale q None x | _ => raise AssertionError end.
(** aby3.py 4103-4124 [_polynomial_private], the terms of degree at least 1 with integer
    coefficients. *)
Fixpoint poly_terms (scale : Z) (x : priv) (i : Z) (coeffs : list Z) (result : tens) : M tens :=
  match coeffs with
  | [] => ret result
  | c :: cs =>
    if c =? 0 then poly_terms scale x (i + 1) cs result else
    do tmp <- const colo (pfc x) c false;
    do xi <- pow scale x i;
    do t <- mul_pq prf colo scale xi tmp;
    do r <- match result with TPub q => add_qp colo q t | TPriv r => add_pp colo r t end;
    poly_terms scale x (i + 1) cs (TPriv r)
  end.
(** aby3.py 4103-4124: the constant term is added to a public zero. *)
Definition polynomial (scale : Z) (x : priv) (coeffs : list Z) : M tens :=
  do _ <- assert_ (is_arith x);
  do zero <- const colo (pfc x) 0 (psc x);
  match coeffs with
  | [] => ret (TPub zero)
  | c :: cs =>
    do c0 <- const colo (pfc x) (if psc x then c * 2 ^ scale else c) (psc x);
    do r <- add_qq colo zero c0;
    poly_terms scale x 1 cs (TPub r)
  end.

(** aby3.py 4159-4212 [_polynomial_piecewise_private]; [fs] are the values of the polynomials
    (4209), [c] the encoded break points. *)
Definition piecewise (x : priv) (c : list Z) (fs : list priv) : M priv :=
  do _ <- assert_ (Nat.eqb (length c + 1) (length fs));
  do pivots <- mapM (fun ck =>
      do q <- const colo (pfc x) ck (psc x);
      do g <- less_than_qp prf colo q x;
      not_p colo g) c;
  do flipped <- mapM (fun p => do one <- const colo FB 1 false; xor_pq colo p one) pivots;
  let le_pivots := pivots ++ [ones_private Bool_ FB] in
  let gt_pivots := ones_private Bool_ FB :: flipped in
  do b <- mapM (fun p => and_pp prf colo (fst p) (snd p)) (combine le_pivots gt_pivots);
  do terms <- mapM (fun p => mul_ab_pp prf colo (fst p) (snd p)) (combine fs b);
  reduce_sum (pfc x) (psc (hd x terms)) Arith terms.

(** [np.split(np.arange(n), n / w)]: the [j]-th block (aby3.py 5797-5805). *)
Definition block (w j : nat) : list nat := seq (j * w) w.
(** aby3.py 5792-5807 [bitonic_index]. *)
Definition bitonic_index (n stage sub : nat) : list nat * list nat :=
  let w := Nat.pow 2 (stage - sub) in
  let c := Nat.div n (2 * w) in
  let flip (l : list nat) := if Nat.eqb sub 0 then rev l else l in
  (flat_map (fun j => block w (2 * j)) (seq 0 c), flat_map (fun j => flip (block w (2 * j + 1))) (seq 0 c)).
(** aby3.py 5831-5839 [build_bitonic_index], as the list of (left, right) index lists. *)
Definition bitonic_indices (n n_stages : nat) : list (list nat * list nat) :=
  flat_map (fun stage => map (bitonic_index n stage) (seq 0 (S stage))) (seq 0 n_stages).

(** One entry of [scatter_nd(idx, vals, shape)] (aby3.py 5749-5780). *)
Fixpoint scatter_at {A} (idx : list nat) (vals : list A) (dflt : A) (p : nat) : A :=
  match idx, vals with
  | i :: idx', v :: vals' => if Nat.eqb i p then v else scatter_at idx' vals' dflt p
  | _, _ => dflt
  end.
(** The loop body, aby3.py 5873-5890. *)
Definition sort_step (acc : bool) (idx : list nat * list nat) (xs : list priv) : M (list priv) :=
  let d := hd (zeros_private false Arith (FI 64)) xs in
  do ps <- mapM (fun ij => cmp_swap prf colo (nth (fst ij) xs d) (nth (snd ij) xs d)) (combine (fst idx) (snd idx));
  let mins := map fst ps in let maxs := map snd ps in
  let zero := zeros_private (psc d) (pty d) (pfc d) in
  let z0 := scatter_at (if acc then fst idx else snd idx) mins zero in
  let z1 := scatter_at (if acc then snd idx else fst idx) maxs zero in
  mapM (fun p => add_pp colo (z0 p) (z1 p)) (seq 0 (length xs)).
(** The while loop, aby3.py 5870-5892 (its re-use of nonces is in C60). *)
Fixpoint sort_loop (acc : bool) (idxs : list (list nat * list nat)) (xs : list priv) : M (list priv) :=
  match idxs with
  | [] => ret xs
  | i :: is => do ys <- sort_step acc i xs; sort_loop acc is ys
  end.
(** [ceil(log2(n))] (aby3.py 48-49, 5833, 5866), exact on the lengths that fit a double. *)
Definition stages (n : nat) : nat := Z.to_nat (Z.log2_up (Z.of_nat n)).
(** The padding value of aby3.py 5855-5858: [2^(nbits-2) - 1] times a double one, i.e.
    [2^(nbits-2)] for words of 64 bits or more. *)
Definition pad_value (nbits : Z) : Z := if nbits - 2 <=? 53 then 2 ^ (nbits - 2) - 1 else 2 ^ (nbits - 2).
(** aby3.py 5783-5905 [_sort_private] along the first axis; [np.stack] of no index raises
    ValueError when there is nothing to do (5839). *)
Definition sort_private (acc : bool) (xs : list priv) : M (list priv) :=
  match xs with
  | [] => raise ValueError
  | x :: _ =>
    let unpadded := length xs in
    let m := stages unpadded in
    let n := Nat.pow 2 m in
    do pad <- const colo (pfc x) (pad_value (fbits (pfc x))) false;
    let padded := xs ++ repeat (set_scaled (psc x) (to_private (pty x) pad)) (n - unpadded) in
    match m with
    | O => raise ValueError
    | _ =>
      do ys <- sort_loop acc (bitonic_indices n m) padded;
      ret (if Nat.ltb unpadded n then (if acc then firstn unpadded ys else skipn (n - unpadded) ys) else ys)
    end
  end.
(** aby3.py 5071-5091 [_reduce_max_network_private] along an axis. *)
Definition reduce_max_network (xs : list priv) : M priv :=
  do ys <- sort_private false xs;
  match ys with y :: _ => ret y | [] => raise ValueError end.

End NET.
