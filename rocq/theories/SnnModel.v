(** SecureNN (/repo/tf_encrypted/protocol/securenn): odd-modulus tensors and the comparison
    protocols on top of the Pond model.

    Simplifications: tensors are flat lists of entries; a tensor of bits of [n] entries has
    [n * w] entries, the bits of entry [i] at positions [i * w .. i * w + w - 1]; broadcasting an
    entry over its bits is an index selection.  Every draw is an explicit argument.  Device logs
    are dropped at the borders between rings; what server 2 reconstructs during the private
    comparison is returned explicitly.  Graph caching ([memoize]) is not modelled here. *)
From Verif Require Import Base Factory TensorModel PondModel.

(** Python statement sequencing with exceptions, for code that crosses rings
    (securenn.py 1-907). *)
Definition rbind {A B} (m : res A) (k : A -> res B) : res B :=
  match m with Ok a => k a | Err e => Err e end.
(** Outcome of a Pond operation, without its device log (pond.py 1-4453). *)
Definition run {F A} (m : M F A) : res A := snd m.
Notation "'let!' x := m 'in' k" := (rbind m (fun x => k)) (at level 200, x name, m at level 100, k at level 200).

(** ** Odd-modulus tensors *)

(** odd_tensor.py 312-324 [_lessthan_as_unsigned] on [w]-bit words, as 0 or 1. *)
Definition lessthan_as_unsigned (w x y : Z) : Z :=
  let not_x := Z.lnot x in
  let lhs := Z.land not_x y in
  let rhs := Z.land (Z.lor not_x y) (swrap w (x - y)) in
  Z.land (Z.shiftr (Z.lor lhs rhs) (w - 1)) 1.
(** odd_tensor.py 326-329 [_map_minusone_to_zero]. *)
Definition map_minusone_to_zero (x : Z) : Z := if x =? -1 then 0 else x.
(** odd_tensor.py 152-180 [add]. *)
Definition odd_add (w x y : Z) : Z :=
  swrap w (swrap w (x + y) + lessthan_as_unsigned w (swrap w (-2 - y)) x).
(** odd_tensor.py 182-204 [sub]. *)
Definition odd_sub (w x y : Z) : Z :=
  swrap w (swrap w (x - y) - lessthan_as_unsigned w x y).
(** odd_tensor.py 62-72 [modulus]. *)
Definition odd_modulus (w : Z) : Z := 2 ^ w - 1.
(** Words an odd tensor is meant to hold (odd_tensor.py 26-33): all but -1. *)
Definition odd_wf (w x : Z) : Prop := in_s w x /\ x <> -1.
(** The odd factory as a ring (odd_tensor.py 19-335).  OddTensor has no multiplication and no
    negation and cannot be built from integers; those three fields hold the ring operations so
    that the record is complete, and no modelled function reaches them. *)
Definition odd (w : Z) : factory :=
  MkFactory Z (odd_modulus w) (odd_wf w) (fun x => x mod 2 ^ w)
    (fun z => swrap w (z mod odd_modulus w))
    (odd_add w) (odd_sub w)
    (fun x y => swrap w (((x mod 2 ^ w) * (y mod 2 ^ w)) mod odd_modulus w))
    (fun x => swrap w ((- (x mod 2 ^ w)) mod odd_modulus w)).
(** odd_tensor.py 296-310 [_construct_value_from_sampler], one entry: [u] is the raw draw from
    [min + 1, max). *)
Definition odd_sample (w u : Z) : Z := if u <? 0 then swrap w (u + 1) else u.
(** The bounds handed to the raw sampler (odd_tensor.py 300-305); the upper one is exclusive. *)
Definition odd_draw (w u : Z) : Prop := - 2 ^ (w - 1) + 1 <= u < 2 ^ (w - 1) - 1.

(** ** The protocol *)

(** native.py 309-311, 433-437, 504-509: the truncation operations of any native factory. *)
Definition ncfg_fix (c : ncfg) : fixops (native c) :=
  @MkFix (native c) (fun x k => Some (n_mod c x k)) (fun x amount base => n_truncate c x amount base)
    (fun x => n_rsub c x 0).

Section Generic.
Context (F : factory).
Notation pt := (ptensor F).

(** Number of entries of a tensor ([x.shape], pond.py 1630-1650). *)
Definition entries (t : pt) : nat :=
  match t with Pub v _ _ => length (pval v) | Priv v _ _ => length (pval v) | Masked v _ _ _ _ _ _ _ _ => length (pval v) end.
(** pond.py 128-163 [define_constant] of an already encoded integer, broadcast to [n] entries. *)
Definition pconst (n : nat) (k : Z) (sc : bool) : pt :=
  Pub (MkPv Srv0 (vconst F n k)) (MkPv Srv1 (vconst F n k)) sc.
(** [assert not x.is_scaled] (securenn.py 99, 113-114, 128-129, 143-144). *)
Definition unscaled (t : pt) : res unit := if scaled t then Err AssertionError else Ok tt.

(** securenn.py 90-101 [bitwise_not]. *)
Definition bitwise_not (x : pt) : res pt :=
  let! _ := unscaled x in run (sub F (pconst (entries x) 1 false) x).
(** securenn.py 103-116 [bitwise_and]; both operands are unscaled, so [x * y] does not truncate. *)
Definition bitwise_and (r : mulrnd F) (x y : pt) : res pt :=
  let! _ := unscaled x in let! _ := unscaled y in run (product F BMul r x y).
(** [x * 2] for an unscaled tensor (pond.py 904-959, 2872-2935). *)
Definition twice (x : pt) : res pt :=
  match x with
  | Pub _ _ _ => run (product F BMul (MkRnd [] [] [] [] [] false []) x (pconst (entries x) 2 false))
  | _ => run (product F BMul (MkRnd [] [] [] [] [] false []) (unmasked x) (pconst (entries x) 2 false))
  end.
(** securenn.py 118-131 [bitwise_or]. *)
Definition bitwise_or (r : mulrnd F) (x y : pt) : res pt :=
  let! _ := unscaled x in let! _ := unscaled y in
  let! a := run (add F x y) in let! b := bitwise_and r x y in run (sub F a b).
(** securenn.py 133-146 [bitwise_xor]. *)
Definition bitwise_xor (r : mulrnd F) (x y : pt) : res pt :=
  let! _ := unscaled x in let! _ := unscaled y in
  let! a := run (add F x y) in let! b := bitwise_and r x y in
  let! b2 := twice b in run (sub F a b2).
(** securenn.py 294-332 [select]. *)
Definition select (X : fixops F) (c : fpconfig) (r : mulrnd F) (choice x y : pt) : res pt :=
  let! d := run (sub F y x) in
  let! m := run (mul F BMul X c r d choice) in
  run (add F m x).
End Generic.

Arguments entries {F} _.
Arguments unscaled {F} _.

(** Randomness of one [lsb] call on a private tensor (securenn.py 616-617, 627-631, 643-648, 735,
    744, 764): masks [l_r0], [l_r1]; shares of the bits of r, of lsb(r), of the edge-case row and of
    the comparison result, each with the coin of [_share]; [l_beta]; the multiplicative mask; and
    the draws of the only private product (661). *)
Record lsbrnd (w : Z) := MkLsb {
  l_r0 : list Z; l_r1 : list Z;
  l_bits : list Z; l_bits_swap : bool;
  l_lsb : list Z; l_lsb_swap : bool;
  l_beta : list Z;
  l_edge : list Z; l_edge_swap : bool;
  l_mask : list Z;
  l_res : list Z; l_res_swap : bool;
  l_mul : mulrnd (native (MkN w None)) }.
Arguments l_r0 {w} _.
Arguments l_r1 {w} _.
Arguments l_bits {w} _.
Arguments l_bits_swap {w} _.
Arguments l_lsb {w} _.
Arguments l_lsb_swap {w} _.
Arguments l_beta {w} _.
Arguments l_edge {w} _.
Arguments l_edge_swap {w} _.
Arguments l_mask {w} _.
Arguments l_res {w} _.
Arguments l_res_swap {w} _.
Arguments l_mul {w} _.
Arguments MkLsb {w} _ _ _ _ _ _ _ _ _ _ _ _ _.

Section SecureNN.
(** Word size, prime of [prime_factory] (securenn.py 80-83: 107) and fixed-point configuration. *)
Context (wn : nat) (p : Z) (cfg : fpconfig).
Notation w := (Z.of_nat wn).
(** [tensor_factory], [odd_factory] and [prime_factory] (securenn.py 74-88). *)
Notation FR := (native (MkN w None)).
Notation FO := (odd w).
Notation FP := (native (MkN w (Some p))).
Notation XR := (ncfg_fix (MkN w None)).
Notation XP := (ncfg_fix (MkN w (Some p))).

(** Index of each entry [i] spread over its [wn] bits (broadcast of [expand_dims(.., axis=-1)],
    securenn.py 715, 727). *)
Definition spread (n : nat) : list (option nat) :=
  flat_map (fun i => repeat (Some i) wn) (seq 0 n).
(** Broadcast of a tensor of shape (1, wn) over [n] rows (securenn.py 730-737). *)
Definition tile (n : nat) : list (option nat) :=
  flat_map (fun _ => map Some (seq 0 wn)) (seq 0 n).
(** Index of the lowest bit of each entry ([x[..., 0]], securenn.py 590, 630). *)
Definition firsts (n : nat) : list (option nat) := map (fun i => Some (i * wn)%nat) (seq 0 n).
(** Index lists of [cumsum(axis=-1, reverse=True, exclusive=True)] (securenn.py 710; tf.cumsum,
    native.py 479-485). *)
Definition above_rows (n : nat) : list (list nat) :=
  flat_map (fun i => map (fun j => seq (i * wn + S j) (wn - S j)) (seq 0 wn)) (seq 0 n).
(** Index lists of [reduce_sum(axis=-1)] (securenn.py 762). *)
Definition bit_rows (n : nat) : list (list nat) := map (fun i => seq (i * wn) wn) (seq 0 n).
(** Bits of all entries ([bits], native.py 290-296, odd_tensor.py 206-209, shared.py 8-26). *)
Definition all_bits (x : list Z) : list Z := flat_map (binarize wn) x.

(** securenn.py 566-581 [_bits_public], from the ring or the odd ring to factory [G]. *)
Definition bits_public (G : ncfg) (x0 x1 : list Z) : res (ptensor (native G)) :=
  run (@mk_pub (native G) (@MkPv (native G) Srv0 (all_bits x0)) (@MkPv (native G) Srv1 (all_bits x1)) false).
(** securenn.py 584-591 [_lsb_public] of the values [x0], [x1] held by the servers. *)
Definition lsb_public (x0 x1 : list Z) : res (ptensor FR) :=
  let! b := bits_public (MkN w None) x0 x1 in
  run (transform FR (firsts (length x0)) b).
(** native.py 520-526 and securenn.py 872-907 [cast_backing] between native factories: the words
    are kept. *)
Definition cast_public (G H : ncfg) (x : ptensor (native G)) : res (ptensor (native H)) :=
  match x with
  | Pub v0 v1 sc => run (@mk_pub (native H) (@MkPv (native H) (pdev v0) (pval v0)) (@MkPv (native H) (pdev v1) (pval v1)) sc)
  | _ => Err TypeError
  end.
(** securenn.py 770-783 [_equal_zero_public]. *)
Definition equal_zero_public (x0 x1 : list Z) : res (ptensor FP) :=
  run (@mk_pub FP (@MkPv FP Srv0 (map n_equal_zero x0)) (@MkPv FP Srv1 (map n_equal_zero x1)) false).

(** No draw: operations with a public operand (pond.py 2892-2935). *)
Definition nornd {F} : mulrnd F := MkRnd [] [] [] [] [] false [].

(** securenn.py 671-767 [_private_compare]; also returns what server 2 reconstructs (758).
    [x_bits] has [n * wn] entries, [r] and [beta] have [n]. *)
Definition private_compare (rd : lsbrnd w) (n : nat) (x_bits : ptensor FP) (r : ptensor FR) (beta : ptensor FP)
  : res (list Z * ptensor FR) :=
  let! beta_r := cast_public (MkN w (Some p)) (MkN w None) beta in
  let! r1 := run (add FR r (pconst FR n 1 false)) in
  let! s := select FR XR cfg nornd beta_r r r1 in
  match s with
  | Pub s0 s1 _ =>
    let! s_bits := bits_public (MkN w (Some p)) (pval s0) (pval s1) in
    let! w_bits := bitwise_xor FP nornd x_bits s_bits in
    let! w_sum := run (reduce_sum FP (above_rows n) w_bits) in
    let! sg := run (product FP BMul nornd (pconst FP n (-2) false) beta) in
    let! sign := run (add FP sg (pconst FP n 1 false)) in
    let! sign := run (transform FP (spread n) sign) in
    let! e := run (sub FP s_bits x_bits) in
    let! e := run (product FP BMul nornd e sign) in
    let! e := run (add FP e (pconst FP (n * wn) 1 false)) in
    let! c_except := run (add FP e w_sum) in
    let! z := equal_zero_public (pval s0) (pval s1) in
    let! edge := bitwise_and FP nornd beta z in
    let! edge := run (transform FP (spread n) edge) in
    let! c_edge := run (share_and_wrap FP (0 :: repeat 1 (wn - 1)) (l_edge rd) (l_edge_swap rd) false) in
    let! c_edge := run (transform FP (tile n) c_edge) in
    let! c := select FP XP cfg nornd edge c_except c_edge in
    let! mask := run (@mk_pub FP (@MkPv FP Srv0 (l_mask rd)) (@MkPv FP Srv1 (l_mask rd)) false) in
    let! c_masked := run (product FP BMul nornd c mask) in
    match c_masked with
    | Priv d0 d1 _ =>
      let d := vadd FP (pval d0) (pval d1) in
      let zeros := map n_equal_zero d in
      let rows_with_zeros := vlin FR (bit_rows n) zeros in
      let! res := run (share_and_wrap FR rows_with_zeros (l_res rd) (l_res_swap rd) false) in
      Ok (d, res)
    | _ => Err TypeError
    end
  | _ => Err TypeError
  end.

(** securenn.py 594-664 [_lsb_private] of odd-ring shares; also returns what server 2 sees
    during the comparison. *)
Definition lsb_private_view (rd : lsbrnd w) (x : ptensor FO) : res (list Z * ptensor FR) :=
  let n := entries x in
  let! r := run (@mk_priv FO (@MkPv FO Srv0 (l_r0 rd)) (@MkPv FO Srv1 (l_r1 rd)) false) in
  let r_raw := vadd FO (l_r0 rd) (l_r1 rd) in
  let rbits_raw := all_bits r_raw in
  let! rbits := run (share_and_wrap FP rbits_raw (l_bits rd) (l_bits_swap rd) false) in
  let rlsb_raw := vsel FR (firsts n) rbits_raw in
  let! rlsb := run (share_and_wrap FR rlsb_raw (l_lsb rd) (l_lsb_swap rd) false) in
  let! xr := run (add FO x r) in
  let! c := run (reveal FO xr) in
  match c with
  | Pub c0 c1 _ =>
    let! c := run (@mk_pub FR (@MkPv FR (pdev c0) (pval c0)) (@MkPv FR (pdev c1) (pval c1)) false) in
    let! beta := run (@mk_pub FP (@MkPv FP Srv0 (l_beta rd)) (@MkPv FP Srv1 (l_beta rd)) false) in
    let! g := private_compare rd n rbits c beta in
    let! clsb := lsb_public (pval c0) (pval c1) in
    let! beta_r := cast_public (MkN w (Some p)) (MkN w None) beta in
    let! gamma := bitwise_xor FR nornd (snd g) beta_r in
    let! delta := bitwise_xor FR nornd rlsb clsb in
    let! alpha := bitwise_xor FR (l_mul rd) gamma delta in
    Ok (fst g, alpha)
  | _ => Err TypeError
  end.
(** securenn.py 162-171 [lsb] and 584-668: dispatch on the kind of tensor. *)
Definition lsb (rd : lsbrnd w) (x : ptensor FO) : res (ptensor FR) :=
  match x with
  | Pub x0 x1 _ => lsb_public (pval x0) (pval x1)
  | Priv _ _ _ => let! r := lsb_private_view rd x in Ok (snd r)
  | Masked u0 u1 us _ _ _ _ _ _ => let! r := lsb_private_view rd (Priv u0 u1 us) in Ok (snd r)
  end.
(** securenn.py 561-563, 872-907 [cast_backing] to the odd factory (odd_tensor.py 35-50 [tensor]); there
    is no version for masked tensors. *)
Definition cast_odd (x : ptensor FR) : res (ptensor FO) :=
  match x with
  | Pub v0 v1 sc => run (@mk_pub FO (@MkPv FO (pdev v0) (map map_minusone_to_zero (pval v0)))
                                     (@MkPv FO (pdev v1) (map map_minusone_to_zero (pval v1))) sc)
  | Priv v0 v1 sc => run (@mk_priv FO (@MkPv FO (pdev v0) (map map_minusone_to_zero (pval v0)))
                                       (@MkPv FO (pdev v1) (map map_minusone_to_zero (pval v1))) sc)
  | _ => Err TypeError
  end.
(** securenn.py 148-160 [msb]. *)
Definition msb (rd : lsbrnd w) (x : ptensor FR) : res (ptensor FR) :=
  let! o := cast_odd x in
  let! o2 := run (add FO o o) in
  lsb rd o2.
(** securenn.py 187-201 [is_negative]. *)
Definition is_negative (rd : lsbrnd w) (x : ptensor FR) : res (ptensor FR) := msb rd x.
(** securenn.py 203-220 [non_negative]. *)
Definition non_negative (rd : lsbrnd w) (x : ptensor FR) : res (ptensor FR) :=
  let! m := msb rd x in bitwise_not FR m.
(** securenn.py 222-238 [less]. *)
Definition less (rd : lsbrnd w) (x y : ptensor FR) : res (ptensor FR) :=
  let! d := run (sub FR x y) in is_negative rd d.
(** securenn.py 258-274 [greater]. *)
Definition greater (rd : lsbrnd w) (x y : ptensor FR) : res (ptensor FR) :=
  let! d := run (sub FR y x) in is_negative rd d.
(** securenn.py 240-256 [less_equal]. *)
Definition less_equal (rd : lsbrnd w) (x y : ptensor FR) : res (ptensor FR) :=
  let! g := greater rd x y in bitwise_not FR g.
(** securenn.py 276-292 [greater_equal]. *)
Definition greater_equal (rd : lsbrnd w) (x y : ptensor FR) : res (ptensor FR) :=
  let! g := less rd x y in bitwise_not FR g.

(** Randomness of a comparison followed by one or two selections (securenn.py 458-460, 540-545). *)
Record cmprnd := MkCmp { c_lsb : lsbrnd w; c_sel : mulrnd FR; c_sel2 : mulrnd FR }.

(** securenn.py 442-460 [maximum]. *)
Definition maximum (rd : cmprnd) (x y : ptensor FR) : res (ptensor FR) :=
  let! g := greater (c_lsb rd) x y in select FR XR cfg (c_sel rd) g y x.
(** securenn.py 484-491 [build_comparison_tree] of [reduce_max]; [rd k] is the randomness of the
    node with heap index [k]; the fuel is the number of tensors. *)
Fixpoint max_tree (rd : nat -> cmprnd) (k fuel : nat) (ts : list (ptensor FR)) : res (ptensor FR) :=
  match ts with
  | [] => Err AssertionError
  | [t] => Ok t
  | _ =>
    match fuel with
    | O => Err AssertionError
    | S fuel =>
      let half := Nat.div2 (length ts) in
      let! l := max_tree rd (2 * k) fuel (firstn half ts) in
      let! r := max_tree rd (2 * k + 1) fuel (skipn half ts) in
      maximum (rd k) l r
    end
  end.
(** securenn.py 463-495 [reduce_max]: [ts] are the slices along the axis. *)
Definition reduce_max (rd : nat -> cmprnd) (ts : list (ptensor FR)) : res (ptensor FR) :=
  max_tree rd 1 (length ts) ts.
(** securenn.py 524-547 [build_comparison_tree] of [reduce_max_with_argmax]. *)
Fixpoint argmax_tree (rd : nat -> cmprnd) (k fuel : nat) (ts : list (ptensor FR * ptensor FR))
  : res (ptensor FR * ptensor FR) :=
  match ts with
  | [] => Err AssertionError
  | [t] => Ok t
  | _ =>
    match fuel with
    | O => Err AssertionError
    | S fuel =>
      let half := Nat.div2 (length ts) in
      let! l := argmax_tree rd (2 * k) fuel (firstn half ts) in
      let! r := argmax_tree rd (2 * k + 1) fuel (skipn half ts) in
      let! g := greater (c_lsb (rd k)) (fst l) (fst r) in
      let! m := select FR XR cfg (c_sel (rd k)) g (fst r) (fst l) in
      let! a := select FR XR cfg (c_sel2 (rd k)) g (snd r) (snd l) in
      Ok (m, a)
    end
  end.
(** securenn.py 520-559 [reduce_max_with_argmax]: the index constants are scaled
    ([define_constant] default, 550-552), broadcast to the entries of a slice. *)
Definition reduce_max_with_argmax (rd : nat -> cmprnd) (ts : list (ptensor FR)) : res (ptensor FR * ptensor FR) :=
  let n := match ts with t :: _ => entries t | [] => O end in
  argmax_tree rd 1 (length ts)
    (combine ts (map (fun i => pconst FR n (Z.of_nat i * scaling_factor cfg) true) (seq 0 (length ts)))).

(** ** relu *)

(** Columns [a .. a + l - 1] of a tensor of [m] rows of [L] entries (tf.split along the last
    axis, pond.py 3814-3855). *)
Definition columns (m L a l : nat) : list (option nat) :=
  flat_map (fun i => map Some (seq (i * L + a) l)) (seq 0 m).
(** Rows of a flat tensor of [m] rows of [l] entries, and the row-wise concatenation of such
    tensors (tf.concat along the last axis, pond.py 3983-4030). *)
Definition rowcat (m : nat) (xs : list (nat * list Z)) : list Z :=
  flat_map (fun i => flat_map (fun q => firstn (fst q) (skipn (i * fst q) (snd q))) xs) (seq 0 m).
(** The two pieces held by the servers of a public or private tensor (pond.py 1856-1975
    [unwrapped]). *)
Definition pieces (t : ptensor FR) : list Z * list Z :=
  match t with Pub a b _ => (pval a, pval b) | Priv a b _ => (pval a, pval b) | Masked a b _ _ _ _ _ _ _ => (pval a, pval b) end.
(** pond.py 1228-1245, 3983-4030 [concat] along the last axis; all public or all private and all
    with the same encoding. *)
Definition concat_last (m : nat) (xs : list (nat * ptensor FR)) : res (ptensor FR) :=
  match xs with
  | [] => Err TypeError
  | (_, t) :: _ =>
    if forallb (fun q => Bool.eqb (scaled (snd q)) (scaled t)) xs then
      let a := rowcat m (map (fun q => (fst q, fst (pieces (snd q)))) xs) in
      let b := rowcat m (map (fun q => (fst q, snd (pieces (snd q)))) xs) in
      if forallb (fun q => match snd q with Pub _ _ _ => true | _ => false end) xs
      then run (@mk_pub FR (@MkPv FR Srv0 a) (@MkPv FR Srv1 b) (scaled t))
      else if forallb (fun q => match snd q with Priv _ _ _ => true | _ => false end) xs
      then run (@mk_priv FR (@MkPv FR Srv0 a) (@MkPv FR Srv1 b) (scaled t))
      else Err TypeError
    else Err AssertionError
  end.
(** securenn.py 354-357 [actual_relu_with_cmp]. *)
Definition actual_relu_with_cmp (rd : cmprnd) (x : ptensor FR) : res (ptensor FR * ptensor FR) :=
  let! d := non_negative (c_lsb rd) x in
  let! y := run (mul FR BMul XR cfg (c_sel rd) d x) in
  Ok (y, d).
(** securenn.py 371-379: widths of the pieces of the last dimension. *)
Definition split_vector (max_size m L : nat) : list nat :=
  let mx := Nat.max (max_size / m) 1 in
  repeat mx (L / mx) ++ (if (0 <? L mod mx)%nat then [(L mod mx)%nat] else []).
(** securenn.py 381-390: the loop over the pieces, from column [a], piece number [k]; the two
    components of [actual_relu_with_cmp] are bound as [d, r]. *)
Fixpoint relu_pieces (rd : nat -> cmprnd) (m L a k : nat) (ls : list nat) (x : ptensor FR)
  : res (list (nat * ptensor FR) * list (nat * ptensor FR)) :=
  match ls with
  | [] => Ok ([], [])
  | l :: ls =>
    let! xi := run (local1 FR (vsel FR (columns m L a l)) x) in
    let! dr := actual_relu_with_cmp (rd k) xi in
    let! rest := relu_pieces rd m L (a + l) (S k) ls x in
    Ok ((l, snd dr) :: fst rest, (l, fst dr) :: snd rest)
  end.
(** securenn.py 352-390 [relu_with_cmp] of a tensor of [m] rows of [L] entries ([m] is the product
    of all but the last dimension; tensors of at least two dimensions); [max_size = 0] disables
    the splitting (364). *)
Definition relu_with_cmp (rd : nat -> cmprnd) (max_size m L : nat) (x : ptensor FR) : res (ptensor FR * ptensor FR) :=
  if (Nat.eqb max_size 0) || (m * L <=? max_size)%nat then actual_relu_with_cmp (rd O) x
  else
    let! q := relu_pieces rd m L 0 0 (split_vector max_size m L) x in
    let! a := concat_last m (fst q) in
    let! b := concat_last m (snd q) in
    Ok (a, b).
(** securenn.py 392-407 [relu]. *)
Definition relu (rd : nat -> cmprnd) (max_size m L : nat) (x : ptensor FR) : res (ptensor FR) :=
  let! q := relu_with_cmp rd max_size m L x in Ok (fst q).
End SecureNN.
