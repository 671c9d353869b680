(** Model of the CRT tensors, /repo/tf_encrypted/tensor/int100.py.

    A CRT scalar is the list of its residues, one per modulus, stored in int32
    tensors ([swrap 32] after every int32 operation).  Floating-point quotient
    estimates ([alpha]) are a function argument [est] of the list of scaled
    residues; CrtFloat.v gives the single-precision instance. *)
From Verif Require Import Base Factory TensorModel.

(** helpers.py 29-30 [prod] ([reduce]; the moduli list is never empty). *)
Definition prodZ (l : list Z) : Z := fold_right Z.mul 1 l.

(** Python [f(a, b, m) for a, b, m in zip(x, y, MODULI)] (int100.py 157, 160, 163). *)
Fixpoint zip3 {A B C D} (f : A -> B -> C -> D) (x : list A) (y : list B) (m : list C) : list D :=
  match x, y, m with
  | a :: x', b :: y', c :: m' => f a b c :: zip3 f x' y' m'
  | _, _, _ => []
  end.
(** Python [zip(x, y)] with a binary function (int100.py 59, 86). *)
Fixpoint zip2 {A B C} (f : A -> B -> C) (x : list A) (y : list B) : list C :=
  match x, y with
  | a :: x', b :: y' => f a b :: zip2 f x' y'
  | _, _ => []
  end.
(** A list comprehension one of whose evaluations may raise (int100.py 47-53, 68). *)
Fixpoint sequence {A} (l : list (option A)) : option (list A) :=
  match l with
  | [] => Some []
  | Some a :: l' => match sequence l' with Some r => Some (a :: r) | None => None end
  | None :: _ => None
  end.

(** int100.py 837-840: the moduli of [int100factory]. *)
Definition int100_moduli : list Z := [1201; 1433; 1217; 1237; 1321; 1103; 1129; 1367; 1093; 1039].
(** int100.py 36. *)
Definition MATMUL_THRESHOLD : Z := 1024.
(** int100.py 43-44: the construction-time assertion, with the logarithms removed
    (2*log2 m + 10 < log2 (2^31-1) iff m*m*1024 < 2^31-1; float log2 is idealised). *)
Definition crt_assert (ms : list Z) : bool := forallb (fun m => m * m * 1024 <? 2 ^ 31 - 1) ms.

(** int100.py 153-154 [_crt_decompose]; the argument is an unbounded Python integer
    or an int tensor. *)
Definition crt_decompose (ms : list Z) (x : Z) : list Z := map (fun m => x mod m) ms.
(** int100.py 156-157 [_crt_add], int32 addition then floor-mod. *)
Definition crt_add ms x y := zip3 (fun a b m => swrap 32 (a + b) mod m) x y ms.
(** int100.py 159-160 [_crt_sub]. *)
Definition crt_sub ms x y := zip3 (fun a b m => swrap 32 (a - b) mod m) x y ms.
(** int100.py 162-163 [_crt_mul]. *)
Definition crt_mul ms x y := zip3 (fun a b m => swrap 32 (a * b) mod m) x y ms.
(** int100.py 761-763 [negative]. *)
Definition crt_neg ms x := zip2 (fun a m => swrap 32 (- a) mod m) x ms.

(** int100.py 53-54: the Lagrange coefficients; [None] if [inverse] raises. *)
Definition crt_lambdas ms : option (list Z) :=
  let M := prodZ ms in
  sequence (map (fun m => let n := M / m in
    match inverse n m with Some i => Some ((n * i) mod M) | None => None end) ms).
(** int100.py 56-61 [crt_recombine_lagrange] / 533-534 [to_bigint] (Python integers). *)
Definition crt_lagrange ms x : option Z :=
  match crt_lambdas ms with
  | Some ls => Some (zsum (zip2 Z.mul x ls) mod prodZ ms)
  | None => None
  end.

(** int100.py 68, 121: [q]. *)
Definition crt_q ms : option (list Z) := sequence (map (fun m => inverse (prodZ ms / m) m) ms).
(** int100.py 79, 131: [t], int32 products. *)
Definition crt_t ms q x := zip3 (fun a c m => swrap 32 (a * c) mod m) x q ms.
(** int100.py 123-141 [crt_mod]: [u], [v], [w] in int32.  [est t] is the rounded float sum
    of t_i/m_i.  [b] and [big_b] are Python integers converted to int32. *)
Definition crt_mod (est : list Z -> Z) ms x k : option Z :=
  match crt_q ms with
  | None => None
  | Some q =>
    let M := prodZ ms in
    let t := crt_t ms q x in
    let u := swrap 32 (zsum (zip2 (fun ti m => swrap 32 (ti * ((M / m) mod k))) t ms)) in
    let v := swrap 32 (est t * (M mod k)) in
    Some (swrap 32 (u - v) mod k)
  end.
(** int100.py 95-112 and 368-374 [_decode] = [crt_recombine_explicit(x, 2^32)]: [u] is
    accumulated in int32 (the int64 constants are converted to int32 by TensorFlow), then
    cast to int64; the NumPy path (77-93) accumulates in int64, which is the same after
    the reduction modulo 2^32. *)
Definition crt_to_native (est : list Z -> Z) ms x : option Z :=
  match crt_q ms with
  | None => None
  | Some q =>
    let M := prodZ ms in
    let k := 2 ^ 32 in
    let t := crt_t ms q x in
    let u := swrap 32 (zsum (zip2 (fun ti m => swrap 32 (ti * swrap 32 ((M / m) mod k))) t ms)) in
    let v := swrap 64 (est t * (M mod k)) in
    Some (swrap 32 (swrap 64 (u - v) mod k))
  end.
(** int100.py 617-619 [mod]. *)
Definition crt_tmod est ms x k : option (list Z) :=
  match crt_mod est ms x k with Some r => Some (crt_decompose ms r) | None => None end.

(** int100.py 773-776 [truncate] (778-779 [right_shift] is base 2). *)
Definition crt_truncate est ms x amount base : option (list Z) :=
  let factor := base ^ amount in
  match inverse factor (prodZ ms), crt_tmod est ms x factor with
  | Some finv, Some r => Some (crt_mul ms (crt_sub ms x r) (crt_decompose ms finv))
  | _, _ => None
  end.

(** int100.py 165-166 [_crt_matmul], one output entry: [xs], [ys] are the row and the
    column, each entry a residue list; the int32 accumulator wraps. *)
Definition crt_dot_direct ms (xs ys : list (list Z)) : list Z :=
  map (fun im => swrap 32 (zsum (zip2 (fun a b => swrap 32 (nth (fst im) a 0 * nth (fst im) b 0)) xs ys))
                 mod snd im)
      (combine (seq 0 (length ms)) ms).
(** int100.py 597-609: cut a list into slices [i*T:(i+1)*T], for [i < num_split]. *)
Definition chunks {A} (T : nat) (num : nat) (l : list A) : list (list A) :=
  map (fun i => firstn T (skipn (i * T) l)) (seq 0 num).
(** int100.py 613 [reduce(_crt_add, split_products)]; reduce of an empty list raises, but
    the split path always has at least two chunks. *)
Definition crt_reduce_add ms (l : list (list Z)) : list Z :=
  match l with [] => [] | a :: r => fold_left (crt_add ms) r a end.
(** int100.py 581-615 [matmul], one output entry; [n] is the inner dimension. *)
Definition crt_dot ms (xs ys : list (list Z)) : list Z :=
  let n := Z.of_nat (length xs) in
  if n <=? MATMUL_THRESHOLD then crt_dot_direct ms xs ys
  else
    let T := Z.to_nat MATMUL_THRESHOLD in
    let num := Z.to_nat ((n + MATMUL_THRESHOLD - 1) / MATMUL_THRESHOLD) in
    crt_reduce_add ms (zip2 (crt_dot_direct ms) (chunks T num xs) (chunks T num ys)).
(** int100.py 621-627 [reduce_sum] over a list of residue lists. *)
Definition crt_reduce_sum ms (xs : list (list Z)) : list Z :=
  map (fun im => swrap 32 (zsum (map (fun a => nth (fst im) a 0) xs)) mod snd im)
      (combine (seq 0 (length ms)) ms).

(** int100.py 637-649 [equal_zero] (0/1). *)
Definition crt_equal_zero (ms : list Z) (x : list Z) : Z :=
  let zeros := map (fun a => if a =? 0 then 1 else 0) x in
  if zsum zeros =? Z.of_nat (length ms) then 1 else 0.
(** int100.py 651-665 [equal]. *)
Definition crt_equal (ms : list Z) (x y : list Z) : Z :=
  let matches := zip2 (fun a b => if a =? b then 1 else 0) x y in
  if zsum matches =? Z.of_nat (length ms) then 1 else 0.

(** An operand of an operator: a tensor or a Python integer (int100.py 394-409). *)
Inductive crt_operand := OpT (x : list Z) | OpI (k : Z).
(** int100.py 394-409 [_lift]; [None] models TypeError. *)
Definition crt_lift ms a b : option (list Z * list Z) :=
  match a, b with
  | OpT x, OpT y => Some (x, y)
  | OpT x, OpI k => Some (x, crt_decompose ms k)
  | OpI k, OpT y => Some (crt_decompose ms k, y)
  | OpI _, OpI _ => None
  end.
(** int100.py 550-552 [__sub__]: [self - other]. *)
Definition crt_op_sub ms (self : list Z) (other : crt_operand) : option (list Z) :=
  match crt_lift ms (OpT self) other with Some (x, y) => Some (crt_sub ms x y) | None => None end.
(** int100.py 554-556 [__rsub__], called for [other - self]; lifts (self, other). *)
Definition crt_op_rsub ms (self : list Z) (other : crt_operand) : option (list Z) :=
  match crt_lift ms (OpT self) other with Some (x, y) => Some (crt_sub ms x y) | None => None end.

(** int100.py 228-261 [sample_seeded_uniform]: every residue is drawn with [maxval=mi], where
    [mi] is the variable of the loop at 43, i.e. the last modulus; [draw i] is the generator's
    output for component i, some value in [0, maxval). *)
Definition crt_sample_seeded ms (draw : nat -> Z -> Z) : list Z :=
  map (fun i => draw i (last ms 0)) (seq 0 (length ms)).
(** int100.py 189-226 [sample_uniform]: component i is drawn below its own modulus. *)
Definition crt_sample_uniform ms (draw : nat -> Z -> Z) : list Z :=
  map (fun im => draw (fst im) (snd im)) (combine (seq 0 (length ms)) ms).

(** int100.py 267-270 [chunk_sizes] of [sample_bounded] and 460-463 of [bits]. *)
Definition chunk_sizes (chunk bitlength : Z) : list Z :=
  repeat chunk (Z.to_nat (bitlength / chunk)) ++
  (if 0 <? bitlength mod chunk then [bitlength mod chunk] else []).
(** int100.py 168-176 [_construct_backing_from_chunks]. *)
Definition crt_from_chunks ms (sizes values : list Z) : list Z :=
  fold_left (fun backing sv =>
      crt_add ms (crt_mul ms backing (crt_decompose ms (2 ^ fst sv))) (crt_decompose ms (snd sv)))
    (combine sizes values) (crt_decompose ms 0).

(** int100.py 38: BITSIZE = ceil(log2 MODULUS). *)
Definition crt_bitsize ms : Z := Z.log2_up (prodZ ms).
(** int100.py 491-508: one pass over the chunks; [corr] is the correction added to the first
    chunk (0 in the uncorrected lane, and in the lane without positive interpretation). *)
Fixpoint crt_chunks est ms (x : list Z) (corr : Z) (sizes : list Z) : option (list Z) :=
  match sizes with
  | [] => Some []
  | s :: rest =>
    let k := 2 ^ s in
    match crt_mod est ms x k, inverse k (prodZ ms) with
    | Some c0, Some kinv =>
      let c := swrap 32 (c0 + corr) mod k in
      let shifted := crt_sub ms x (crt_decompose ms c) in
      match crt_chunks est ms (crt_mul ms shifted (crt_decompose ms kinv)) 0 rest with
      | Some cs => Some (c :: cs)
      | None => None
      end
    | _, _ => None
    end
  end.
(** int100.py 447-531 [bits]: the two lanes (uncorrected, corrected) and the final choice by
    the top bit of the uncorrected last chunk; without [ensure_positive_interpretation] only
    the uncorrected lane is used (the extra [% chunk_modulus] is then the identity). *)
Definition crt_bits est ms (positive : bool) (x : list Z) : option (list Z) :=
  let sizes := chunk_sizes 16 (crt_bitsize ms) in
  match crt_chunks est ms x 0 sizes, crt_chunks est ms x (prodZ ms mod 2 ^ 16) sizes with
  | Some c0, Some c1 =>
    let msb := 2 ^ (last sizes 0) / 2 <=? last c0 0 in
    let cs := if positive && msb then c1 else c0 in
    Some (concat (zip2 (fun c s => binarize (Z.to_nat s) c) cs sizes))
  | _, _ => None
  end.

(** Representations a CRT tensor can hold: reduced residues (int100.py 64-66, 149-163). *)
Definition crt_wf ms (x : list Z) : Prop := Forall2 (fun a m => 0 <= a < m) x ms.

(** The CRT factory as a ring (int100.py 178-390, 541-579, 761). *)
Definition crt_factory ms : factory :=
  MkFactory (list Z) (prodZ ms) (crt_wf ms)
    (fun x => match crt_lagrange ms x with Some v => v | None => 0 end)
    (crt_decompose ms) (crt_add ms) (crt_sub ms) (crt_mul ms) (crt_neg ms).

(** fixed.py 118-151 [_validate_fixedpoint_config] for a factory of the given modulus; the
    logarithms are idealised ([ceil(log2 b) > n] iff [b > 2^n], and
    [ceil(log2 b) + gap >= log2 M] iff [M <= 2^(log2_up b + gap)]). *)
Definition validate_config (c : fpconfig) (modulus : Z) : bool :=
  (Z.log2_up (bound_single c) <=? 31) && (Z.log2_up (bound_single c) <=? 63) &&
  (2 ^ (Z.log2_up (bound_double c) + truncation_gap c) <? modulus).
(** pond.py 2435-2436 [bound] and mask bit length of the interactive truncation. *)
Definition trunc_mask_bits (c : fpconfig) : Z := Z.log2_up (bound_double c) + 1 + truncation_gap c.
(** tensor/__init__.py 36-50: the shipped pairs of configuration and ring modulus. *)
Definition shipped_configs : list (fpconfig * Z) :=
  [(fixed100, prodZ int100_moduli); (fixed100_ni, prodZ int100_moduli); (fixed64, 2 ^ 64);
   (fixed64_ni, 2 ^ 64); (fixed64_heuristic, 2 ^ 64); (fixed128_heuristic, 2 ^ 128)].
