(** Secure sampling: the rejection sampler of the C++ kernels, the seeded
    generator with its extra keystream blocks, and the bounds the Python
    factories hand to them.

    Sources: /repo/operations/secure_random/generators.h,
    /repo/operations/secure_random/secure_random.cc,
    /repo/tf_encrypted/tensor/native.py, int128.py, int100.py, boolfactory.py. *)
From Verif Require Import Base.

(** Result of running a kernel.  [Undefined] is C++ undefined behaviour (the
    division by zero at generators.h 72), [Invalid] an InvalidArgument status
    (secure_random.cc 134-141), [Diverged] means the fuel standing for the
    unbounded [while] at generators.h 83-87 ran out. *)
Inductive outcome (A : Type) : Type :=
| Done (a : A)
| Undefined
| Invalid
| Diverged.
Arguments Done {A} a.
Arguments Undefined {A}.
Arguments Invalid {A}.
Arguments Diverged {A}.

(** generators.h 67: [static_cast<uT>(high) - static_cast<uT>(low) + 1] stored in
    an unsigned word of [w] bits. *)
Definition u_range (w low high : Z) : Z :=
  uwrap w (uwrap w high - uwrap w low + 1).

(** generators.h 69: [std::numeric_limits<uT>::max()]. *)
Definition u_max (w : Z) : Z := 2 ^ w - 1.

(** generators.h 72: [(unsigned_max - range + 1) % range].  For 8 and 16 bit
    types C++ computes in [int], for the wider ones in the unsigned type; both
    give the same number because [range <= unsigned_max]. *)
Definition ints_to_reject (w range : Z) : Z := (u_max w - range + 1) mod range.

(** generators.h 75: [unsigned_max - ints_to_reject]. *)
Definition zone (w range : Z) : Z := u_max w - ints_to_reject w range.

(** generators.h 90: [random::SignedAdd(low, unsign % range)], which TensorFlow
    computes as [low + (T)(b >> 1) + (T)(b - (b >> 1))] in the signed type. *)
Definition signed_add (w a b : Z) : Z :=
  swrap w (swrap w (a + swrap w (Z.shiftr b 1)) + swrap w (b - Z.shiftr b 1)).

(** The test of generators.h 81-83 on the word [word] (a value of the signed type). *)
Definition rejected (w range word : Z) : bool := zone w range <? uwrap w word.

(** generators.h 90 for an accepted word. *)
Definition place (w low range word : Z) : Z :=
  signed_add w low (uwrap w word mod range).

Section Loop.
  Context {S : Type}.
  (** generators.h 94-100 and 124-137: the virtual [GetNextValidData], as a step
      on the generator's state. *)
  Variable next : S -> Z * S.

  (** generators.h 83-87: the [while] loop for one buffer entry; [fuel] bounds the
      number of rejections looked at. *)
  Fixpoint redraw (fuel : nat) (w range word : Z) (s : S) : outcome (Z * S) :=
    if rejected w range word then
      match fuel with
      | O => Diverged
      | Datatypes.S fuel =>
          let '(word', s') := next s in redraw fuel w range word' s'
      end
    else Done (word, s).

  (** generators.h 78-91: the [for] loop over the buffer. *)
  Fixpoint fill (fuel : nat) (w low range : Z) (buf : list Z) (s : S)
    : outcome (list Z * S) :=
    match buf with
    | [] => Done ([], s)
    | word :: rest =>
        match redraw fuel w range word s with
        | Done (word', s') =>
            match fill fuel w low range rest s' with
            | Done (out, s'') => Done (place w low range word' :: out, s'')
            | Undefined => Undefined | Invalid => Invalid | Diverged => Diverged
            end
        | Undefined => Undefined | Invalid => Invalid | Diverged => Diverged
        end
    end.

  (** generators.h 63-92: [Uniform(low, high)], both ends included.  A zero
      [range] makes line 72 divide by zero. *)
  Definition uniform (fuel : nat) (w low high : Z) (buf : list Z) (s : S)
    : outcome (list Z * S) :=
    let range := u_range w low high in
    if range =? 0 then Undefined else fill fuel w low range buf s.

  (** generators.h 43-50 and 118-122: [GenerateData(minval, maxval)] calls
      [Uniform(minval, maxval - 1)]; the buffer has been filled with raw words. *)
  Definition generate (fuel : nat) (w minval maxval : Z) (buf : list Z) (s : S)
    : outcome (list Z * S) :=
    uniform fuel w minval (swrap w (maxval - 1)) buf s.

  (** secure_random.cc 110-152, 155-206, 208-264 and 266-332 ([Compute] of the four
      kernels): the checks [lo < hi] and non-empty shape, then the generator.  The
      int128 kernels leave out the second check, so for them only non-empty shapes
      are modelled.  The sharding over
      worker threads (secure_random.cc 196-205) is not modelled: each shard is one
      such run on its own part of the output with its own seed. *)
  Definition kernel (fuel : nat) (w lo hi : Z) (buf : list Z) (s : S)
    : outcome (list Z * S) :=
    if negb (lo <? hi) then Invalid
    else match buf with
         | [] => Invalid
         | _ => generate fuel w lo hi buf s
         end.
End Loop.

(** ** The seeded generator *)

(** generators.h 7: bytes per ChaCha block. *)
Definition block_bytes : Z := 64.

(** generators.h 111: [CHACHABLOCKSIZE / sizeof(T)]. *)
Definition per_block (bytes : Z) : Z := block_bytes / bytes.

(** generators.h 139-143: the private fields of [SeededGenerator].  The contents of
    [extra_block_] are determined by [block_counter_]; [used] is a ghost log of the
    keystream positions whose words have been looked at, most recent first. *)
Record seeded := Seeded {
  block_counter : Z;
  inner_index : Z;
  used : list (Z * Z)
}.

Section Stream.
  (** The ChaCha20 keystream of one seed cut into words of the element type:
      [ks b i] is word [i] of block [b] (generators.h 15-29 and libsodium's
      [randombytes_buf_deterministic], which uses the same nonce from block 0). *)
  Variable ks : Z -> Z -> Z.
  (** [sizeof(T)] in bytes. *)
  Variable bytes : Z.

  (** generators.h 124-137: [GetNextValidData]; [uint32] counters. *)
  Definition next_seeded (s : seeded) : Z * seeded :=
    let '(b, i) :=
      if uwrap 32 (inner_index s + 1) =? per_block bytes
      then (uwrap 32 (block_counter s + 1), 0)
      else (block_counter s, inner_index s) in
    (ks b i, Seeded b (uwrap 32 (i + 1)) ((b, i) :: used s)).

  (** Where word [i] of the buffer comes from: generators.h 119 fills
      [count * sizeof(T)] bytes with the keystream from block 0. *)
  Definition main_position (i : nat) : Z * Z :=
    (Z.of_nat i / per_block bytes, Z.of_nat i mod per_block bytes).

  (** generators.h 119: the raw words of a buffer of [count] entries. *)
  Definition main_buffer (count : nat) : list Z :=
    map (fun i => ks (fst (main_position i)) (snd (main_position i))) (seq 0 count).

  (** generators.h 109-116: the constructor; the first extra block follows the ones
      covering the buffer.  The log starts with the buffer's own positions. *)
  Definition start_seeded (count : nat) : seeded :=
    Seeded (uwrap 32 (Z.of_nat count * bytes / block_bytes + 1)) 0
           (rev (map main_position (seq 0 count))).

  (** secure_random.cc 110-152 with [SeededGenerator] (generators.h 118-122): a
      whole expansion of the seed to [count] elements in [[lo, hi)]. *)
  Definition seeded_uniform (fuel : nat) (w lo hi : Z) (count : nat)
    : outcome (list Z * seeded) :=
    kernel next_seeded fuel w lo hi (main_buffer count) (start_seeded count).
End Stream.

(** ** Bounds chosen by the factories *)

(** Which factory draws: native.py 30-33 (the type and the explicit modulus),
    int128.py 29, boolfactory.py 21. *)
Inductive factory_kind :=
| FNative (w : Z)            (** native.py: int8 ... int64, no explicit modulus *)
| FPrime (w p : Z)           (** native.py with EXPLICIT_MODULUS = p *)
| FInt128                    (** int128.py *)
| FBool.                     (** boolfactory.py *)

(** Width in bits of the words drawn: native.py 114-121 (dtype NATIVE_TYPE),
    int128.py 115-123, boolfactory.py 85-92 (dtype int32). *)
Definition draw_width (f : factory_kind) : Z :=
  match f with FNative w => w | FPrime w _ => w | FInt128 => 128 | FBool => 32 end.

(** [minval] when the caller gives none: native.py 80-84 and 110, int128.py 84-85 and
    112, boolfactory.py 82. *)
Definition default_min (f : factory_kind) : Z :=
  match f with
  | FNative w => - 2 ^ (w - 1) | FPrime _ _ => 0 | FInt128 => - 2 ^ 127 | FBool => 0
  end.

(** [maxval] when the caller gives none: native.py 86-90 and 112 ("believe this should
    be native_type.max+1"), int128.py 88-89 and 113, boolfactory.py 83. *)
Definition default_max (f : factory_kind) : Z :=
  match f with
  | FNative w => 2 ^ (w - 1) - 1 | FPrime _ p => p | FInt128 => 2 ^ 127 - 1 | FBool => 2
  end.

(** native.py 107-131 and 133-180, int128.py 111-135, boolfactory.py 81-135:
    [sample_uniform] / [sample_seeded_uniform] without bounds, for the secure
    samplers (the TensorFlow fallback is not modelled). *)
Definition sample_uniform (ks : Z -> Z -> Z) (fuel : nat) (f : factory_kind)
  (count : nat) : outcome (list Z * seeded) :=
  seeded_uniform ks (draw_width f / 8) fuel (draw_width f)
    (default_min f) (default_max f) count.

(** int128 logical right shift on one value: int128_tensor.cc 235-239. *)
Definition lrshift128 (x step : Z) : Z :=
  if step <=? 0 then x
  else if 128 <=? step then 0
  else swrap 128 (Z.shiftr (uwrap 128 x) step).

(** native.py 182-201: [sample_bounded] asserts [2 ** bitlength <= max] and draws from
    [[0, 2 ** bitlength)]. *)
Definition sample_bounded_native (ks : Z -> Z -> Z) (fuel : nat) (w bitlength : Z)
  (count : nat) : outcome (list Z * seeded) :=
  if 2 ^ bitlength <=? 2 ^ (w - 1) - 1
  then seeded_uniform ks (w / 8) fuel w 0 (2 ^ bitlength) count
  else Invalid.

(** int128.py 137-155: [sample_bounded] draws with the default bounds and keeps the
    top [bitlength] bits. *)
Definition sample_bounded_128 (ks : Z -> Z -> Z) (fuel : nat) (bitlength : Z)
  (count : nat) : outcome (list Z * seeded) :=
  if bitlength <=? 128
  then match sample_uniform ks fuel FInt128 count with
       | Done (vs, s) => Done (map (fun v => lrshift128 v (128 - bitlength)) vs, s)
       | Undefined => Undefined | Invalid => Invalid | Diverged => Diverged
       end
  else Invalid.
