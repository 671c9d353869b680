# Formal model of tf-encrypted: design

Everything below concerns the pinned sources in `/repo`.  The model is hand written
in Coq 8.16.1 from reading the Python and C++ text; nothing of the project is run.

## 1. Modelling choices

* **Ring words.**  A native `intN` scalar is a `Z` in `[-2^(N-1), 2^(N-1))`; every
  operation is followed by the explicit wrap `swrap N`.  Where the code reads the
  word as unsigned (kernels, odd tensors) we use `uwrap N` (`mod 2^N`).
* **Tensors.**  Elementwise operations are modelled on one element (all entries are
  treated independently by the code).  Reductions, matmul and convolution are
  modelled on lists of any length / matrices of any size.  Structural operations
  (transpose, reshape, slices, ...) are reindexings.  Broadcasting and shape errors
  are not modelled unless a property is about them.
* **Factories.**  `factory` is a record of ring operations together with the residue
  each element represents; `lawful` says the operations are the ring operations
  modulo the modulus.  We prove `lawful` for the native factories (`2^w`), for the
  prime-modulus factory, for CRT `int100` and for two-limb `int128`, and prove the
  protocol theorems for every lawful factory, so they apply to all of them.
* **Randomness.**  Every sampled value is an explicit argument, so a theorem
  quantifies over all randomness.  Pseudo-random functions are arbitrary functions
  `seed -> nonce -> value` (section variables, generalised on closing).  Secrecy is
  stated as "for each secret the view is a bijection of the randomness".
* **Servers.**  A private Pond tensor is a pair of shares, a private ABY3 tensor six
  shares (two per server).  Device placement is modelled only where a property is
  about it (C33).
* **Errors.**  Python exceptions are `None`/explicit error values.
* **Floats.**  Python/NumPy floats are modelled as exact rationals; the places where
  rounding matters (CRT quotient estimate, encodings) carry an explicit error bound
  or are declared out of scope below.

## 2. Trusted base

* Coq's kernel (8.16.1), including `vm_compute` conversion.
* Axioms: see the table produced by `Print Assumptions` in the `Properties*.v` files
  (section 6 below records them).
* The faithfulness of the model, i.e. the citations next to each definition.
* Not modelled: TensorFlow itself (graph execution, device placement and transport,
  broadcasting, shape inference), NumPy float rounding, libsodium, `tf_big`'s big
  integers (taken as `Z`), the operating system, networking, and everything in
  `examples/`, the rest of `tf_encrypted/convert`, `tf_encrypted/performance.py`.

## 3. File layout (`rocq/theories`)

Per topic: `XModel.v` (definitions citing the source), `XSpec.v` when the
specification needs its own definitions, `XProofs.v` (lemmas), `XProps.v` (the
property theorems, each closed by `exact`, followed by `Print Assumptions` and a
non-vacuity `Example`).

| topic | files |
|---|---|
| arithmetic base, lawful factories | `Base.v`, `Factory.v` |
| helpers, fixed point, native tensors | `TensorModel`, `TensorProofs`, `TensorProps` |
| CRT int100 | `CrtModel`, `CrtProofs`, `CrtFloat` (float32 quotient estimate, Flocq), `CrtProps` |
| Pond | `PondModel`, `PondSpec`, `PondProofs`, `PondTrunc`, `PondSecrecy`, `PondProps`, `PondLocalModel`, `PondLocalProps` |
| ABY3 sharing, products, truncation | `Aby3Model`, `Aby3Spec`, `Aby3Bits`, `Aby3Proofs`, `Aby3Trunc`, `Aby3Props` |
| ABY3 boolean circuits, comparisons | `Adder`, `Aby3Circ`, `Aby3Cmp`, `Aby3CircProps` |
| ABY3 sorting, reductions, products | `Aby3NetModel`, `Aby3NetSpec`, `Bitonic`, `SortLists`, `Aby3Net`, `Aby3NetProps` |
| ABY3 whole programs: freshness, views, executions | `Aby3TraceModel`, `Aby3TraceSpec`, `Aby3Fresh`, `Aby3View`, `Aby3Hide`, `Aby3Draws`, `Aby3Draws2`, `Aby3Draws3`, `Aby3Draws4`, `Aby3Whole`, `Aby3TraceProps` |
| secure sampling | `RandModel`, `RandSpec`, `RandProofs`, `RandSeed`, `RandProps` |
| 128-bit limbs and bit kernels | `KernModel`, `KernSpec`, `KernProofs`, `KernBits`, `KernProps` |
| operation cache | `MemoModel`, `MemoSpec`, `MemoProofs`, `MemoProps` |
| variables, players, active protocol | `StateModel`, `StateSpec`, `StateProofs`, `StateProps` |
| queues and serving | `QueueModel`, `QueueSpec`, `QueueProofs`, `QueueProps` |
| Paillier | `PaillierModel`, `PaillierSpec`, `PaillierEuler` (mathcomp), `PaillierProofs`, `PaillierProps` |
| training, prediction, evaluation loops | `FitModel`, `FitSpec`, `FitProofs`, `FitProps` |
| sums and scatters in ABY3 | SumModel, SumProofs, SumProps |
| moving entries in ABY3 | MoveModel, MoveSpec, MoveProofs, MoveProps |
| Public division and roots in ABY3 | AdivModel, AdivSpec, AdivProps |
| Polynomial logarithm in ABY3 | LnModel, LnSpec, LnProofs, LnProps |
| Batches of a private tensor | IterModel, IterSpec, IterProofs, IterProps |
| Compiled functions in Pond | BoneModel, BoneSpec, BoneProps |
| Compiled functions and loops | LoopModel, LoopSpec, LoopProofs, LoopProps |
| ABY3's polynomials | PolyModel, PolySpec, PolyReal, PolyProofs, PolyProps |
| Pond's division | PdivModel, PdivSpec, PdivProofs, PdivProps |
| Pond's polynomial approximations | ChebModel, ChebSpec, ChebReal, ChebFit, ChebProofs, ChebProps |
| tensors on disk | StoreModel, StoreSpec, StoreProofs, StoreProps |
| ABY3's sigmoid | SigModel, SigSpec, SigReal, SigProofs, SigProps |
| lists of weights shared between models | AliasModel, AliasSpec, AliasProofs, AliasProps |
| weights of Keras models, cloning | CloneModel, CloneSpec, CloneProofs, CloneMain, CloneNet, CloneOwn, CloneProps |
| conversion of ONNX models | OnnxModel, OnnxSpec, OnnxProofs, OnnxLayers, OnnxConv, OnnxMain, OnnxLift, OnnxProps |
| pooling layers | PoolModel, PoolSpec, PoolProofs, PoolProps |
| convolutions and Conv2D | ConvModel, ConvSpec, ConvProofs, ConvGrad, ConvBack, ConvProps |
| softmax | FpSoftModel, FpSoftSpec, FpSoftReal, FpSoftProofs, FpSoftProps |
| fixed-point exponentials | FpExpModel, FpExpSpec, FpExpReal, FpExpProofs, FpExpMain, FpExpProps |
| fixed-point inverse square root | FpSqrtModel, FpSqrtSpec, FpSqrtReal, FpSqrtProofs, FpSqrtMain, FpSqrtProps |
| fixed-point logarithms | FpLogModel, FpLogSpec, FpLogReal, FpLogProofs, FpLogMain, FpLogProps |
| fixed-point reciprocal and division | FpModel, FpSpec, FpProofs, FpReal, FpRecip, FpProps |
| Training steps | GradModel.v, GradSpec.v, GradProofs.v, GradChain.v, GradLoss.v, GradProps.v |
| Adam's powers of beta, public tensors and plain numbers | `AdamModel`, `AdamProofs`, `AdamProps` |
| SecureNN | `SnnModel`, `SnnSpec`, `SnnProofs`, `SnnLift`, `SnnCmp`, `SnnLsb`, `SnnTop`, `SnnProps` |

### What each part models

* **Pond.**  Flat tensors (lists of ring elements) with index selections for the
  structural operations; a device log records which server computes what from what,
  under the assumption that the devices are distinct (`RemoteConfig`).
* **ABY3.**  Six shares per element, pairwise pseudo-random functions as arbitrary
  oracles, boolean sharing as words, Kogge-Stone adder stage by stage, comparison,
  selection, bitonic networks by index as built by the code.
* **ABY3 programs.**  Programs of the modelled operations in any order, the log of seed
  expansions and of values each machine reads, repeated executions of a traced function with
  the nonces of the trace, computations at one player.  A tensor is one element: the parts of
  one expansion are numbered, where the code expands one seed and nonce into a whole tensor.
  Views are compared for programs without openings; the random functions are arbitrary words,
  so a statement about all words is a statement about ideal random functions.
* **SecureNN.**  Flat bit lists, the odd ring, private compare with all its masks,
  lsb, msb, comparisons, selection, tree reductions, relu with its piece splitting
  (tensors of rank two or more).  Left out: the device log, unused fields of the odd
  factory, `maxpool2d` (`reduce_max` takes its slices as input).
* **Sampling.**  `Generator::Uniform`, the seeded generator's block counter and its
  keystream positions, the bounds each ring's factory passes, bounded sampling.
  ChaCha20 is an arbitrary oracle from position to word.  Left out: splitting a tensor
  over threads, the TensorFlow fallback sampler, libsodium.
* **Kernels.**  The two limbs of an int128 element, every arithmetic, shift and bitwise
  kernel per element, sums and matmul entries, `equal` with its shape checks, bit reversal,
  gathering and index xor as the C++ loops, int128 axis lifting and `bits`.  Signed
  `__int128` overflow (undefined in C++) is taken as wrapping.  Left out: Eigen broadcasting
  and reshaping, string tensors, thread sharding.
* **Operation cache.**  `make_hashable`, the node key, cached and debug runs of arbitrary
  operations (interaction trees over a world, nested memoised calls included), ABY3's `zeros`,
  `to_private` and sort padding as a heap of changeable objects, Pond's own keys.  Left out:
  dictionaries as arguments, NaN, the digits printed by NumPy (entries stand for them),
  objects whose `__eq__` is not identity, random numbers inside results.
* **State.**  Variables as the cells they hold now and the snapshots they were built from,
  `assign` share by share, players of local and remote configurations, `save`/`load` of host
  maps, protocols as context managers, `set_protocol` on the table of module names.  Left out:
  JSON text, sessions, TensorFlow's device strings beyond job and index.
* **Queues.**  The two halves of `AdditiveFIFOQueue` as bounded queues with one step per half,
  any number of producers and consumers; `QueueServer`/`QueueClient` on top, the served
  computation being an arbitrary function of the shares.  Left out: shapes, names, closing.
* **Adam.**  The public powers of beta per layer and the divisors, over histories of layers trained; moments
  and weights (private) are left out, floats are exact rationals.
* **Training steps.**  Forward and backward passes of Sequential models of Dense, Activation,
  ReLU, Flatten and Reshape layers, the SGD optimiser and the losses, over real numbers; layer
  objects have identity, so a layer can occur twice.  Left out: fixed-point error, the
  approximations of sigmoid, exp and log, embedding, batch normalisation.
* **Reciprocal.** `FpModel` follows `fp.py` on one entry: sign, running ORs, bit reversal, conversion
  of the exponent bit by bit, the linear first approximation and the quintic iteration. The code converts
  all bits of the exponent with one call on a longer tensor; the model with one call per bit.
* **Logarithms.** `FpLogModel` follows `_do_fp_log_private` on one entry. The floating-point numbers of
  the code (the coefficients times `1 / log2(base)`) enter as their encodings, which the theorems assume to
  be within one unit of the real numbers; such encodings exist for every base (`C90_coeffs_exist`).
* **Inverse square root.** `FpSqrtModel` follows `approx_sqrt_inv` on one entry, for an even `k + s` (every
  word size with an adder has one). The floating-point numbers of the code enter as their encodings, as for the
  logarithms. The square root itself (`_fp_sqrt2`) is not modelled: the API only offers it for public values.
* **Exponentials.** `FpExpModel` follows `_exp2_private` and `_exp_private` with the default method "mp-spdz" on
  one entry, for a scaled argument. The bits of the integer part are converted with one call per bit instead of one
  call on a longer tensor, which changes nonces only. The methods "as2019" and "infinity" are not modelled.
* **Softmax.** `FpSoftModel` follows `_softmax_private` on one row of the last axis, with both methods for the maximum
  and the default method for the exponential. Entries are computed with one call each instead of one call on the
  tensor, which changes nonces only.
* **Convolutions.** `ConvModel` follows `im2col` and `conv2d` of shared.py and int100.py step by step (patches,
  transpositions, reshapes and the matrix product) on tensors with a shape and a function from indices to entries of any
  ring, and `call` and `backward` of Conv2D without activation. Fixed-point truncation inside the layer is left out.
* **Pooling.** `PoolModel` follows `avgpool2d`, `maxpool2d_with_argmax`, `patches2im` and the four pooling layers of Keras
  on the tensors of `ConvModel`. The sparse scatter of `patches2im` is the sum of the entries of the patches that land on
  a pixel; the position found by the oblivious maximum is a parameter. Truncation and the scalar's encoding are left out.
* **ONNX.** `OnnxModel` follows `convert/convert.py` and ten of the node classes of `convert/nodes.py`: building the
  objects and the shapes, the forward loop, the backward loop, with Python dictionaries as functions and tensor names as
  numbers. `OnnxSpec` says what the operators mean, and what a derivative is, by dual numbers. The reading of the protobuf,
  the optimizer's update, pooling, normalization, reduction and other kinds of nodes are not modelled.
* **Clones.** `CloneModel` follows `keras/models/sequential.py` (add, call, set_weights, model_from_config, clone_model),
  `keras/engine/base_layer.py` and the methods build, call and set_weights of Dense, Conv2D, DepthwiseConv2D and
  BatchNormalization. Tensors have entries from a ring, with any functions as square root and reciprocal. `CloneSpec` says
  what the layers of tf.keras compute. Reading the configuration of a tf.keras model, and regularizers and the other
  arguments that the constructors reject, are not modelled.
* **Shared lists.** `AliasModel` has a heap of Python lists and of variables, with the value each was created with and the
  value it holds, and follows set_weights of layers and models and the steps of SGD on it, including the state after an
  exception. Values are of any type; shapes are left to `CloneModel`.
* **Sigmoid.** `SigModel` follows multi_polynomial and sigmoid of a scaled entry: padded coefficients, one truncated product
  for each polynomial, then the selection of `Aby3NetModel`. The encoding of a constant (single precision, then cut) is a
  parameter, assumed within one unit and one rounding of the significand, with 0 and 1/2 exact; cutting is such an encoding
  (`C104_encoder`). `SigReal` proves the distance of each line from the logistic function by tangents and chords, with
  rational bounds of the exponential.
* **Tensors on disk.** `StoreModel` has a disk of record files, the six files of a tensor with their names, TFRecordDataset
  with decode, batch, reshape and repeat, the two 64-bit words of 128-bit entries, and the generator with its end after an
  exception. A missing file is noticed at the first call, and the disk is read when the generator is made.
* **Polynomial approximations.** `ChebModel` follows sigmoid, relu, tanh and log of Pond, with constants lifted and encoded as in
  `lift`, on top of `PondModel` (products with triples and interactive truncation). `ChebProofs` bounds the rounding errors of
  any run; `ChebFit` bounds the distance between the polynomials with encoded coefficients and the functions by interval
  evaluation of Taylor shifts on small cells, with rational bounds of the exponential. Every product has its own randomness;
  the masks that memoisation reuses are a special case.
* **Division in Pond.** `PdivModel` follows div, reciprocal and sqrt on top of `PondModel`. The integers cut from floating-point
  results are a parameter, assumed within a relative error of 2^-40 before the cut (`casts_ok`); exact arithmetic is such a
  parameter (`C107_exact`). The conversion of int100 elements to native integers inside `_decode` is taken to be exact, which
  `C15_to_native` proves in the range used here.
* **Polynomials in ABY3.** `PolyModel` follows polynomial with rational coefficients (whole ones multiply without rounding, powers
  of two truncate, others are encoded) and polynomial_piecewise through `SigModel.multi_polynomial`. The test for powers of two
  is exact, that of the code goes through a floating-point logarithm. The encoding of a coefficient is a parameter with an
  error bound (`encodes`).
* **Compiled functions and loops.** `LoopModel` follows tfe.function and while_loop for ABY3: bones, their reconstruction, the
  auxiliary information of loop variables, tracing and the While operation. TensorFlow's part is modelled as: a graph executes
  the Python code of its trace with the nonces of the trace and fresh one-time seeds, and a While refuses a body that changes the
  number or types of its variables. `BoneModel` is the crossing for Pond, on words, without devices. Tensors have one entry.
  Dictionaries and keyword arguments are left out.
* **Batches.** `IterModel` follows iterate. The dataset operations of TensorFlow are part of the model: shuffle fills its buffer
  of 512, draws an entry by the next random number of the seed and moves the first entry into its place. The random numbers are
  an argument, the same for the six iterators because the seed is. Running the initializers is left to the user, as in the code.
* **Polynomial logarithm.** `LnModel` follows ABY3's log, on the multiplication and truncation of the ABY3 model, one entry.
  The encoding of the six coefficients is a parameter with an error bound, as for polynomials. The fit to the natural logarithm is
  shared with Pond's log (`ChebFit`).
* **Public division and roots in ABY3.** `AdivModel` follows div by tensors, reciprocal and sqrt of public tensors, one entry. The
  floating-point computations between decoding and encoding are parameters (the integers the casts return), assumed correct up to a
  relative 2^-40 where the results fit. That TensorFlow refuses to divide 1.0 by an integer tensor is part of the model.
* **Moving entries in ABY3.** `MoveModel` follows reshape, transpose, indexing, gather, tile, reverse, concat, stack, split and pad on
  tensors of any shape, share by share. A TensorFlow kernel is the function from result indices to argument indices; axes are
  counted from 0, shapes are static, slices are resolved to start, length and step. `MoveSpec` states positions by Horner's rule
  and the meaning of each operation as a relation between indices.
* **Sums and scatters in ABY3.** `SumModel` follows reduce_sum on private and public tensors and scatter_nd on private tensors, of any
  shape, share by share. A TensorFlow kernel is the list of argument indices added up for each result index. 128-bit scatter_nd adds the two limbs
  separately, as int128.py does; 128-bit reduce_sum is taken to be the sum in the ring. Public indices
  of scatter_nd are modelled for 64-bit words only.
* **Training loops.**  `fit`, `predict`, `evaluate` and `data_wrap` of Keras models, function by
  function; a tensor is its list of samples and its second dimension, the training step and the
  model are arbitrary functions, iterators are finite.  Batch size zero (an endless loop), progress
  bars and timing are left out.
* **Paillier.**  One entry of a tensor over `Z`: keys, encryption, decryption, addition, scalar
  product, refreshing, randomness given as arguments.  Left out: import and export of limbs,
  strings and int32, generation of the primes, the identity check of keys in `Ciphertext.__add__`.

## 4. Properties

"E" = what is modelled, "P" = how it is proved.

* **C01** E: `egcd`/`inverse` as well-founded recursion (fuel proved sufficient). P: Bezout invariant by induction.
* **C02** E: encode = truncation toward zero of `q * s`, decode = division. P: rational inequalities.
* **C03** E: the shipped configurations as records. P: monotone bound lemma + computation of the constants.
* **C04** E: native ops with wrap. P: congruence modulo `2^w`, induction on lists.
* **C05** E: `truncate` both branches. P: `Z.shiftr` = floor division; inverse cancels exact multiples.
* **C06** E: mask formula. P: bitwise extensionality.
* **C07** E: binarize. P: induction on bit size.
* **C08** E: `zeros`. P: refutation with witness; plus exact statement of what is returned.
* **C09** E: `Uniform` with a stream of raw words. P: counting bijection.
* **C10** E: default bounds handed to the sampler. P: refutation; exact image.
* **C11** E: block generator state machine. P: invariant over steps: positions strictly increase.
* **C12-C14** E: residue lists. P: CRT uniqueness by induction on the moduli list; chunk induction.
* **C15** E: explicit CRT with quotient estimate as an arbitrary rational within an error. P: exactness outside the critical band.
* **C16, C17** as C12. **C18, C19** E: the code as written. P: native positive theorem + int100 refutation.
* **C20** E: limb pairs. P: arithmetic modulo 2^128. **C21** E: kernels as bit loops. P: `testbit` characterisation.
* **C22** E: cache as association list, call histories. P: invariant by induction. **C23** refutations.
* **C24-C27, C34** E: Pond over a lawful factory. P: ring reasoning modulo m; closure by induction over transformation sequences; bijections.
* **C28** E: interactive truncation with mask. P: integer inequality + divisibility modulo m.
* **C29** E: local truncation. P: case split on wrap; exact count of bad sharings.
* **C30** E: variable store. P: induction over histories. **C31, C32** E: two bounded queues with interleaved steps. P: invariant; refutation.
* **C33** E: placement table of the helpers (which server computes what from what). P: refutation/positive check.
* **C35-C36** E: odd ring. P: case analysis. **C37** E: bit lists, sums mod prime. P: induction on bits, most significant difference.
* **C38, C39** E: lsb/msb with all masks. P: parity arithmetic, case split on wrap.
* **C40-C42** E: bit arithmetic, trees, split path. P: ring identities, induction on length, refutation.
* **C43-C49** E: six-share model with oracle PRF. P: ring identities, integer case analysis.
* **C50-C52** E: circuits on words via `Z.land/lor/lxor/shift`. P: prefix-carry invariant per stage.
* **C53, C54** P: from msb. **C55** E: network indices as built by the code. P: bitonic merge by 0-1 style argument. **C56** refutation.
* **C57, C58** induction. **C59, C60** E: nonce state machine, log of expansions. P: counters bound every use, composition of programs; refutations.
* **C61, C62** refutations with exact positive ranges. **C63** P: relation between two runs with the same shares on one server,
  one unique change of the drawn words per operation, composed over the program by freshness of the words (C59).
* **C64-C66, C84, C85** E: generators/queues, histories of calls. P: induction, refutation. **C67** E: Paillier over `Z`/`nat`. P: mathcomp's Euler theorem.
* **C82** E: rebuilding of arguments and sharing of the result with the device log. P: uniqueness of ring representatives; bijection on draws.
* **C83** P: cancellation of units; the n-th power modulo n squared depends on the base modulo n.
* **C68** induction on steps. **C69, C70** histories.
* **C74-C77** E: the float64 passage, `bits`, axis lifting, shape checks of `equal`. P: rounding error bound, case analysis, refutations.
* **C78, C79** E: heap of cached zero tensors; own keys. P: invariant over histories; refutations.
* **C80, C81** E: assignment share by share; `set_protocol` on a name table. P: case analysis; induction over histories; refutations.
* **C73** E: bounded sampling on top of C09. P: counting; refutation for int128.

* **C71** E: `sample_bounded` of int100 from its pieces. P: counting. **C72** E: what the helper server sees. P: refutation with two inputs of equal reveal.

## 5. Method for wrong programs

Realistic bugs are edited into a scratch copy of the model, one at a time, and the
whole development is rebuilt; `seeded/LOG.jsonl` has one line per attempt.
`failed` names the lemma or theorem at which the build stops.  That a proof script breaks there
does not by itself show that its statement is false for the wrong program: for some edits the
statement stays true and the one contradicted comes later, and a few edits contradict none.  This
was examined edit by edit only where a line has a `note` or its claim says "none".

## 6. Assumptions

`Print Assumptions` stands under each property theorem.  Results:

* `C15_*`, `C17_*`, `C28_interactive_int100`, `C28_mul_fixed100`, `C29_ni_int100`:
  `ClassicalDedekindReals.sig_not_dec`, `ClassicalDedekindReals.sig_forall_dec`,
  `FunctionalExtensionality.functional_extensionality_dep`, `Classical_Prop.classic`
  (standard library axioms, reached through Flocq's real numbers).
* `C65_*`, `C87_*`, `C88_*`: the same axioms or some of them (statements over the real numbers).
* `C89_reciprocal`, `C89_division`: `sig_forall_dec`, `functional_extensionality_dep` (error analysis over
  the real numbers; the statements are about integers).
* `C90_*`: the same four axioms (logarithms of real numbers; derivatives from Coquelicot, which adds no
  axiom of its own).
* `C104_sigmoid`, `C104_zero`: the same four axioms as `C90_*` (exponentials; Coquelicot adds no axiom).
* `C106_*` (all seven): the same four axioms (real numbers).
* `C107_int`, `C107_public`, `C107_sqrt`, `C107_large_refuted`, `C107_unscaled_refuted`: the same four axioms.
* `C113_division`, `C113_reciprocal`, `C113_sqrt`, `C113_unscaled_refuted`: `sig_not_dec`, `sig_forall_dec`,
  `functional_extensionality_dep` (real numbers); `C113_raises` none.
* `C112_log`, `C112_small_refuted`, `C112_two_refuted`: the four axioms of the real numbers; `C112_polynomial`: `sig_forall_dec` and
  `functional_extensionality_dep`.
* `C108_power`, `C108_power_small`, `C108_polynomial`, `C108_pieces`: `sig_forall_dec` and `functional_extensionality_dep`
  (real numbers).
* `C91_*`: `sig_not_dec` (`C91_inv_sqrt` only), `sig_forall_dec`, `functional_extensionality_dep`.
* `C92_exp2`, `C92_wraps`, `C92_exp`: `sig_not_dec`, `sig_forall_dec`, `functional_extensionality_dep`, `classic`.
* `C93_softmax`: `sig_not_dec`, `sig_forall_dec`, `functional_extensionality_dep`, `classic`.
* Every other theorem: closed under the global context.
