{"id": "C01", "title": "Modular inverse is right whenever it returns", "statement": "inverse(a, m) for non-negative a and positive m either returns b with 0 <= b < m and a*b congruent to 1 modulo m, or raises; it raises exactly when a and m have a common factor.", "quantifier": "all non-negative integers a and all positive moduli m", "why_tests_cant": "The recursion depth and the Bezout coefficients depend on the inputs; the domain is infinite and truncation for non-power-of-two bases silently multiplies by this value.", "anchors": ["tf_encrypted/tensor/helpers.py: egcd, gcd, inverse"]}
{"id": "C02", "title": "Fixed-point encoding round-trips within one unit in the last place", "statement": "Encoding a real number and decoding it again gives a number that differs from the input by strictly less than 1/scaling_factor, never changes its sign, never increases its magnitude, and is exact for every multiple of 1/scaling_factor; encoding is monotone.", "quantifier": "all rational inputs and all positive scaling factors", "why_tests_cant": "A continuum of inputs; tests compare a few decimals with a tolerance.", "anchors": ["tf_encrypted/protocol/pond/pond.py: Pond._encode, Pond._decode", "tf_encrypted/protocol/aby3/aby3.py: ABY3._encode, ABY3._decode", "tf_encrypted/tensor/fixed.py: FixedpointConfig"]}
{"id": "C03", "title": "Shipped fixed-point configurations leave enough head-room", "statement": "For every configuration shipped with the library, a sum of at most matmul_threshold raw products within the double-precision bound fits strictly inside half of the ring it is used with, and the masked value opened by interactive truncation fits below the modulus, so neither wraps.", "quantifier": "all shipped configurations and all lists of raw products within the double-precision bound of length at most the matmul threshold", "why_tests_cant": "The property concerns worst-case operands, which random tests do not reach.", "anchors": ["tf_encrypted/tensor/fixed.py: FixedpointConfig, _validate_fixedpoint_config, fixed100, fixed100_ni, fixed64, fixed64_ni"]}
{"id": "C04", "title": "Native tensors compute in the ring they advertise", "statement": "add, sub, mul, negative, reduce_sum, cumsum, matmul and conv2d on native tensors agree with integer arithmetic modulo factory.modulus, whatever wrap-around happens inside, and results stay canonical.", "quantifier": "all operand values, all vector lengths and matrix sizes, every word size and every explicit modulus", "why_tests_cant": "Overflow happens only for large operands; all protocols assume exact ring behaviour for every operand including random masks.", "anchors": ["tf_encrypted/tensor/native.py: Tensor.add, sub, mul, matmul, reduce_sum, cumsum, negative", "tf_encrypted/tensor/shared.py: conv2d"]}
{"id": "C05", "title": "Truncation of a native tensor is floor division", "statement": "truncate(amount, base) on a native tensor returns floor(x / base**amount) for every representable x, both through the shift path (base 2) and through the modular inverse path (other bases coprime with the modulus).", "quantifier": "all representable values, all amounts below the word size, all odd bases", "why_tests_cant": "Negative values and values near the ends of the range behave differently from the small positive ones used in tests.", "anchors": ["tf_encrypted/tensor/native.py: Tensor.truncate, right_shift", "tf_encrypted/tensor/helpers.py: inverse"]}
{"id": "C06", "title": "Logical right shift is unsigned division", "statement": "logical_rshift(k) on a native tensor equals floor division of the unsigned reading of x by 2**k for every non-negative k below the word size, returns x unchanged for k = 0, and rejects negative k.", "quantifier": "all representable values and all shift amounts", "why_tests_cant": "The mask construction differs per shift amount and the sign bit case is easily missed.", "anchors": ["tf_encrypted/tensor/native.py: Tensor.logical_rshift"]}
{"id": "C07", "title": "Bit decomposition is faithful", "statement": "bits() returns only 0/1 entries, least significant first, whose weighted sum is the value modulo 2**bitsize; for native tensors with full bit size two values with equal bits are equal.", "quantifier": "all values and all bit sizes", "why_tests_cant": "2**64 inputs.", "anchors": ["tf_encrypted/tensor/shared.py: binarize", "tf_encrypted/tensor/native.py: Tensor.bits"]}
{"id": "C08", "title": "zeros() is the additive identity", "statement": "factory.zeros(shape) added to any tensor leaves it unchanged.", "quantifier": "all tensors and word sizes", "why_tests_cant": "Refuted by the model: the native factory returns ones; no test in the repository calls it on the native factory.", "anchors": ["tf_encrypted/tensor/native.py: Factory.zeros, zeros_like"]}
{"id": "C09", "title": "Secure uniform sampling is exactly uniform over its range", "statement": "The rejection sampler behind secure_random maps the accepted raw words onto the requested interval so that every value of the interval has exactly the same number of accepted preimages, and never returns a value outside the interval.", "quantifier": "all word widths and all intervals low <= high representable in the type, except the inclusive full-width interval (a division by zero in the sampler, which the exclusive upper bound of the operation keeps unreachable)", "why_tests_cant": "Uniformity is a counting statement over all 2**64 raw words; statistical tests only see gross bias.", "anchors": ["operations/secure_random/generators.h: Generator::Uniform", "operations/secure_random/secure_random.cc"]}
{"id": "C10", "title": "Default masks cover the whole ring", "statement": "sample_uniform() without bounds can return every element of the ring, so one-time-pad style masking is perfect.", "quantifier": "all word sizes and all ring elements", "why_tests_cant": "Refuted by the model: the maximum element is never drawn (probability 2**-64 event, invisible to tests).", "anchors": ["tf_encrypted/tensor/native.py: Factory.sample_uniform", "tf_encrypted/tensor/int128.py: sample_uniform", "operations/secure_random/secure_random.cc"]}
{"id": "C11", "title": "Seeded sampling is deterministic and never reuses stream positions", "statement": "Two parties that expand the same seed to the same shape and bounds obtain identical tensors, and within one expansion the generator never uses the same keystream position twice, however many rejections occur.", "quantifier": "all seeds, shapes, bounds and rejection patterns, as long as the expansion stays below 2**32 keystream blocks", "why_tests_cant": "Block-boundary handling depends on how many values were rejected so far; tests see short expansions.", "anchors": ["operations/secure_random/generators.h: SeededGenerator"]}
{"id": "C12", "title": "CRT representation round-trips", "statement": "Decomposing an integer into residues and recombining gives the same integer modulo the product of the moduli; two integers have the same residues iff they agree modulo the product.", "quantifier": "all integers, all lists of pairwise coprime moduli (and the shipped ten moduli in particular)", "why_tests_cant": "The modulus is about 2**103.", "anchors": ["tf_encrypted/tensor/int100.py: crt_factory, _crt_decompose, crt_recombine_lagrange, crt_recombine_explicit, MODULI"]}
{"id": "C13", "title": "int100 arithmetic is ring arithmetic modulo the product", "statement": "add, sub, mul, negative and matmul computed residue by residue agree with integer arithmetic modulo the product of the moduli.", "quantifier": "all operands and matrix sizes", "why_tests_cant": "Same reason as C12.", "anchors": ["tf_encrypted/tensor/int100.py: _crt_add, _crt_sub, _crt_mul, _crt_matmul, Tensor.add, sub, mul, matmul"]}
{"id": "C14", "title": "int100 matmul never overflows its 32-bit components and splitting does not change the result", "statement": "For inner dimensions of any size, the chunked matmul equals the unchunked one modulo each component, and every partial accumulator stays below 2**31.", "quantifier": "all matrices with reduced entries, all inner dimensions", "why_tests_cant": "Worst-case entries and inner dimensions above 1024 at once are not tested.", "anchors": ["tf_encrypted/tensor/int100.py: Tensor.matmul, crt_factory assertion lines 43-44"]}
{"id": "C15", "title": "Explicit CRT reduction returns the signed representative modulo k", "statement": "mod(k) and bits() on int100 reduce the symmetric (signed) representative of the value; the floating-point quotient estimate is right for every value whose distance to half the modulus exceeds the accumulated rounding error.", "quantifier": "all residue vectors and all k; all quotient estimates within the stated error", "why_tests_cant": "Rounding failure needs values within a tiny relative distance of half the modulus.", "anchors": ["tf_encrypted/tensor/int100.py: crt_mod, crt_recombine_explicit, Tensor.mod, Tensor.bits"]}
{"id": "C16", "title": "int100 equality tests decide equality of the represented values", "statement": "equal and equal_zero return 1 exactly when the represented values are congruent modulo the product.", "quantifier": "all operands", "why_tests_cant": "Needs all residues to be combined correctly.", "anchors": ["tf_encrypted/tensor/int100.py: Tensor.equal_zero, Tensor.equal"]}
{"id": "C17", "title": "int100 truncation is floor division of the signed value", "statement": "truncate(amount, base) returns the representation of (x - (x mod f)) / f with f = base**amount for every x.", "quantifier": "all values and all factors coprime to the moduli", "why_tests_cant": "2**100 inputs.", "anchors": ["tf_encrypted/tensor/int100.py: Tensor.truncate, right_shift"]}
{"id": "C18", "title": "Reflected subtraction subtracts in the right order", "statement": "Evaluating `k - x` for a Python integer k and a tensor x gives k minus x, for every tensor type.", "quantifier": "all integers and tensors of the native and int100 factories", "why_tests_cant": "Refuted for int100 (it computes x - k); the operator is only exercised with native tensors.", "anchors": ["tf_encrypted/tensor/int100.py: Tensor.__rsub__", "tf_encrypted/tensor/native.py: Tensor.__rsub__"]}
{"id": "C19", "title": "Seeded int100 sampling covers every residue", "statement": "sample_seeded_uniform can return every ring element.", "quantifier": "all ring elements", "why_tests_cant": "Refuted: every component is drawn below the last modulus because a loop variable leaks.", "anchors": ["tf_encrypted/tensor/int100.py: Factory.sample_seeded_uniform"]}
{"id": "C20", "title": "Two-limb 128-bit arithmetic is arithmetic modulo 2**128", "statement": "Encoding to two 64-bit limbs and decoding are inverse; add, sub, mul, negation and the three shifts on limbs agree with arithmetic modulo 2**128 (shifts including the out-of-range amounts the kernels special-case).", "quantifier": "all 128-bit values and all shift amounts", "why_tests_cant": "2**256 operand pairs.", "anchors": ["operations/tf_i128/int128_kernels.cc", "tf_encrypted/operations/tf_i128/tf_i128.py", "tf_encrypted/tensor/int128.py"]}
{"id": "C21", "title": "Bit-manipulation kernels do what the circuits need", "statement": "bit_reverse is an involution mapping bit i to bit w-1-i; bit_gather(start, stride) and bit_split_and_gather(stride) return exactly the bits start, start+stride, ... packed from the low end; xor_indices returns the xor of the indices of the set bits and is linear over xor.", "quantifier": "all words, starts, strides and word sizes", "why_tests_cant": "2**64 inputs and linearity over shares is needed for every pair.", "anchors": ["operations/aux/aux_kernels.cc", "operations/tf_i128/int128_kernels.cc"]}
{"id": "C22", "title": "Memoised calls return what an uncached call would have returned", "statement": "Across any history of calls, a memoised operation returns the same result as executing it, provided no two calls with different results share a cache key; operations that return nothing (assign) are executed every time.", "quantifier": "all call histories", "why_tests_cant": "Cache hits depend on the whole history of the process-wide cache.", "anchors": ["tf_encrypted/protocol/protocol.py: memoize, make_hashable, nodes"]}
{"id": "C23", "title": "Distinct operations never share a cache entry", "statement": "Two calls that differ in protocol object, numeric type of a scalar (1, 1.0, True) or in keyword structure do not receive each other's cached results.", "quantifier": "all pairs of calls", "why_tests_cant": "Refuted: the key ignores the protocol object and Python equates 1, 1.0 and True.", "anchors": ["tf_encrypted/protocol/protocol.py: memoize", "tf_encrypted/protocol/pond/pond.py: transpose, strided_slice, stack (own cache keys)"]}
{"id": "C24", "title": "Two-party sharing reconstructs and hides", "statement": "Reconstructing freshly shared values gives the secret, and each single share takes every ring value for exactly one choice of randomness whatever the secret is.", "quantifier": "all secrets, all randomness, all lawful rings (2**w, int100, prime)", "why_tests_cant": "Secrecy is a statement about all secrets and all randomness.", "anchors": ["tf_encrypted/protocol/pond/pond.py: Pond._share, _reconstruct"]}
{"id": "C25", "title": "Linear operations commute with reveal", "statement": "Revealing x+y, x-y, -x, sum and cumsum of shared tensors, with private or public operands in either position, gives the corresponding ring operation on the revealed values.", "quantifier": "all values, shares, lengths and operand visibilities", "why_tests_cant": "All share splits of all values.", "anchors": ["tf_encrypted/protocol/pond/pond.py: _add_private_private, _add_private_public, _sub_public_private, _sub_private_private, _reduce_sum_private, _cumsum_private, _negative_private"]}
{"id": "C26", "title": "Beaver multiplication reveals the product", "statement": "For every triple produced by the triple source and every sharing, revealing the product, square, matrix product and convolution of shared tensors before truncation gives the ring product of the revealed operands.", "quantifier": "all operands, sharings, triple randomness and dimensions", "why_tests_cant": "The identity has to hold for every mask.", "anchors": ["tf_encrypted/protocol/pond/pond.py: _mask_private, _mul_masked_masked, _square_masked, _matmul_masked_masked, _conv2d_masked_masked", "tf_encrypted/protocol/pond/triple_sources.py"]}
{"id": "C27", "title": "Masked tensors stay consistent under every structural transformation", "statement": "After any sequence of transpose, reshape, slice, gather, split, stack, concat, expand_dims, indexer and space/batch operations, a masked tensor still satisfies: the mask shares add to the mask, both servers hold the same masked value, and masked value plus mask reconstructs the tensor.", "quantifier": "all sequences of transformations, all values, masks and shapes", "why_tests_cant": "Sequences are unbounded; each transformation is implemented separately on six components.", "anchors": ["tf_encrypted/protocol/pond/pond.py: _transpose_masked, _strided_slice_masked, _gather_masked, _split_masked, _stack_masked, _concat_masked, _reshape_masked, _expand_dims_masked, _indexer_masked"]}
{"id": "C28", "title": "Interactive truncation is off by at most one unit", "statement": "Interactive truncation of a shared value x with |x| at most the double bound reveals floor(x/s) or floor(x/s)+1 for every mask in the statistical-security range, every sharing and both bases.", "quantifier": "all x within the bound, all masks, all sharings, configurations whose bounds fit the modulus", "why_tests_cant": "Masks near the ends of the range are never drawn in tests.", "anchors": ["tf_encrypted/protocol/pond/pond.py: _truncate_private_interactive"]}
{"id": "C29", "title": "Non-interactive truncation fails on exactly the sharings where the shares wrap", "statement": "Local truncation of both shares reveals a value within one unit of floor(x/s) when the shares do not wrap; when they wrap the result is off by modulus/s; for a value x the number of bad sharings out of 2**w is exactly |x| related, so the failure probability is at most |x|/2**w (plus one).", "quantifier": "all x, all sharings, all word sizes and amounts", "why_tests_cant": "Failure probability is about 2**-40 for test-size values.", "anchors": ["tf_encrypted/protocol/pond/pond.py: _truncate_private_noninteractive"]}
{"id": "C30", "title": "Variables return the last assigned value", "statement": "After any sequence of assignments and reads on public and private variables, read_value reveals the value of the last assignment to that variable and other variables are untouched; using the variable object itself keeps its value from construction time.", "quantifier": "all histories of assign/read on any number of variables", "why_tests_cant": "Histories are unbounded.", "anchors": ["tf_encrypted/protocol/pond/pond.py: assign, PondPrivateVariable.read_value", "tf_encrypted/tensor/native.py: Variable", "tf_encrypted/protocol/aby3/aby3_tensors.py: ABY3PrivateVariable"]}
{"id": "C31", "title": "Secret-shared FIFO queues keep shares aligned", "statement": "With one producer and one consumer, whatever the interleaving of the four underlying queue operations and whatever the capacity, each dequeue returns both shares of one enqueued tensor, in order; no schedule runs for ever, and one that cannot continue has delivered every tensor.", "quantifier": "all interleavings, capacities and lengths", "why_tests_cant": "Schedules are chosen by the runtime.", "anchors": ["tf_encrypted/protocol/pond/pond.py: AdditiveFIFOQueue"]}
{"id": "C32", "title": "Shared queues are safe for several producers", "statement": "With two or more concurrent producers each dequeue still returns the two shares of one enqueued tensor.", "quantifier": "all interleavings", "why_tests_cant": "Refuted: the two share queues are filled by separate non-atomic operations.", "anchors": ["tf_encrypted/protocol/pond/pond.py: AdditiveFIFOQueue.enqueue, dequeue"]}
{"id": "C33", "title": "No Pond server ever holds both shares of a private tensor during an operation", "statement": "In every private-operand multiplication helper, the values placed on one server never contain both shares of a private operand.", "quantifier": "all operand values, all private/public operand combinations of mul and matmul", "why_tests_cant": "Refuted for matmul(private, public): both products are computed on server 0; a functional test cannot see where an operation is placed.", "anchors": ["tf_encrypted/protocol/pond/pond.py: _matmul_private_public, _matmul_public_private, _mul_private_public"]}
{"id": "C34", "title": "Opened Beaver values reveal nothing about the operands", "statement": "The values opened during masked multiplication (operand minus mask) take every ring value exactly once over the choice of the mask, so the joint distribution of what a server sees is independent of the other party's share.", "quantifier": "all operands and masks", "why_tests_cant": "Secrecy quantifies over all secrets.", "anchors": ["tf_encrypted/protocol/pond/pond.py: _mask_private", "tf_encrypted/protocol/pond/triple_sources.py"]}
{"id": "C35", "title": "Odd-modulus tensors add and subtract modulo 2**w-1", "statement": "add and sub of canonical odd-ring tensors are addition and subtraction modulo 2**w - 1 and stay canonical (never the forbidden all-ones word).", "quantifier": "all canonical operands and word sizes", "why_tests_cant": "Carry corner cases.", "anchors": ["tf_encrypted/protocol/securenn/odd_tensor.py: OddDenseTensor.add, sub, _lessthan_as_unsigned"]}
{"id": "C36", "title": "The odd-ring sampler returns canonical uniform values", "statement": "sample_uniform of the odd factory returns each canonical value equally often and never the forbidden word.", "quantifier": "all raw draws", "why_tests_cant": "Refuted: negative draws are shifted the wrong way.", "anchors": ["tf_encrypted/protocol/securenn/odd_tensor.py: _construct_value_from_sampler"]}
{"id": "C37", "title": "Private comparison computes (x > r) xor beta", "statement": "For every x, r and beta bit, every sharing modulo the prime and every non-zero blinding factor, the private-compare subprotocol returns exactly (x > r) xor beta, including r at the top of the range.", "quantifier": "all x, r < 2**w, both beta, all shares, all non-zero multipliers, every prime above w+1 whose square fits a signed word (107 for 64 bits)", "why_tests_cant": "Corner case r = 2**w - 1 with beta = 1 and the counting argument over all bit patterns.", "anchors": ["tf_encrypted/protocol/securenn/securenn.py: _private_compare"]}
{"id": "C38", "title": "Least-significant-bit protocol is correct", "statement": "lsb of an odd-ring shared value reveals the parity of the canonical representative, for all sharings and all masks.", "quantifier": "all values, sharings, masks and beta bits", "why_tests_cant": "Wrap-around of the masked value occurs for half the masks only.", "anchors": ["tf_encrypted/protocol/securenn/securenn.py: _lsb_private"]}
{"id": "C39", "title": "is_negative is right for all values except an exactly known set", "statement": "is_negative(x) is the sign of x for every sharing, except for the raw values -1 (always wrong), 2**(w-1)-1 (wrong when the shares wrap) and -2 (wrong for a single sharing); in particular it is right whenever -2**(w-1) <= x < 2**(w-1)-1 and x is not -1 or -2.", "quantifier": "all values and all sharings", "why_tests_cant": "Wrong values are isolated points of a 2**64 space and depend on the sharing.", "anchors": ["tf_encrypted/protocol/securenn/securenn.py: msb, _msb_private, is_negative, less"]}
{"id": "C40", "title": "Arithmetic bitwise operators compute boolean logic", "statement": "bitwise_not, and, or, xor on shared bits give the boolean result for all sharings, and select returns the chosen operand exactly.", "quantifier": "all bits, values, sharings", "why_tests_cant": "All share splits.", "anchors": ["tf_encrypted/protocol/securenn/securenn.py: bitwise_not, bitwise_and, bitwise_or, bitwise_xor, select"]}
{"id": "C41", "title": "Tree reductions return the maximum", "statement": "reduce_max and maximum return the maximum of all entries, for any number of entries, given a correct pairwise comparison; reduce_max_with_argmax returns an index attaining it, the last one on ties. Under SecureNN, whose comparison misreads differences of one or two raw units, the result is always one of the entries and at most 2*ceil(log2 n) raw units below the maximum, and exact when no two entries are one or two units apart.", "quantifier": "all lists of any length", "why_tests_cant": "Tree shape depends on the length.", "anchors": ["tf_encrypted/protocol/securenn/securenn.py: reduce_max, _reduce_max_private, argmax", "tf_encrypted/protocol/aby3/aby3.py: _reduce_max_private, _argmax"]}
{"id": "C42", "title": "relu on large tensors equals relu on small ones", "statement": "relu of a tensor does not depend on whether the tensor is larger than the split threshold.", "quantifier": "all tensors of all sizes", "why_tests_cant": "Refuted: the split path swaps relu and its derivative; tests use small tensors.", "anchors": ["tf_encrypted/protocol/securenn/securenn.py: relu_with_cmp"]}
{"id": "C43", "title": "Replicated sharing reconstructs, hides, and stays replicated", "statement": "Fresh arithmetic and boolean sharings reconstruct to the secret from any two servers; the two shares held by one server take each pair of values for exactly one choice of randomness; every operation returns shares where neighbouring servers hold equal copies.", "quantifier": "all secrets, randomness, operations", "why_tests_cant": "Secrecy and the invariant quantify over all executions.", "anchors": ["tf_encrypted/protocol/aby3/aby3.py: _share, _reconstruct, reveal"]}
{"id": "C44", "title": "Zero sharings cancel and keyed randomness agrees", "statement": "The three values produced by the zero-sharing generator add (or xor) to zero whatever the pseudo-random function and keys are, and pairwise random shares agree between the two servers holding them.", "quantifier": "all pseudo-random functions, keys, nonces and word sizes", "why_tests_cant": "For all keys.", "anchors": ["tf_encrypted/protocol/aby3/aby3.py: _gen_zero_sharing, _gen_random_sharing, _gen_b2a_sharing, _setup_pairwise_randomness"]}
{"id": "C45", "title": "ABY3 linear operations commute with reveal", "statement": "Revealing add, sub, negative, sum of arithmetic-shared tensors and xor, not, shifts of boolean-shared tensors, with public or private operands, gives the ring or bitwise operation on revealed values.", "quantifier": "all values and sharings", "why_tests_cant": "All sharings.", "anchors": ["tf_encrypted/protocol/aby3/aby3.py: _add_private_private, _add_private_public, _sub_private_private, _sub_public_private, _xor_private_private, _xor_private_public, _not_private, _lshift_private, _rshift_private, _logical_rshift_private"]}
{"id": "C46", "title": "ABY3 multiplication, matmul and conjunction reveal the product", "statement": "Before truncation, revealing private-private mul, matmul, square and boolean and/or gives the product of the revealed operands for every zero sharing.", "quantifier": "all operands, sharings, zero sharings and dimensions", "why_tests_cant": "All sharings.", "anchors": ["tf_encrypted/protocol/aby3/aby3.py: _mul_private_private, _matmul_private_private, _and_private_private, _or_private_private"]}
{"id": "C47", "title": "Oblivious transfer and bit injection are correct", "statement": "The three-party OT delivers exactly the chosen message, and multiplying an arithmetic value (public or private) by a shared bit reveals the value or zero.", "quantifier": "all messages, choice bits, masks, sharings", "why_tests_cant": "All masks.", "anchors": ["tf_encrypted/protocol/aby3/aby3.py: _ot, _mul_ab_public_private, _mul_ab_private_private, __mul_ab_routine"]}
{"id": "C48", "title": "ABY3 probabilistic truncation is within one unit", "statement": "Truncation with the secureq8 method never fails: it reveals floor(x/2**f) or floor(x/2**f)+1 for every non-negative x; the signed wrapper does so for every x in [-2**(n-2), 2**(n-2)); the cheetah method gives floor or floor-1; the result is wrong by a large amount for x outside the range.", "quantifier": "all values in range, all masks, all amounts below the word size", "why_tests_cant": "Masks are 64-bit.", "anchors": ["tf_encrypted/protocol/aby3/aby3.py: _truncate_heuristic_private, _truncate_msb0_secureq8_private, _truncate_msb0_cheetah_private"]}
{"id": "C49", "title": "Local three-party truncation error characterised", "statement": "The local truncation of ABY3 reveals floor(x/2**f) or one less when the two summands do not wrap, and is off by 2**(n-f) otherwise.", "quantifier": "all values and sharings", "why_tests_cant": "Wrap happens with probability |x|/2**n.", "anchors": ["tf_encrypted/protocol/aby3/aby3.py: _truncate_local_private"]}
{"id": "C50", "title": "Parallel-prefix adders add", "statement": "The Kogge-Stone and Sklansky circuits over boolean shares reveal the sum of the operands modulo 2**n, for the word sizes they accept (64 and 128 bits), every operand and every sharing; with n_bits = k Kogge-Stone reveals the sum modulo 2**k and the low k bits of the Sklansky result are those of the sum. Other word sizes are refused.", "quantifier": "both word sizes, all operands, sharings, n_bits", "why_tests_cant": "All pairs of words.", "anchors": ["tf_encrypted/protocol/aby3/aby3.py: _ppa_kogge_stone_private_private, _ppa_sklansky_private_private"]}
{"id": "C51", "title": "Share conversion preserves the value", "statement": "Converting an arithmetic sharing to a boolean one and back (both the adder based and bit-injection based conversions) preserves the revealed value.", "quantifier": "all values, sharings, randomness; bit injection of 128-bit words up to 64 bits (more raises an error)", "why_tests_cant": "All sharings.", "anchors": ["tf_encrypted/protocol/aby3/aby3.py: _a2b_private, _b2a_private, _b2a_single_private"]}
{"id": "C52", "title": "Bit extraction returns the requested bit", "statement": "bit_extract(x, i) and msb(x) reveal bit i of the two's complement representation of x, for every i > 0 (bit 0 of an arithmetic sharing raises TypeError) and every power-of-two word size from 8 bits; the logarithmic carry circuit returns the carry of the addition.", "quantifier": "all values, bit positions, sharings, word sizes", "why_tests_cant": "All values.", "anchors": ["tf_encrypted/protocol/aby3/aby3.py: _carry_private_public, _carry_private_private, _bit_extract_private, msb"]}
{"id": "C53", "title": "Comparisons are right exactly when the difference does not overflow", "statement": "less_than, less_equal, greater_than, greater_equal on shared values equal the integer comparison iff x - y (resp. y - x) is representable; in particular always for |x|, |y| < 2**(n-2); equality with zero is right for every value.", "quantifier": "all pairs of values", "why_tests_cant": "The failing pairs are far from test inputs.", "anchors": ["tf_encrypted/protocol/aby3/aby3.py: _less_private_private, _equal_zero_private, _equal_private_private"]}
{"id": "C54", "title": "select, relu, maximum and compare-and-swap are exact", "statement": "select(b, x, y) reveals y when b = 1 and x when b = 0; relu reveals max(x,0) for every word but the most negative one; maximum and compare-and-swap are right for all operands whose difference is representable.", "quantifier": "all operands and sharings", "why_tests_cant": "All operands.", "anchors": ["tf_encrypted/protocol/aby3/aby3.py: select, maximum, cmp_swap, _relu_private"]}
{"id": "C55", "title": "sort sorts", "statement": "sort along an axis returns an ordered permutation of its input for every length that the code accepts and every input, ascending or descending, given exact comparison; padding elements never leak into the result.", "quantifier": "all lengths and all inputs", "why_tests_cant": "The comparator network is built per length; sorting needs all inputs (2**n by the 0-1 principle).", "anchors": ["tf_encrypted/protocol/aby3/aby3.py: sort, _sort_private, build_bitonic_index, bitonic_sort"]}
{"id": "C56", "title": "sort accepts every non-empty axis length", "statement": "sort works for axis length one.", "quantifier": "all lengths >= 1", "why_tests_cant": "Refuted: an empty comparator network is stacked and raises.", "anchors": ["tf_encrypted/protocol/aby3/aby3.py: sort helpers"]}
{"id": "C57", "title": "Integer power and products are exact in the ring", "statement": "pow(x, p) of an unscaled shared integer reveals x**p modulo 2**n for all p >= 1, and prod over an axis reveals the product of all entries for every length.", "quantifier": "all x, p, lengths", "why_tests_cant": "Loop count depends on p.", "anchors": ["tf_encrypted/protocol/aby3/aby3.py: _pow_private, _prod_private"]}
{"id": "C58", "title": "Piecewise polynomials evaluate exactly one piece", "statement": "polynomial_piecewise selects, for every x and every increasing list of break points, the polynomial of the interval containing x and no other.", "quantifier": "all x, all break point lists, all coefficient lists", "why_tests_cant": "Boundaries.", "anchors": ["tf_encrypted/protocol/aby3/aby3.py: _polynomial_piecewise_private, _sigmoid_private"]}
{"id": "C59", "title": "Pairwise nonces are fresh for every traced operation", "statement": "Over any sequence of ABY3 operations traced in one program, no (key, nonce) pair feeds the pseudo-random function for two different operations.", "quantifier": "all sequences of operations", "why_tests_cant": "Sequences are unbounded.", "anchors": ["tf_encrypted/protocol/aby3/aby3.py: pairwise_nonces, update_pairwise_nonces, _gen_zero_sharing, _gen_random_sharing, _ot, __mul_ab_routine"]}
{"id": "C60", "title": "Masks are fresh on every execution", "statement": "Executing a compiled function twice, or a loop body several times, or truncating with the cheetah method, never reuses a mask.", "quantifier": "all executions", "why_tests_cant": "Refuted: nonces advance only while tracing, and cheetah truncation does not advance them before the next zero sharing.", "anchors": ["tf_encrypted/protocol/aby3/aby3.py: update_pairwise_nonces, _truncate_msb0_cheetah_private, while_loop", "tf_encrypted/protocol/protocol.py: function"]}
{"id": "C61", "title": "Local computation on private inputs sees the true value", "statement": "define_local_computation hands the player the revealed value of every private input, whatever its share type.", "quantifier": "all inputs and share types", "why_tests_cant": "Refuted: the share type of the output is used to reconstruct the inputs.", "anchors": ["tf_encrypted/protocol/aby3/aby3.py: define_local_computation"]}
{"id": "C62", "title": "Reciprocal normalisation covers the advertised range", "statement": "For every raw value representable in the configured integral and fractional precision, the normalisation step inside reciprocal returns a significand in [0.5, 1).", "quantifier": "all values in the advertised range", "why_tests_cant": "Refuted for the top half of the range: an arithmetic instead of a logical shift is used to clear the high bits, so values with the top bit set give zero.", "anchors": ["tf_encrypted/protocol/aby3/fp.py: __fp_normalize, _do_fp_recip_private"]}
{"id": "C63", "title": "What one ABY3 server sees does not depend on the secrets", "statement": "For every program of private operations without openings (inputs, sums, products, truncations, boolean operations, conversions, comparisons, selections, maxima, sorting), any server, and any two choices of the secret inputs: for every value of the random words there is exactly one other value of the words drawn with which the second run gives this server the same messages, seeds and result shares, and the same outcome.", "quantifier": "all programs of any length, all secrets, all random words, each server", "why_tests_cant": "Secrecy quantifies over all secrets and all random words.", "anchors": ["tf_encrypted/protocol/aby3/aby3.py: _share, _gen_zero_sharing, _gen_random_sharing, _mul_private_private, _matmul_private_private, _truncate_heuristic_private, _and_private_private, _a2b_private, _b2a_private, _carry_private, _mul_ab_private_private, __mul_ab_routine"]}
{"id": "C64", "title": "Batching covers the data set exactly once", "statement": "predict splits the data into consecutive batches whose concatenation is the data and returns, for every batch size, what the model gives on all samples, for one or several inputs and outputs; fit sees every sample once per epoch with its label.", "quantifier": "all sizes, batch sizes, epochs and step counts", "why_tests_cant": "Sizes are unbounded. Refuted for fit: with a private tensor the loop bound is the number of features, and the generator is exhausted after the first epoch, so later epochs train on nothing.", "anchors": ["tf_encrypted/keras/models/base_model.py: data_wrap, predict, fit"]}
{"id": "C65", "title": "Flatten passes on the gradient of its input", "statement": "Flatten.backward returns the gradient of the layer's input for any gradient of its output, whatever the data format of the input is.", "quantifier": "for all data formats, numbers of channels and positions, batch sizes, inputs and output gradients", "why_tests_cant": "Tests of Flatten's backward pass use one small channels_last input, or none at all; whether the gradient is transposed back for channels_first only shows in what training converges to.", "anchors": ["tf_encrypted/keras/layers/flatten.py:31-58"]}
{"id": "C66", "title": "Queue serving returns the client's own result", "statement": "A client's run(x) returns f(x) for every schedule of client and server steps.", "quantifier": "all schedules, any number of clients", "why_tests_cant": "Refuted for two clients on the same queues; proved for one client.", "anchors": ["tf_encrypted/serving/queues.py"]}
{"id": "C67", "title": "Paillier decrypts sums and scalar products correctly", "statement": "Any computation built from encrypt, add, multiplication by a non-negative scalar and refresh, with or without refreshing, decrypts to its value modulo n; a ciphertext has one plaintext and one randomness; keys from two different odd primes of equal length always exist. Encryption with randomness r can be decrypted exactly when r has an inverse modulo n.", "quantifier": "all primes p, q with gcd(n, (p-1)(q-1)) = 1, all computations of any size, all plaintexts, all randomness coprime to n", "why_tests_cant": "Number-theoretic statement over all keys.", "anchors": ["primitives/tf_encrypted/primitives/paillier/primitives.py"]}
{"id": "C68", "title": "Adam's bias-correction denominators never vanish", "statement": "After any number of optimizer steps, the fixed-point values 1 - beta1^t and 1 - beta2^t used as divisors are strictly positive and at most one.", "quantifier": "all step counts, all beta encodings below one", "why_tests_cant": "Truncation accumulates over unboundedly many steps.", "anchors": ["tf_encrypted/keras/optimizers.py: Adam.apply_gradients", "tf_encrypted/protocol/aby3/aby3.py: _mul_public_public"]}
{"id": "C69", "title": "Player lookup is consistent", "statement": "Over any history of lookups, a local configuration assigns each name exactly one player with a unique index; a remote configuration assigns each host a distinct device and survives save/load.", "quantifier": "all histories of lookups and all host maps", "why_tests_cant": "Histories.", "anchors": ["tf_encrypted/config.py: LocalConfig, RemoteConfig"]}
{"id": "C70", "title": "Protocol context managers restore the previous protocol", "statement": "After any well-nested use of protocols as context managers, the active protocol is the one that was active before.", "quantifier": "all nestings", "why_tests_cant": "Re-entrancy of one protocol object is a history property.", "anchors": ["tf_encrypted/protocol/protocol.py: Protocol.__enter__, __exit__"]}
{"id": "C71", "title": "int100 bounded sampling is uniform", "statement": "sample_bounded(shape, n) on int100 maps the independent chunk draws one-to-one onto the integers below 2**n, so its output is uniform whenever the chunks are.", "quantifier": "all bit lengths with 2**n below the modulus, all chunk values", "why_tests_cant": "A bias would need statistics over an astronomically large range.", "anchors": ["tf_encrypted/tensor/int100.py: sample_bounded, _construct_backing_from_chunks"]}
{"id": "C72", "title": "The helper server learns nothing from a SecureNN comparison", "statement": "What server 2 reconstructs during lsb (and so during is_negative, less, maximum, relu) has a distribution that does not depend on the compared values.", "quantifier": "all values, sharings and draws", "why_tests_cant": "A distributional property of one party's view; refuted: the zero it searches for sits at the top differing bit (the permutation is missing), which bounds the magnitude of the secret.", "anchors": ["tf_encrypted/protocol/securenn/securenn.py: _private_compare, _lsb_private"]}
{"id": "C73", "title": "Bounded sampling is uniform in every ring", "statement": "sample_bounded(shape, b) returns every value below 2**b from equally many raw words, and nothing else.", "quantifier": "all bit lengths b the ring accepts", "why_tests_cant": "A deficit of one raw word in 2**128 is invisible to statistics; refuted for int128, where the value 2**(b-1)-1 is one raw word short (also for sample_bits), proved for the native rings.", "anchors": ["tf_encrypted/tensor/native.py: sample_bounded", "tf_encrypted/tensor/int128.py: sample_bounded, sample_bits", "operations/secure_random/generators.h"]}
{"id": "C74", "title": "Integers keep their value through int128 tensors", "statement": "An integer tensor turned into an int128 tensor and back (int128factory.tensor / to_native, hence define_private_variable, public encodings and reveal of int128 values) is unchanged, and equals the int128 tensor built from the same numpy array.", "quantifier": "all 64-bit integers and all ring elements", "why_tests_cant": "The loss starts at 2**53 and is a relative error of 2**-53, below every float tolerance used in tests; refuted: exact up to 2**53, wrong at 2**53+1, error bound given beyond.", "anchors": ["tf_encrypted/tensor/int128.py: tensor, to_native", "tf_encrypted/operations/tf_i128/tf_i128.py", "operations/tf_i128/int128_tensor.cc"]}
{"id": "C75", "title": "bits() of an int128 tensor lists its bits", "statement": "For an int128 tensor x and every bitsize k up to 128, x.bits(k) adds one axis of length k whose entry i is bit i of x.", "quantifier": "all elements and all bit sizes", "why_tests_cant": "Only small sizes are tried; refuted above 64, where the result has an extra axis of pairs and repeated top bits; proved up to 64.", "anchors": ["tf_encrypted/tensor/int128.py: bits"]}
{"id": "C76", "title": "Axis arguments of int128 tensors mean the same as in TensorFlow", "statement": "gather, split, concat, stack and expand_dims of int128 tensors act on the axis that the same argument denotes for an ordinary tensor of that shape.", "quantifier": "all ranks and all axes in range", "why_tests_cant": "Tests use axis 0 and -1; refuted for axis <= -2 (acts on the neighbour) and for stack along the last axis; proved for the other axes.", "anchors": ["tf_encrypted/tensor/int128.py: _lift_axis, concat, stack, split, gather, expand_dims"]}
{"id": "C77", "title": "equal on int128 tensors compares entries, broadcasting as TensorFlow does", "statement": "x.equal(y) is the elementwise comparison of the ring elements for equal shapes and when one operand is a single element, of whatever rank.", "quantifier": "all shapes and all elements", "why_tests_cant": "The failing shapes end the whole process instead of failing a test; refuted: a one-element right operand of the same rank aborts; proved for equal shapes and lower-rank single elements.", "anchors": ["operations/tf_i128/int128_kernels.cc: equal", "operations/tf_i128/int128_tensor.cc"]}
{"id": "C78", "title": "Zero tensors and converted public tensors keep their value", "statement": "In ABY3, zeros(...) reveals zeros, and the private tensor made from a public one (to_private) reveals that public value from then on, whatever other tensors are converted, created or sorted.", "quantifier": "all histories of zeros, conversions and sorts", "why_tests_cant": "The aliasing shows only when two tensors of equal shape, scaling, share type and factory meet in one process; refuted: a second conversion overwrites the first, and zeros returned after a sort hold the sort's padding. Proved: the first conversion, and zeros as long as nothing with the same arguments was converted.", "anchors": ["tf_encrypted/protocol/aby3/aby3_tensors.py: to_private", "tf_encrypted/protocol/aby3/aby3.py: zeros, sort", "tf_encrypted/protocol/protocol.py: memoize"]}
{"id": "C79", "title": "Pond's transpose, strided_slice, stack and avgpool2d honour their arguments", "statement": "Over any history of calls, each call returns the result for the arguments it was given.", "quantifier": "all histories", "why_tests_cant": "Depends on which calls were made on the same tensor before; refuted for transpose, strided_slice and stack (perm, slice and axis are not part of the cache key), proved for avgpool2d and for the first use of a tensor; the exact result over any history is proved.", "anchors": ["tf_encrypted/protocol/pond/pond.py: transpose, strided_slice, stack, avgpool2d"]}
{"id": "C80", "title": "An assignment that raises leaves the variable unchanged", "statement": "If assigning to a private or public variable raises an exception, reading the variable afterwards still gives the value from before the assignment, in every ring.", "quantifier": "all variables, all values assigned, all share types and rings", "why_tests_cant": "Needs a failing assignment in every ring. Refuted for the int100 and boolean rings, whose assignment writes and then raises, so the first share is new and the others are old.", "anchors": ["tf_encrypted/tensor/int100.py: Variable.assign", "tf_encrypted/tensor/boolfactory.py: Variable.assign", "tf_encrypted/protocol/pond/pond.py: assign", "tf_encrypted/protocol/aby3/aby3.py: assign"]}
{"id": "C81", "title": "Module-level operations always go to the active protocol", "statement": "After any history of set_protocol calls, tfe.<operation> is the method of the active protocol, or an error when the active protocol has no such method or none is active.", "quantifier": "all histories of set_protocol over any protocols", "why_tests_cant": "Histories are unbounded. Refuted for methods that only a user-defined protocol has: they stay bound after the protocol has been replaced.", "anchors": ["tf_encrypted/__init__.py: set_protocol", "tf_encrypted/protocol/__init__.py: get_all_funcs"]}
{"id": "C82", "title": "Computations at one player reveal to nobody else and return the right value (Pond)", "statement": "define_local_computation rebuilds exactly the values of its public, private and masked arguments at the player, and its result reveals the function of these values; every other machine sees only its share of the result, which is uniform whatever the arguments and the function; masked=True returns a masked tensor of the same value.", "quantifier": "all rings, tensor sizes, argument lists, functions and randomness", "why_tests_cant": "Secrecy is about all arguments and all draws. Refuted for masked=True, which raises TypeError on every input (unary plus on a backing tensor).", "anchors": ["tf_encrypted/protocol/pond/pond.py: define_local_computation"]}
{"id": "C83", "title": "Refreshed Paillier ciphertexts carry nothing but the value", "statement": "Over the uniform randomness of its last step, the result of encrypt, of a refreshing add or mul, or of refresh is uniform over all ciphertexts of its value: every ciphertext of that value is reached by exactly one randomness, whatever the operands were.", "quantifier": "all keys of two different odd primes of equal length, all computations of any size, all target ciphertexts of the same value", "why_tests_cant": "A statement about a distribution over all ciphertexts and all keys.", "anchors": ["primitives/tf_encrypted/primitives/paillier/primitives.py: refresh, add, mul, encrypt"]}
{"id": "C84", "title": "predict(reveal=False) opens nothing", "statement": "Over any history of calls of predict on one model, a call with reveal=False opens none of its outputs.", "quantifier": "all histories of calls, all data, all batch sizes", "why_tests_cant": "Histories are unbounded. Refuted: the first call decides for the life of the model; once predict(reveal=True) was called, reveal=False opens all its outputs and then raises. Proved for histories that never ask for reveal=True.", "anchors": ["tf_encrypted/keras/models/base_model.py: predict, make_predict_function"]}
{"id": "C85", "title": "evaluate compares every prediction with its label", "statement": "evaluate hands to its metrics the predictions of all samples and all labels, in the same order, for every batch size including the default.", "quantifier": "all sizes, batch sizes, step counts and models", "why_tests_cant": "Sizes are unbounded. Refuted for the default batch size, which raises TypeError on all data, and for a private tensor, of which only ceil(features / batch) batches are used. Proved for lists of tensors.", "anchors": ["tf_encrypted/keras/models/base_model.py: evaluate, data_wrap"]}
{"id": "C86", "title": "Public ABY3 tensors can be multiplied and divided by any plain number", "statement": "x * c and x / c of a public tensor and a Python number are the truncated product with the encoding of c, for every c.", "quantifier": "all numbers, all values that fit", "why_tests_cant": "Refuted for every power of two other than one (2, 0.5, 4, ...): the fast path goes to operations that do not exist for public tensors and raises TypeError. Proved for all other numbers.", "anchors": ["tf_encrypted/protocol/aby3/aby3.py: mul, mul_pow2, div, truncate, lshift"]}
{"id": "C87", "title": "One training step of a Sequential model is a step of gradient descent", "statement": "fit_batch on a Sequential model of Dense, Activation, ReLU, Flatten and Reshape layers with the SGD optimiser returns the loss of the model before the step, and replaces each weight w and its velocity v by w - v' and v' = momentum * v + learning_rate * (derivative of that loss by w); models whose activations have no derivative raise.", "quantifier": "for all models (any number of layers, sizes, activations), weights, velocities, batches, labels, learning rates and momenta at which the loss can be differentiated", "why_tests_cant": "A test can compare one model on one batch with another library; the chain rule over any stack of layers, with weights updated while the gradient still travels back, is a statement about all stacks.", "anchors": ["tf_encrypted/keras/models/sequential.py:94-130", "tf_encrypted/keras/models/base_model.py:54-67", "tf_encrypted/keras/layers/dense.py:101-143", "tf_encrypted/keras/layers/activation.py:27-40", "tf_encrypted/keras/layers/relu.py:37-48", "tf_encrypted/keras/activations.py:6-83", "tf_encrypted/keras/optimizers.py:22-44"]}
{"id": "C88", "title": "The gradient of each loss is the gradient of its value", "statement": "For every loss, grad(y_true, y_pred) is the gradient by y_pred of the sum of the values that call(y_true, y_pred) returns (times the batch size with lazy_normalization).", "quantifier": "for all batch sizes, numbers of outputs, labels and predictions, and all options of the losses", "why_tests_cant": "Training still makes progress with a wrong gradient that points in a similar direction; tests that check that the loss falls, or that compare with one reference value, do not show it.", "anchors": ["tf_encrypted/keras/losses.py:33-137"]}
{"id": "C89", "title": "Private reciprocal and division are accurate to a stated bound", "statement": "For every private value x with 0 < |x| below half of the advertised range, any sharing of it, any randomness and any number of rounds from one up, reciprocal(x) returns r with |r x - 1| at most 7e-6 plus 3 units of the scale plus 2|x| units; a private quotient has the same relative error plus one unit, as long as it fits in the word. In the upper half of the advertised range, and for zero, reciprocal returns 0 without an error.", "quantifier": "all values, sharings, nonces, pseudo-random words and iteration counts", "why_tests_cant": "tests compare a handful of values with a generous tolerance; the error depends on how eight truncations round, and the upper half of the range is never tried", "anchors": ["tf_encrypted/protocol/aby3/fp.py: _fp_recip_private, __fp_normalize, prefix_ORs, _fp_div", "tf_encrypted/protocol/aby3/aby3.py: _b2a_private, _bits_private, _bit_reverse_private, reciprocal"]}
{"id": "C90", "title": "Private logarithms are accurate to a stated bound over the positive range", "statement": "For every positive private value x of the advertised range, every sharing of it, all randomness and every base b of at least 2, the private logarithm returns log_b x with an error of at most 0.022 / log2 b plus k + 13 units of the scale with k fractional bits.", "quantifier": "all values, sharings, nonces, pseudo-random words and bases", "why_tests_cant": "tests take logarithms of a few middling values with a loose tolerance; the smallest value and the upper half of the range are never tried, and how the truncations round depends on the masks", "anchors": ["tf_encrypted/protocol/aby3/fp.py: _do_fp_log_private, _fp_log2_private, _fp_log10_private, _fp_ln_private, prefix_ORs", "tf_encrypted/protocol/aby3/aby3.py: _b2a_private, _bit_reverse_private, _xor_indices_private, mul_pow2"]}
{"id": "C91", "title": "The private inverse square root is accurate over the whole positive range, and zero gives zero", "statement": "For every positive private value x below 2^(n/2 - 2), which includes the advertised range, every sharing of it and all randomness, the private inverse square root y satisfies |y sqrt x - 1| <= e + 9 u + 4 u sqrt x, where u is one unit of the scale and e is 0.0076 without refinement and 0.0001 with one or more rounds. For x = 0 the result is exactly zero, whatever the number of rounds.", "quantifier": "all values, sharings, nonces, pseudo-random words and numbers of refinement rounds", "why_tests_cant": "the only test takes one value with a tolerance of one percent; neither the ends of the range nor zero are tried, and how the truncations round depends on the masks", "anchors": ["tf_encrypted/protocol/aby3/fp.py: approx_sqrt_inv, _fp_inv_sqrt_private, prefix_ORs", "tf_encrypted/protocol/aby3/aby3.py: inv_sqrt, _b2a_private, _bit_reverse_private, _bit_gather_private, _xor_indices_private, _bit_extract_private, mul_pow2", "tf_encrypted/keras/optimizers.py: Adam, AMSgrad"]}
{"id": "C92", "title": "Private exponentials are accurate for all arguments in range, and very negative ones give a tiny value instead of garbage", "statement": "With the default method, for every private x below 32, every sharing of it, all randomness and every truthful hint about the sign, the private 2^x differs from the true value by at most (e + 16 u) 2^x + u, where u is one unit of the scale and e is 0.00152, 0.000184, 0.000029 or 0.000014 with at least 11, 13, 17 or 20 fractional bits; arguments below minus the number of fractional bits (at most 32) are included. The private e^x meets the same bound, enlarged by the rounding of x log2 e, for every x from minus half the scale up to 22. From 32 on the exponent of 2^x is silently taken modulo 32.", "quantifier": "all values, sharings, nonces, pseudo-random words, sign hints, and configurations with 64- or 128-bit words", "why_tests_cant": "the tests take a few values with a tolerance of 0.1 or so; the boundaries (multiples of 1, the switch between the two sign branches, the cut-off) and the dependence of rounding on the masks are not tried", "anchors": ["tf_encrypted/protocol/aby3/aby3.py: exp2, exp, exp2_pade, _exp2_pade_private, _pow2_from_bits_private, _exp2_private, _exp_private, _prod_private, _b2a_private, _bits_private"]}
{"id": "C93", "title": "Private softmax is accurate for every row of logits in range", "statement": "For every row of private logits with at least two entries (one with the method \"tree\"), every sharing, all randomness and either method for the maximum, each entry of the private softmax differs from exp(x_i) / sum_j exp(x_j) by at most 2.2 e + 1e-5 + (45 + 4 l) u, where l is the length of the row, u one unit of the scale and e the relative error of the private exponential (0.000184 with 16 fractional bits): under 0.0018 for ten classes in the default configuration. The logits may be of any size that comparisons support, as long as they differ by less than half of the scale, and the row may have up to ten elevenths of 2^(integral bits - 1) entries. A row with one entry raises ValueError with the default method.", "quantifier": "all rows, sharings, nonces, pseudo-random words, methods, and configurations with 64- or 128-bit words and at least 11 fractional bits", "why_tests_cant": "the tests take one small matrix with a tolerance of 0.1; the cancellation of the shift, widely spread logits, long rows and the dependence of rounding on the masks are not tried", "anchors": ["tf_encrypted/protocol/aby3/aby3.py: softmax, _softmax_private, _reduce_max_private, _exp_private, reciprocal; tf_encrypted/protocol/aby3/fp.py: _fp_recip_private"]}
{"id": "C94", "title": "Convolution is cross-correlation with TensorFlow's padding", "statement": "For all images and kernels, numbers of images, channels and filters, kernel sizes, strides (also different ones along rows and columns) and paddings, the convolution computed through rearranged patches and one matrix product has the shape that TensorFlow gives and each of its entries is the sum over the kernel of products of kernel and image entries, the image being extended by zeros as TensorFlow does: half of the missing places, rounded down, come first. This holds over any commutative ring, so for the words of 64 and 128 bits, for tensors modulo any number, and for int100, whose patches are ordered differently.", "quantifier": "all tensors, shapes, strides and paddings; entries from any commutative ring", "why_tests_cant": "the tests compare a few shapes with tf.nn.conv2d; uneven padding, strides that differ, and the interplay of patch order and kernel layout need every combination", "anchors": ["tf_encrypted/tensor/shared.py: im2patches, im2col, out_size, conv2d; tf_encrypted/tensor/int100.py: im2col, conv2d; tf_encrypted/tensor/native.py: conv2d, matmul, reshape, transpose"]}
{"id": "C95", "title": "The gradients of a convolutional layer are the derivatives of its output", "statement": "For a Conv2D layer without activation, in either data format, with or without bias, with equal strides along rows and columns, and windows that cover the (padded) image, backward returns gradients of the input, of the kernel and of the bias that are the exact derivatives: for every change of the input, the inner product of d_y with the output changes by the inner product of the returned gradient with the change, and likewise for the kernel and the bias (whose gradients are divided by the batch size with lazy normalization). The shapes are those of the input, kernel and bias. Where the windows do not cover the image, backward raises AssertionError although the forward pass works; with different strides it may return a wrong gradient silently.", "quantifier": "all inputs, kernels, biases, output gradients, sizes, strides, paddings and data formats; entries from any commutative ring", "why_tests_cant": "tests train small networks and look at the loss; that every entry of three gradients is right for all sizes, paddings and strides cannot be sampled, and a wrong gradient at the border still lets the loss decrease", "anchors": ["tf_encrypted/keras/layers/convolutional.py: Conv2D.call, Conv2D.backward, Conv2D.pad_size; tf_encrypted/protocol/aby3/aby3.py: _expand_private, pad, reverse; tf_encrypted/tensor/shared.py: conv2d"]}
{"id": "C96", "title": "Pooling layers compute sums and maxima of windows", "statement": "For all images, data formats, pool sizes, strides and paddings, AveragePooling2D returns a tensor of the shape TensorFlow gives whose entries are the sum of the window times the scalar 1/(pool area), and MaxPooling2D one whose entries are members of the window that no member exceeds. The windows are those of TensorFlow, on the image extended by zeros; so with SAME padding zeros count as members: averages at the border are divided by the full area, and the maximum of negative entries at the border is 0, unlike in TensorFlow (witness).", "quantifier": "all images, sizes, strides, paddings and data formats; entries from any commutative ring, any order and any function that finds a position of a greatest entry", "why_tests_cant": "tests pool a few images of one size; the interplay of the reordering of patches, the reshapes and the padding has to be right for every combination, and wrong reorderings agree on symmetric examples", "anchors": ["tf_encrypted/keras/layers/pooling.py: MaxPooling2D.call, AveragePooling2D.call; tf_encrypted/protocol/aby3/aby3.py: avgpool2d, maxpool2d_with_argmax; tf_encrypted/tensor/shared.py: im2patches, im2col, out_size"]}
{"id": "C97", "title": "The gradients of pooling layers are the derivatives of their outputs", "statement": "For equal strides along rows and columns and windows that cover the (padded) image, backward of AveragePooling2D returns a tensor of the input's shape that is the exact derivative: for every change of the input, the inner product of d_y with the output changes by the inner product of the returned gradient with the change. Backward of MaxPooling2D sends each entry of d_y to the position of the maximum of its window, adding up where windows overlap. The same holds for GlobalAveragePooling2D (without keepdims, or with channels_first) and GlobalMaxPooling2D. It fails otherwise: if the windows leave rows or columns uncovered, as with the default pool size on an image of odd size, backward always raises TypeError although the forward pass works; with different strides it may return a wrong gradient silently; GlobalAveragePooling2D with keepdims, channels_last and several channels returns a gradient of a wrong shape.", "quantifier": "all images, output gradients, sizes, strides, paddings and data formats; entries from any commutative ring", "why_tests_cant": "tests of training look at the loss of a network whose sizes divide evenly; the border cases, overlapping windows and odd sizes are not run, and a wrong gradient may still decrease the loss", "anchors": ["tf_encrypted/keras/layers/pooling.py: MaxPooling2D.backward, AveragePooling2D.backward, GlobalAveragePooling2D, GlobalMaxPooling2D; tf_encrypted/tensor/shared.py: patches2im; tf_encrypted/tensor/native.py: pad; tf_encrypted/tensor/int128.py: pad"]}
{"id": "C98", "title": "A converted ONNX model computes what the ONNX graph says", "statement": "Take any ONNX graph built from Add, Sub, Mul, Neg, MatMul, Gemm, Conv, Relu, Flatten and Transpose nodes in any number and any wiring, with any initializers. If its nodes have different names, its Gemm nodes have transA = 0 and transB as their first two attributes, its Conv nodes have square kernels, equal strides and as many padding rows at the top as at the bottom, its transpositions keep the batch axis, the kernels and biases of MatMul, Gemm and Conv are initializers, and no other operand is, except that Add may have one on the right, then converting it with the input shapes succeeds whatever batch size is written in them, and every later call of the model, however often it has been called before, returns tensors of the shapes and with the entries that the ONNX operators prescribe. Without those restrictions it fails silently: a padding row at the top only is added at the bottom, two nodes with the same name are both run as the second one, and Gemm nodes with attributes in another order (alpha, beta, transB) ignore transB (witnesses).", "quantifier": "all graphs of these operators, tensors, batch sizes, padding, strides and permutations; entries from any commutative ring; any number of earlier calls", "why_tests_cant": "tests convert a few exported models and compare a few outputs with tolerance; they cannot cover all graphs, and bugs such as swapped padding or positional attributes only show for asymmetric settings", "anchors": ["tf_encrypted/convert/convert.py: TFEConverter.__init__, _build_initializer, _build_node, _build_forward; tf_encrypted/convert/nodes.py: AddNode, SubNode, MulNode, NegNode, MatMulNode, GemmNode, Conv2dNode, ReluNode, FlattenNode, TransposeNode"]}
{"id": "C99", "title": "The backward pass of a converted ONNX model is the derivative of the graph", "statement": "For the graphs of C98 in which every tensor is used once, biases of Add nodes have no batch axis, and convolution windows reach the last row and column, a call of the model followed by backward with any gradients of the outputs returns gradients of the inputs, and hands gradients of the weights to the optimizer, such that for every change of inputs and weights, and the first-order change of all other tensors that the operators prescribe, the change of the outputs weighted by the given gradients is exactly the change of the inputs and weights weighted by the computed ones. The weights' gradients handed over are exact for MatMul, Gemm and Conv, and divided by the batch size for biases that an Add node adds (witness). If a tensor is used twice, as in x * x or a residual connection, the later gradient replaces the earlier one and the result is silently wrong (witness).", "quantifier": "all graphs as in C98 with every tensor used once, all weights, inputs, output gradients and directions; entries from any commutative ring", "why_tests_cant": "training tests look at a loss that decreases on one model; an error in one of many gradients, or in the bookkeeping between nodes, need not show, and sequential test models never use a tensor twice", "anchors": ["tf_encrypted/convert/convert.py: _build_backward; tf_encrypted/convert/nodes.py: backward methods; tf_encrypted/keras/layers/dense.py: Dense.backward; tf_encrypted/keras/layers/convolutional.py: Conv2D.backward"]}
{"id": "C100", "title": "A clone of a tf.keras model computes what the model computes", "statement": "Take any sequence of Dense, Conv2D, DepthwiseConv2D and BatchNormalization layers and layers without weights, with either data format, either padding, any strides, any depth multiplier, with or without biases, scales and offsets, that fit the shape of the samples. If at least one layer has weights, clone_model of a tf.keras model with these layers succeeds, whatever the initializers of tf-encrypted make and whatever batch size is declared, and on every batch of every size the clone returns a tensor of the shape and with the entries that tf.keras defines: every weight reaches the layer and the place that it belongs to, biases and normalization parameters are brought into the shapes that broadcast along the right axis, and the kernels of depthwise convolutions act on their own channel only. A model without any weights cannot be cloned: IndexError (witness).", "quantifier": "all networks of these layers, all weights, sample shapes, batch sizes and inputs; all values of the initializers; entries from any commutative ring, any functions as square root and reciprocal", "why_tests_cant": "tests clone a few models and compare a few outputs with a tolerance; they cannot cover all combinations of layers, data formats and multipliers, and a weight that lands in the wrong channel may change small test outputs little", "anchors": ["tf_encrypted/keras/models/sequential.py: Sequential.add, call, set_weights, model_from_config, clone_model; tf_encrypted/keras/layers/convolutional.py: DepthwiseConv2D, Conv2D; tf_encrypted/keras/layers/normalization.py: BatchNormalization; tf_encrypted/keras/layers/dense.py: Dense; tf_encrypted/keras/engine/base_layer.py: Layer"]}
{"id": "C101", "title": "set_weights determines what a model computes", "statement": "For any such model, whatever its weights have been set to before, set_weights with weights in the shapes of tf.keras succeeds, in one list for all layers or in one list for each layer, and with numpy arrays, with private tensors or variables, or with public ones for normalizations. Afterwards the model computes on every input what a tf.keras model with these weights computes; nothing of the former weights remains, in particular not in the stored denominators of normalizations.", "quantifier": "all networks as in C100, all histories of earlier calls of set_weights, all weights, kinds of weights and inputs", "why_tests_cant": "tests set weights once, on fresh models and with numpy arrays; stale derived values such as the denominator only show after a second change", "anchors": ["tf_encrypted/keras/models/sequential.py: Sequential.set_weights; tf_encrypted/keras/engine/base_layer.py: Layer.set_weights; tf_encrypted/keras/layers/convolutional.py: DepthwiseConv2D.set_weights; tf_encrypted/keras/layers/normalization.py: BatchNormalization.set_weights"]}
{"id": "C102", "title": "Setting a model's weights to what they are changes nothing", "statement": "set_weights says that it takes weights of the shapes that the model's own weights have. Given copies of the model's own variables it succeeds and leaves the value of every variable of every layer, including the stored denominators of normalizations, as it was, if the depth multipliers of all DepthwiseConv2D layers are one. With a multiplier above one, such a layer rejects copies of its own weights with an error (witness).", "quantifier": "all networks as in C100, all histories of earlier calls of set_weights", "why_tests_cant": "saving and restoring weights is a round trip over all models and histories; tests do not try it with depthwise convolutions", "anchors": ["tf_encrypted/keras/models/sequential.py: Sequential.set_weights; tf_encrypted/keras/engine/base_layer.py: Layer.set_weights; tf_encrypted/keras/layers/convolutional.py: DepthwiseConv2D.rearrange_kernel, get_mask, set_weights; tf_encrypted/keras/layers/normalization.py: BatchNormalization.set_weights"]}
{"id": "C103", "title": "Setting weights copies values and touches nothing else", "statement": "set_weights of a built model copies the values of the given weights into the variables of the model. Given one list with the weights of all layers, it leaves every list and every variable other than the model's own as they were. Given one list for each layer, other lists than the layers' own, it leaves every variable other than the model's own, and every list other than the given ones; the given lists then hold tensors of the same values. In both cases a given variable counts with what it holds when set_weights is called, provided that the lists are each of one kind and that no list names a variable of an earlier layer of the model. It is false that the given lists are untouched: after model_2.set_weights(model.weights), every step of training of the first model raises AttributeError, although its predictions stay the same; model.set_weights(model.weights) raises TypeError for every model with weights. Without the provisos stale or overwritten values are copied silently (witnesses).", "quantifier": "all models, all lists and variables of the process, all values; all ways in which lists share variables", "why_tests_cant": "tests set weights from fresh arrays and look at the model that was set; that another model's lists were changed shows only when that model is used later", "anchors": ["tf_encrypted/keras/engine/base_layer.py: Layer.add_weight, set_weights; tf_encrypted/keras/models/sequential.py: Sequential.add, backward, set_weights; tf_encrypted/keras/layers/convolutional.py: DepthwiseConv2D.set_weights; tf_encrypted/keras/layers/normalization.py: BatchNormalization.set_weights; tf_encrypted/keras/optimizers.py: SGD.apply_gradients; tf_encrypted/protocol/aby3/aby3.py: ABY3.assign, define_private_variable"]}
{"id": "C104", "title": "The private sigmoid is accurate everywhere and decides on the right side", "statement": "With the ABY3 protocol, sigmoid of a private fixed-point tensor is, for every argument, however large, within 0.042 of 1 / (1 + exp(-x)) with the approximation by five pieces and within 0.077 with three pieces, up to six units of the last fractional bit. The result is at least one half for arguments from 0 on, at most one half for arguments up to 0, and exactly one half at 0, so that classification at the threshold 1/2 agrees with the sign of the argument. Any other approximation raises NotImplementedError.", "quantifier": "all word sizes that are powers of two, all numbers of fractional bits from 3 to (word size - 3) / 2, all arguments within half of the range of the word, all shares and random numbers, any encoding of the constants within one unit and a rounding to single precision", "why_tests_cant": "tests compare a handful of arguments with a tolerance; that the polynomials not selected may overflow without harm, and the worst argument of each piece, need the whole range and real analysis", "anchors": ["tf_encrypted/protocol/aby3/aby3.py: _sigmoid_private, _polynomial_piecewise_private, _multi_polynomial_private, _pow_private, _mul_private_public, _encode"]}
{"id": "C105", "title": "Private tensors written to disk are read back", "statement": "With the ABY3 protocol, after any sequence of write calls under any prefixes, with or without append, read yields what was written: for scaled arithmetic tensors of B rows each, read(prefixes, file_batch=B, output_shape=[q*B, ...]) yields well-formed sharings of q of them at a time, prefix by prefix and in the order of writing, and starts again at the end; write without append replaces what was under the prefix, and other prefixes are untouched. Asked for all rows, it yields them all at every call for any file_batch up to B. If the number of tensors is no multiple of q, the batches before the incomplete one are right, that one raises, and the generator is finished. It is false that tensors keep their kind: an unscaled tensor is read as a fixed-point one of the same raw value, and boolean shares as arithmetic shares of another number. With 128-bit words read appends to the caller's output_shape, and a second read with the same list always raises.", "quantifier": "all sequences of writes, all prefixes, all shapes, numbers of rows and values, both word sizes, any contents of the disk before, any number of calls of next", "why_tests_cant": "the one test writes one tensor and reads it once; the alignment of the six share files over appends, prefixes and repetitions, and the loss of the flags, need arbitrary sequences", "anchors": ["tf_encrypted/protocol/aby3/aby3.py: write, read, _write_private, _read_; operations/dataset/write_record.cc: WriteRecordOp; tf_encrypted/tensor/int128.py: shape, factory.tensor"]}
{"id": "C106", "title": "Pond's sigmoid, tanh, relu and log are close to the functions on a known range, and only there", "statement": "With the Pond protocol at its two fixed-point precisions, for a public, private or masked scaled tensor: sigmoid is within 0.031 of 1 / (1 + exp(-x)) for arguments from -4 to 4; tanh is within 0.066 of the hyperbolic tangent from -2.5 to 2.5; relu is within 0.4415 of max(0, x) from -6 to 6; log is within 0.08 of the natural logarithm from 0.1 to 1. Beyond the ranges the results are wrong for all randomness: the sigmoid of 8 is above 3, tanh of 5 is below -2, relu of -10 is below -5.5.", "quantifier": "all tensors with entries in the ranges, all shares, masks, triples and truncation masks, both precisions, any order of the single-precision sum in the conversion of int100", "why_tests_cant": "tests compare a few arguments near 0 with a tolerance; the worst argument of a range needs real analysis, and the accumulated rounding error of up to ten truncated products depends on the randomness", "anchors": ["tf_encrypted/protocol/pond/pond.py: sigmoid, relu, tanh, log, lift, define_constant, _encode, square, mul, truncate"]}
{"id": "C107", "title": "Division in Pond", "statement": "With the Pond protocol at its two fixed-point precisions, x / y of a scaled public, private or masked tensor x is right up to u (1 + |x|) and a floating-point error, where u is one unit of the scale, for every non-zero integer y, and for public scaled tensors y with entries between 2^-12 and 2^13 in absolute value. The square root of a public scaled tensor is right up to one unit. Division by a private tensor or an unscaled one, and the square root of one, raise. It is false that division works for every plain number: dividing by a Python float always raises TypeError; a quotient by an integer above the scaling factor (6561 or 65536) is 0 up to one unit whatever x is; and every quotient of an unscaled tensor by an integer other than 1 and -1 is 0.", "quantifier": "all tensors with entries below 2^29 (2^17 for tensors as divisors), all integers, all shares, masks, triples and truncation masks, both precisions, any floating-point results within a relative error of 2^-40, cut to integers", "why_tests_cant": "tests divide by one small constant; the loss of accuracy for large divisors is silent, and the rounding depends on the randomness", "anchors": ["tf_encrypted/protocol/pond/pond.py: div, reciprocal, sqrt, _reciprocal_public, _sqrt_public, lift, _encode, _decode, mul, PondTensor.__truediv__"]}
{"id": "C108", "title": "Accuracy of powers and polynomials in ABY3", "statement": "With the ABY3 protocol, for a private fixed-point x with |x| <= B (B >= 1) and w one unit of the scale, x**i is off by at most (B+w)^i - B^i - w, which is below i w (B+w)^(i-1). polynomial(x, coeffs) on one machine is off by at most the sum of these errors times the coefficients, plus, for each coefficient that is not whole, its encoding error times (B+w)^i and w, plus the encoding error of the constant. polynomial_piecewise has such an error too, on one machine or three, and only the polynomial of the interval of x matters: the others and the powers they need may overflow. On three machines, polynomial itself always raises AssertionError.", "quantifier": "all x and shares of x, all exponents, all coefficient lists (rational), all random numbers, all precisions k and word sizes n with 2k + 2 <= n in which the products of the selected polynomial fit", "why_tests_cant": "rounding depends on the random numbers and accumulates over squarings; tests look at a few values with a loose tolerance, and at polynomials of low degree", "anchors": ["tf_encrypted/protocol/aby3/aby3.py: _pow_private, _polynomial_private, _multi_polynomial_private, _polynomial_piecewise_private, mul, mul_pow2, is_power_of_two"]}
{"id": "C109", "title": "Compiled functions and loops in ABY3", "statement": "With the ABY3 protocol, a function under tfe.function returns what the undecorated function returns, in the call that traces it and in later ones: private, public and plain tensors, nested in lists and tuples, enter and leave the graph word for word with their scaling, kind of sharing and word size (tuples come back as lists). while_loop makes the same number of iterations and ends with the same values eagerly and inside a graph, for every condition and every body that keeps scaling, kind of sharing and word size of its variables. Inside a graph the results of while_loop always carry the flags of the initial variables: a body that multiplies an integer by a fixed-point constant is right eagerly and gives a result off by the whole scale in a graph.", "quantifier": "all functions, conditions and bodies that are correct from every state of the random numbers, all shares, all nestings, all numbers of iterations (also endless loops), one machine or three", "why_tests_cant": "tests compile a few functions and run one loop with a body that keeps the flags; what crosses into a graph depends on every flag of every tensor", "anchors": ["tf_encrypted/protocol/aby3/aby3.py: while_loop, from_bone", "tf_encrypted/protocol/aby3/aby3_tensors.py: bone", "tf_encrypted/protocol/protocol.py: function, wrap_func, unwrap_func"]}
{"id": "C110", "title": "Compiled functions in Pond and SecureNN", "statement": "With Pond or SecureNN a function under tfe.function, and with it predict, fit and evaluate of a model, returns what the undecorated function returns, for public, private and masked tensors of every factory.", "quantifier": "all functions, all arguments and results, all shares and masks", "why_tests_cant": "Tests use the default factory. Proved for tensors of machine words (the default). Refuted for high precision, where every tensor argument raises because the CRT factory has no nbits, and for tensors modulo a prime, which come out as machine words with the same shares and open to a value off by the prime whenever the sum of the shares reaches it.", "anchors": ["tf_encrypted/protocol/pond/pond.py: bone, from_bone", "tf_encrypted/protocol/protocol.py: function", "tf_encrypted/tensor/int100.py: Factory", "tf_encrypted/keras/models/base_model.py: make_predict_function"]}
{"id": "C111", "title": "Dealing out a private tensor in batches", "statement": "With the ABY3 protocol, iterate(x, batch_size, repeat, shuffle, seed) on a private tensor whose words are of the default size gives, once its iterators are initialised, batches that are well-formed sharings of whole rows of x, with the scaling and kind of sharing of x; all shares of all servers deal the same rows, and which ones depends on the number of rows and the public seed alone. With repeat every batch is full: without shuffle the rows come in order and start again, with shuffle every place of the endless sequence of rows is used at most once and no row comes more than 511 places early. Without repeat each row is dealt once, in order or in an order fixed by the seed; the rows left over when the batch size does not divide the number of rows are never delivered, since the short batch raises, and reading on raises the end of the data. With repeat and shuffle an epoch need not hold every row: rows may come twice running. A tensor of another word size comes out labelled with the default one.", "quantifier": "all numbers and lengths of rows, all batch sizes (also zero and negative ones), all sequences of random numbers of the seed, all shares, all batch numbers", "why_tests_cant": "the test reads one or two batches of a small tensor; which rows arrive depends on the seed, and agreement of the six iterators is an invariant of the shuffle buffer", "anchors": ["tf_encrypted/protocol/aby3/aby3.py: iterate, _iterate_private"]}
{"id": "C112", "title": "Accuracy of the polynomial logarithm in ABY3", "statement": "With the ABY3 protocol, log of a private fixed-point number between 1/10 and 1 is its natural logarithm with an error of at most 0.0551 and 170 units of the last fractional bit, on one machine or three and for every randomness; for every argument whose powers have room the result is the fifth-degree polynomial of the implementation up to a stated multiple of the unit. Outside this interval it is not the logarithm: below 1/1000 the result stays above -4 although the logarithm is below -6, and for 2 it is above 3 although the logarithm is below 1.", "quantifier": "all shares, all randomness, all word sizes and numbers of fractional bits with room, all arguments in the interval, all encodings of the coefficients with an error of one unit", "why_tests_cant": "tests compare a few values with a tolerance; the error depends on the argument, on the truncations and on the shares", "anchors": ["tf_encrypted/protocol/aby3/aby3.py: log, _log_private, mul, square, lift"]}
{"id": "C113", "title": "Division by public tensors, public roots and reciprocals in ABY3", "statement": "With the ABY3 protocol, dividing a private fixed-point tensor by a public fixed-point tensor gives the quotient with an error of at most one unit, one unit times the dividend and a relative 2^-40, whenever the quotient and the inverse have room, on one machine or three and for every randomness. reciprocal and sqrt of a public fixed-point tensor give the same word on the three servers, within one unit and a relative 2^-40. A private tensor of integers is not divided: over anything above 1.001 in size the result is 0, whatever the dividend. Divisors that are integers without scaling, or private, raise TypeError; reciprocal and sqrt without scaling raise AssertionError.", "quantifier": "all shares, all randomness, all words and word sizes, all numbers of fractional bits, every floating-point arithmetic with a relative error of at most 2^-40", "why_tests_cant": "tests divide a few numbers with a tolerance; the error grows with the dividend and depends on the shares, and integers are not tested", "anchors": ["tf_encrypted/protocol/aby3/aby3.py: div, reciprocal, sqrt, _sqrt_public, _reciprocal_public, lift, define_constant", "tf_encrypted/protocol/aby3/aby3_tensors.py: ABY3PublicTensor.decode"]}
{"id": "C114", "title": "Moving the entries of ABY3 tensors about", "statement": "With the ABY3 protocol, reshape, transpose, expand_dims, squeeze, gather, reverse, slicing along an axis and tile of a private tensor give a well-formed sharing of the same kind and scaling whose entries are the ones the operation takes from the secret, for every shape and all shares, arithmetic or boolean. The same holds for concat and stack of tensors of one kind and scaling, for split into equal parts and for pad, which surrounds the secret with zeros. All of these, except reverse and pad, do the same to public tensors. An arithmetic and a boolean tensor can be concatenated without an error, and then the entries of one of them come out wrong. Padding or reversing a public tensor and joining public with private tensors raise TypeError; joining scaled with unscaled tensors raises AssertionError. Gathering by a public tensor of unscaled integers takes the entries at these integers; by one of scaled integers, as constants are by default, it raises an error for every index other than 0 unless the axis has more than 2^k entries, k being the number of fractional bits.", "quantifier": "all shapes, axes, indices, permutations, multiples and paddings that make sense, all shares, all word sizes, any number of joined tensors", "why_tests_cant": "tests move the entries of a few small arithmetic tensors along one or two axes; boolean sharings, mixed lists and public tensors are not tried", "anchors": ["tf_encrypted/protocol/aby3/aby3.py: transpose, indexer, reshape, concat, stack, expand_dims, squeeze, strided_slice, gather, split, tile, pad, reverse, _zeros_private, _zeros_public", "tf_encrypted/tensor/native.py"]}
{"id": "C115", "title": "Sums along axes and scatter_nd in ABY3", "statement": "With the ABY3 protocol, reduce_sum of an arithmetic private tensor of any shape, along any axis or over all entries and with or without keepdims, gives a well-formed sharing whose entries are the sums in the ring of the entries of the secret; along an axis of a public tensor it gives these sums to all servers. scatter_nd with one index for each entry of the first axis adds up the entries with the same index, for words of every size but 128 bits, and so it does with public 64-bit indices in one column, whose words are used as they are, if the updates have 64-bit words; with distinct indices it moves the entries there and fills up with zeros, for words of every size, arithmetic or boolean. With 128-bit words and a repeated index the result can be wrong, because the two limbs are added separately and the carry is lost. reduce_sum accepts boolean tensors of words and the result can be neither the sum nor the exclusive or.", "quantifier": "all shapes, axes and index lists, all shares, all word sizes", "why_tests_cant": "tests sum a few small arithmetic tensors with 64-bit words; the lost carry needs repeated indices and large low limbs of the random shares, and boolean tensors are not tried", "anchors": ["tf_encrypted/protocol/aby3/aby3.py: reduce_sum, scatter_nd, _reduce_sum_private, _scatter_nd_private", "tf_encrypted/tensor/native.py: reduce_sum, scatter_nd", "tf_encrypted/tensor/int128.py: scatter_nd, reduce_sum"]}
