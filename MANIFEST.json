{
 "claims": [
  {
   "property": "C01",
   "status": "proved",
   "theorems": [
    "C01_inverse_correct"
   ],
   "note": ""
  },
  {
   "property": "C02",
   "status": "proved",
   "theorems": [
    "C02_roundtrip",
    "C02_exact_on_grid",
    "C02_monotone",
    "C02_pond_decode_exact"
   ],
   "note": "Exact rationals; float64 rounding of the product is not modelled."
  },
  {
   "property": "C03",
   "status": "proved",
   "theorems": [
    "C03_headroom",
    "C03_mask_headroom",
    "C03_validation",
    "C03_validation_sufficient_refuted"
   ],
   "note": "Also shows that the library's own validation accepts configurations whose mask does not fit."
  },
  {
   "property": "C04",
   "status": "proved",
   "theorems": [
    "C04_native_ring",
    "C04_reduce_sum",
    "C04_reduce_sum_explicit",
    "C04_cumsum",
    "C04_matmul",
    "C04_dot_explicit",
    "C04_dot_explicit_unbounded_refuted"
   ],
   "note": "For explicit moduli the reductions need the stated size bound; without it they are refuted."
  },
  {
   "property": "C05",
   "status": "proved",
   "theorems": [
    "C05_truncate_floor",
    "C05_truncate_defined"
   ],
   "note": ""
  },
  {
   "property": "C06",
   "status": "proved",
   "theorems": [
    "C06_logical_rshift"
   ],
   "note": ""
  },
  {
   "property": "C07",
   "status": "proved",
   "theorems": [
    "C07_bits",
    "C07_bits_injective"
   ],
   "note": ""
  },
  {
   "property": "C08",
   "status": "partial",
   "theorems": [
    "C08_zeros_identity_refuted"
   ],
   "note": "The property is false of the code: zeros() returns ones; the negation is proved for every element and word size."
  },
  {
   "property": "C09",
   "status": "proved",
   "theorems": [
    "C09_uniform",
    "C09_rejections",
    "C09_range",
    "C09_full_width"
   ],
   "note": "Counts accepted raw words per value for every width; the full-width case is shown to be a division by zero and unreachable through the operation."
  },
  {
   "property": "C10",
   "status": "partial",
   "theorems": [
    "C10_prime_bool_cover",
    "C10_default_image",
    "C10_default_masks_refuted",
    "C10_mask_leaks_refuted"
   ],
   "note": "False of the code: in the native and int128 rings the largest element is never drawn, so a masked value excludes one secret. True for prime and boolean rings."
  },
  {
   "property": "C11",
   "status": "proved",
   "theorems": [
    "C11_positions",
    "C11_agree",
    "C11_depends",
    "C11_completes"
   ],
   "note": "libsodium's ChaCha20 is an oracle from (block, index) to words; sharding across threads is not modelled."
  },
  {
   "property": "C12",
   "status": "proved",
   "theorems": [
    "C12_crt_roundtrip",
    "C12_int100_moduli_ok"
   ],
   "note": ""
  },
  {
   "property": "C13",
   "status": "proved",
   "theorems": [
    "C13_crt_ring",
    "C13_int100_ring",
    "C13_matmul",
    "C13_reduce_sum",
    "C13_reduce_sum_unbounded_refuted"
   ],
   "note": "reduce_sum is exact up to the int32 head-room and refuted beyond it."
  },
  {
   "property": "C14",
   "status": "proved",
   "theorems": [
    "C14_no_overflow",
    "C14_split_transparent"
   ],
   "note": ""
  },
  {
   "property": "C15",
   "status": "proved",
   "theorems": [
    "C15_mod",
    "C15_to_native",
    "C15_bits",
    "C15_mod_large_k_refuted"
   ],
   "note": "Float32 rounding modelled with Flocq, any summation order; k that is neither a power of two nor at most 176892 is refuted."
  },
  {
   "property": "C16",
   "status": "proved",
   "theorems": [
    "C16_equality"
   ],
   "note": ""
  },
  {
   "property": "C17",
   "status": "partial",
   "theorems": [
    "C17_truncate",
    "C17_truncate_large_refuted"
   ],
   "note": "Proved for the safe value range and factors the int32 accumulator supports; false for larger factors (witness 3^12)."
  },
  {
   "property": "C18",
   "status": "partial",
   "theorems": [
    "C18_native_rsub",
    "C18_int100_rsub_refuted",
    "C18_int100_rsub_is_sub"
   ],
   "note": "Holds for native tensors, false for int100 (k - x gives x - k)."
  },
  {
   "property": "C19",
   "status": "partial",
   "theorems": [
    "C19_seeded_sampling_refuted",
    "C19_unseeded_sampling_onto"
   ],
   "note": "False of the code: the bound of every component is the last modulus."
  },
  {
   "property": "C20",
   "status": "proved",
   "theorems": [
    "C20_encode_decode",
    "C20_ring",
    "C20_shifts",
    "C20_bitwise",
    "C20_sums",
    "C20_lawful",
    "C20_casts"
   ],
   "note": "Signed overflow of __int128 (undefined in C++) is taken as wrapping; Eigen's broadcasting is not modelled, operations are per element."
  },
  {
   "property": "C21",
   "status": "proved",
   "theorems": [
    "C21_reverse64",
    "C21_reverse128",
    "C21_gather",
    "C21_split_and_gather",
    "C21_gather128",
    "C21_split_and_gather128",
    "C21_circuit_gather",
    "C21_xor_indices",
    "C21_xor_indices128"
   ],
   "note": "The C++ loops are modelled per word; the native gather for any word size."
  },
  {
   "property": "C22",
   "status": "proved",
   "theorems": [
    "C22_transparent",
    "C22_first_result"
   ],
   "note": "Operations are arbitrary interaction trees over a world, with nested memoised calls; results are what is observed of an operation (fresh randomness inside a result is not observed). Also the exact behaviour on any repeated call."
  },
  {
   "property": "C23",
   "status": "partial",
   "theorems": [
    "C23_key_exact",
    "C23_keywords",
    "C23_protocols_refuted",
    "C23_arguments_refuted"
   ],
   "note": "False of the code: protocol objects, 1/1.0/True, sequences of different type and long arrays changed in the middle share entries. The exact sameness relation of keys is proved; keyword order never matters."
  },
  {
   "property": "C24",
   "status": "proved",
   "theorems": [
    "C24_share_views",
    "C24_share_reveal",
    "C24_share_secrecy"
   ],
   "note": "Assumes uniform draws; for int100 the library's seeded sampler is not uniform (see C19)."
  },
  {
   "property": "C25",
   "status": "proved",
   "theorems": [
    "C25_reveal_exact",
    "C25_add",
    "C25_sub",
    "C25_negative",
    "C25_reduce",
    "C25_sum_all",
    "C25_cumsum",
    "C25_mixed_encodings",
    "C25_add_mixed_private"
   ],
   "note": "Also: private + private of different encodings is not rejected."
  },
  {
   "property": "C26",
   "status": "proved",
   "theorems": [
    "C26_not_truncated",
    "C26_square_public",
    "C26_product",
    "C26_mul",
    "C26_matmul",
    "C26_square",
    "C26_unsupported"
   ],
   "note": "Convolution is a table of index pairs (BConv). matmul(private, public) and conv2d with one public operand always raise."
  },
  {
   "property": "C27",
   "status": "partial",
   "theorems": [
    "C27_masked_invariant",
    "C27_squeeze_masked_refuted"
   ],
   "note": "Proved for every transformation except squeeze, which always raises TypeError on a masked tensor."
  },
  {
   "property": "C28",
   "status": "proved",
   "theorems": [
    "C28_interactive_native",
    "C28_interactive_int100",
    "C28_mul_fixed64",
    "C28_mul_fixed100",
    "C28_base2_native_raises",
    "C28_server0_view",
    "C28_server1_view"
   ],
   "note": "Exact result (floor plus the carry of the low parts). A base-2 configuration over a 2^w ring always raises."
  },
  {
   "property": "C29",
   "status": "proved",
   "theorems": [
    "C29_ni_native",
    "C29_bad_sharings",
    "C29_ni_int100"
   ],
   "note": "For int100 the code truncates both shares directly (0 - x is x): result floor or floor - 1."
  },
  {
   "property": "C30",
   "status": "partial",
   "theorems": [
    "C30_read_last",
    "C30_use_initial",
    "C30_reveals",
    "C30_copy_stale_refuted",
    "C30_share_type_refuted"
   ],
   "note": "Proved for reads over every history of assignments and uses; false in two corners: assigning one variable to another copies the value from construction time, and ABY3 accepts a value of another share type and then reveals something else."
  },
  {
   "property": "C31",
   "status": "proved",
   "theorems": [
    "C31_prefix",
    "C31_delivers"
   ],
   "note": "For eager, grouped and freely interleaved halves and every capacity."
  },
  {
   "property": "C32",
   "status": "partial",
   "theorems": [
    "C32_producers_refuted",
    "C32_consumers_refuted"
   ],
   "note": "False of the code, for any two tensors and even eagerly: the consumer gets shares of different tensors; the same with two consumers."
  },
  {
   "property": "C33",
   "status": "partial",
   "theorems": [
    "C33_public_operand_views",
    "C33_matmul_private_public_refuted"
   ],
   "note": "False of the code for matmul(private, public): server 0 receives both shares and the call then raises; the other combinations are proved."
  },
  {
   "property": "C34",
   "status": "proved",
   "theorems": [
    "C34_server_views",
    "C34_producer_view",
    "C34_opened_uniform"
   ],
   "note": ""
  },
  {
   "property": "C35",
   "status": "proved",
   "theorems": [
    "C35_odd_add",
    "C35_odd_sub"
   ],
   "note": ""
  },
  {
   "property": "C36",
   "status": "partial",
   "theorems": [
    "C36_odd_sampler_refuted",
    "C36_lsb_wrong_refuted"
   ],
   "note": "False of the code: negative draws are shifted up instead of down, so the sampler returns the forbidden word, hits 0 twice and misses the two smallest words; with that word as a mask lsb returns the wrong parity."
  },
  {
   "property": "C37",
   "status": "proved",
   "theorems": [
    "C37_private_compare"
   ],
   "note": ""
  },
  {
   "property": "C38",
   "status": "proved",
   "theorems": [
    "C38_lsb_private"
   ],
   "note": "Public tensors are covered through is_negative (C39)."
  },
  {
   "property": "C39",
   "status": "proved",
   "theorems": [
    "C39_is_negative",
    "C39_minus_two",
    "C39_is_negative_right",
    "C39_minus_one_refuted",
    "C39_comparisons",
    "C39_less_adjacent_refuted"
   ],
   "note": "The exact set of misread values, and what it means for less, greater, less_equal and greater_equal."
  },
  {
   "property": "C40",
   "status": "proved",
   "theorems": [
    "C40_bitwise",
    "C40_select"
   ],
   "note": "For every lawful ring, hence also the prime ring used inside the comparison."
  },
  {
   "property": "C41",
   "status": "proved",
   "theorems": [
    "C41_reduce_max_tree",
    "C41_reduce_max_all",
    "C41_reduce_max_network",
    "C41_argmax",
    "C41_argmax_onehot",
    "C41_snn_reduce_max",
    "C41_snn_argmax",
    "C41_snn_maximum_refuted"
   ],
   "note": "ABY3 and SecureNN. SecureNN's maximum of u+1 and u is u (C41_snn_maximum_refuted), hence the stated tolerance; the slices along the axis are the model's input."
  },
  {
   "property": "C42",
   "status": "partial",
   "theorems": [
    "C42_relu_small",
    "C42_relu_large_refuted"
   ],
   "note": "False of the code: above the threshold the results come back swapped, so relu returns the unscaled comparison bit. Up to the threshold relu is the positive part."
  },
  {
   "property": "C43",
   "status": "proved",
   "theorems": [
    "C43_share_arithmetic",
    "C43_share_boolean",
    "C43_reconstruct",
    "C43_reveal",
    "C43_share_hiding"
   ],
   "note": "That every operation returns replicated shares is part of the arith/boolean postconditions of C44-C54."
  },
  {
   "property": "C44",
   "status": "proved",
   "theorems": [
    "C44_zero_sharing",
    "C44_zero_sharing_boolean",
    "C44_random_sharing",
    "C44_b2a_randomness"
   ],
   "note": ""
  },
  {
   "property": "C45",
   "status": "partial",
   "theorems": [
    "C45_add_private",
    "C45_add_public",
    "C45_sub_private",
    "C45_sub_public",
    "C45_negative",
    "C45_shift_left_arithmetic",
    "C45_xor",
    "C45_not",
    "C45_shifts_boolean",
    "C45_add_public_public_partial",
    "C45_reduce_sum"
   ],
   "note": "Adding two public tensors has no device block: it is right on co-located machines and raises on distinct ones."
  },
  {
   "property": "C46",
   "status": "proved",
   "theorems": [
    "C46_mul",
    "C46_mul_unscaled",
    "C46_mul_public",
    "C46_matmul",
    "C46_and_or"
   ],
   "note": "square is mul of a tensor with itself."
  },
  {
   "property": "C47",
   "status": "proved",
   "theorems": [
    "C47_ot",
    "C47_inject_public",
    "C47_inject_private",
    "C47_bit_to_arithmetic"
   ],
   "note": ""
  },
  {
   "property": "C48",
   "status": "partial",
   "theorems": [
    "C48_secureq8",
    "C48_signed",
    "C48_fixed_product",
    "C48_secureq8_outside",
    "C48_cheetah_partial"
   ],
   "note": "The cheetah method works only when the machines share a device name; on distinct machines it raises."
  },
  {
   "property": "C49",
   "status": "partial",
   "theorems": [
    "C49_local_partial"
   ],
   "note": "Proved on co-located machines; on distinct machines the call raises."
  },
  {
   "property": "C50",
   "status": "proved",
   "theorems": [
    "C50_kogge_stone",
    "C50_kogge_stone_bits",
    "C50_sklansky",
    "C50_sklansky_bits",
    "C50_other_sizes"
   ],
   "note": ""
  },
  {
   "property": "C51",
   "status": "proved",
   "theorems": [
    "C51_a2b",
    "C51_a2b_bits",
    "C51_b2a",
    "C51_round_trips",
    "C51_b2a_bits",
    "C51_b2a_full",
    "C51_b2a_int128_bits_refuted"
   ],
   "note": "Exception shown: bit injection of more than 64 bits of a 128-bit word raises an error; the adder method, the default, works for 128 bits."
  },
  {
   "property": "C52",
   "status": "proved",
   "theorems": [
    "C52_carry",
    "C52_bit_extract",
    "C52_bit_extract_boolean",
    "C52_bit_zero",
    "C52_msb"
   ],
   "note": ""
  },
  {
   "property": "C53",
   "status": "proved",
   "theorems": [
    "C53_less_than",
    "C53_less_equal",
    "C53_less_than_public",
    "C53_quarter",
    "C53_equal"
   ],
   "note": ""
  },
  {
   "property": "C54",
   "status": "proved",
   "theorems": [
    "C54_select",
    "C54_select_boolean",
    "C54_maximum",
    "C54_cmp_swap",
    "C54_relu"
   ],
   "note": ""
  },
  {
   "property": "C55",
   "status": "proved",
   "theorems": [
    "C55_sort",
    "C55_sort_unpadded"
   ],
   "note": "Values strictly between -2^(n-2) and 2^(n-2) when the length is padded, exact differences otherwise."
  },
  {
   "property": "C56",
   "status": "partial",
   "theorems": [
    "C56_sort_one_refuted"
   ],
   "note": "False of the code: sorting an axis of length one raises ValueError (np.stack of no indices)."
  },
  {
   "property": "C57",
   "status": "proved",
   "theorems": [
    "C57_pow",
    "C57_pow_nonpositive",
    "C57_prod"
   ],
   "note": ""
  },
  {
   "property": "C58",
   "status": "partial",
   "theorems": [
    "C58_piecewise",
    "C58_piece_exists",
    "C58_polynomial_partial",
    "C58_polynomial_remote_refuted"
   ],
   "note": "The selection is proved for any shared values of the polynomials; the evaluation itself for integer coefficients of an unscaled value on co-located machines (fixed-point values with any coefficients are C108). polynomial raises on distinct machines (public zero plus constant term)."
  },
  {
   "property": "C59",
   "status": "proved",
   "theorems": [
    "C59_each_once",
    "C59_operations_disjoint",
    "C59_counters"
   ],
   "note": "For every program over the modelled operations except the cheetah truncation (see C60). One element per tensor: parts of one expansion are numbered by lane."
  },
  {
   "property": "C60",
   "status": "partial",
   "theorems": [
    "C60_mul_executions_refuted",
    "C60_and_executions_refuted",
    "C60_cheetah_refuted",
    "C60_share_fresh"
   ],
   "note": "False of the code: every execution of a compiled product or conjunction reuses the masks of its trace, and a server learns the difference of the unmasked local products; cheetah truncation expands one seed and nonce twice. Proved positive part: compiled sharings draw new seeds in every execution."
  },
  {
   "property": "C61",
   "status": "partial",
   "theorems": [
    "C61_inputs",
    "C61_computation",
    "C61_boolean_input",
    "C61_boolean_input_refuted",
    "C61_public_refuted"
   ],
   "note": "Proved when the share type of the inputs is that of the output; false otherwise (shares of a boolean sharing are added), and public arguments raise."
  },
  {
   "property": "C62",
   "status": "partial",
   "theorems": [
    "C62_normalise",
    "C62_top_half_refuted"
   ],
   "note": "false of the code as stated: proved below half of the advertised range (signed and non-negative), refuted for every value of the upper half, whose significand and exponent are both 0"
  },
  {
   "property": "C63",
   "status": "proved",
   "theorems": [
    "C63_whole_programs"
   ],
   "note": "Whole programs of the modelled private operations, without openings."
  },
  {
   "property": "C64",
   "status": "partial",
   "theorems": [
    "C64_predict_batches",
    "C64_predict_batches_list",
    "C64_predict",
    "C64_predict_outputs",
    "C64_predict_empty",
    "C64_fit_list",
    "C64_fit_private",
    "C64_fit_private_refuted",
    "C64_epochs_refuted",
    "C64_steps"
   ],
   "note": "Proved for predict and for the first epoch of fit on lists; false of fit on a private tensor (exactly the first ceil(features/batch) batches) and of every epoch but the first."
  },
  {
   "property": "C65",
   "status": "partial",
   "theorems": [
    "C65_flatten",
    "C65_channels_first_refuted"
   ],
   "note": "The property is false of the code: with channels_first the forward pass transposes and the backward pass does not (C65_channels_first_refuted, 2 channels of 2 positions). C65_flatten proves it for channels_last and for one channel or one position. Over real numbers."
  },
  {
   "property": "C66",
   "status": "partial",
   "theorems": [
    "C66_one_client",
    "C66_values",
    "C66_answers",
    "C66_sends_ahead_refuted",
    "C66_two_clients_refuted",
    "C66_mixed_refuted"
   ],
   "note": "Proved for one client, with absence of deadlock for run(); false for two clients on the same queues, who may receive each other's result or have their shares mixed."
  },
  {
   "property": "C67",
   "status": "partial",
   "theorems": [
    "C67_keys",
    "C67_computations",
    "C67_injective",
    "C67_randomness",
    "C67_any_randomness_refuted"
   ],
   "note": "Proved for randomness with an inverse modulo n; the library draws randomness from all of [0, n), where values without an inverse make decryption impossible. Negative scalars and the export to int32 are not modelled."
  },
  {
   "property": "C68",
   "status": "partial",
   "theorems": [
    "C68_divisors",
    "C68_accuracy",
    "C68_inverse",
    "C68_power_of_two_refuted"
   ],
   "note": "Proved for all decay rates below one that are no power of two; with a power of two the first step raises TypeError. Divisors are exact up to 2t units in the last place."
  },
  {
   "property": "C69",
   "status": "partial",
   "theorems": [
    "C69_local",
    "C69_local_device",
    "C69_remote",
    "C69_save_load"
   ],
   "note": "Names, indices and devices over all histories; false in one point: a saved configuration comes back with the job name tfe, so it survives exactly when it had that name."
  },
  {
   "property": "C70",
   "status": "partial",
   "theorems": [
    "C70_restores",
    "C70_inside",
    "C70_reentry_refuted"
   ],
   "note": "Proved for every nesting in which no protocol object is entered again while active; false for re-entry."
  },
  {
   "property": "C71",
   "status": "proved",
   "theorems": [
    "C71_sample_bounded_bijection"
   ],
   "note": ""
  },
  {
   "property": "C72",
   "status": "partial",
   "theorems": [
    "C72_helper_view_refuted",
    "C72_helper_learns_magnitude_refuted"
   ],
   "note": "False of the code: a zero at bit j in server 2's view occurs only when the value or its negative is at most 2**(j+1), so the view depends on the secret."
  },
  {
   "property": "C73",
   "status": "partial",
   "theorems": [
    "C73_native_bounded",
    "C73_int128_counts",
    "C73_int128_bounds",
    "C73_int128_bounded_refuted"
   ],
   "note": "Proved for native rings; false for int128, exact counts given."
  },
  {
   "property": "C74",
   "status": "partial",
   "theorems": [
    "C74_exact",
    "C74_error",
    "C74_round_trip_refuted"
   ],
   "note": "False of the code beyond 2**53: integer tensors pass through float64. Exact range and error bound proved."
  },
  {
   "property": "C75",
   "status": "partial",
   "theorems": [
    "C75_low_bits",
    "C75_bits_refuted"
   ],
   "note": "False of the code above 64 bits; exact result given. Proved up to 64."
  },
  {
   "property": "C76",
   "status": "partial",
   "theorems": [
    "C76_axis",
    "C76_negative_axis_refuted",
    "C76_stack",
    "C76_expand_dims"
   ],
   "note": "False of the code for axes below -1 and for stacking on the last axis; proved for the others."
  },
  {
   "property": "C77",
   "status": "partial",
   "theorems": [
    "C77_equal_same_shape",
    "C77_equal_lower_rank",
    "C77_equal_broadcast_refuted"
   ],
   "note": "False of the code when a one-element right operand has the rank of the left one (the process aborts)."
  },
  {
   "property": "C78",
   "status": "partial",
   "theorems": [
    "C78_convert_fresh",
    "C78_zeros_clean",
    "C78_convert_twice_refuted",
    "C78_zeros_after_sort_refuted"
   ],
   "note": "False of the code: to_private writes into the cached zero tensor. Proved for the first conversion and for zeros never written to."
  },
  {
   "property": "C79",
   "status": "partial",
   "theorems": [
    "C79_first_arguments",
    "C79_honoured",
    "C79_second_arguments_refuted"
   ],
   "note": "False of the code for transpose, strided_slice and stack on a tensor used before; exact result over any history proved; avgpool2d is right."
  },
  {
   "property": "C80",
   "status": "partial",
   "theorems": [
    "C80_failed_assign",
    "C80_torn_refuted"
   ],
   "note": "False of the int100 and boolean rings; proved for the native and int128 rings."
  },
  {
   "property": "C81",
   "status": "partial",
   "theorems": [
    "C81_dispatch",
    "C81_own_method_refuted"
   ],
   "note": "Proved for the operations of the shipped protocols over every history; false for methods only a user-defined protocol has."
  },
  {
   "property": "C82",
   "status": "partial",
   "theorems": [
    "C82_value",
    "C82_views",
    "C82_hidden",
    "C82_masked_refuted"
   ],
   "note": "Proved for masked=False and machines other than the servers and the producer; masked=True raises TypeError on every input."
  },
  {
   "property": "C83",
   "status": "proved",
   "theorems": [
    "C83_rerandomised"
   ],
   "note": "For randomness uniform over the units modulo n."
  },
  {
   "property": "C84",
   "status": "partial",
   "theorems": [
    "C84_history",
    "C84_hidden",
    "C84_hidden_refuted"
   ],
   "note": "False in general: the first call decides; exact statement over histories proved."
  },
  {
   "property": "C85",
   "status": "partial",
   "theorems": [
    "C85_list",
    "C85_private",
    "C85_default_refuted"
   ],
   "note": "Proved for lists with a batch size; exact for private tensors; the default raises TypeError."
  },
  {
   "property": "C86",
   "status": "partial",
   "theorems": [
    "C86_product",
    "C86_power_of_two_refuted",
    "C86_quotient"
   ],
   "note": "False for powers of two other than one."
  },
  {
   "property": "C87",
   "status": "partial",
   "theorems": [
    "C87_step",
    "C87_sgd",
    "C87_untrainable",
    "C87_normalisation_refuted",
    "C87_shared_layer_refuted"
   ],
   "note": "Proved over real numbers (no fixed-point error, exact sigmoid, exp and log) for models of distinct layer objects at points where no relu gets exactly 0, with losses of C88 that give their gradient and layers and loss agreeing on lazy_normalization (C87_sgd); C87_step gives the step without that agreement. False without it (C87_normalisation_refuted) and for a layer object used twice (C87_shared_layer_refuted). Convolutions and pooling are not in this model."
  },
  {
   "property": "C88",
   "status": "partial",
   "theorems": [
    "C88_gradient",
    "C88_binary_probabilities",
    "C88_binary_probabilities_refuted",
    "C88_categorical_probabilities_refuted",
    "C88_categorical_labels_refuted"
   ],
   "note": "Proved for MeanSquaredError, and for both cross entropies on logits (the categorical one for labels whose rows sum to one, false otherwise). False for both cross entropies on probabilities, which is their default: for the binary one the returned gradient is the gradient times p(1-p)."
  },
  {
   "property": "C89",
   "status": "partial",
   "theorems": [
    "C89_reciprocal",
    "C89_division",
    "C89_top_half_refuted"
   ],
   "note": "bounds proved below half of the advertised range; in the upper half the reciprocal is 0, so the bound over the whole advertised range is false of the code; the floating-point encoding of the constant 2.9281928 is modelled by its floor"
  },
  {
   "property": "C90",
   "status": "partial",
   "theorems": [
    "C90_log",
    "C90_smallest_refuted",
    "C90_top_half_refuted"
   ],
   "note": "false of the code as stated: proved above the smallest positive value and below half of the advertised range; refuted for the smallest positive value (off by 1.84 / log2 b) and for every value of the upper half (a large negative number is returned)"
  },
  {
   "property": "C91",
   "status": "proved",
   "theorems": [
    "C91_inv_sqrt",
    "C91_zero"
   ],
   "note": ""
  },
  {
   "property": "C92",
   "status": "proved",
   "theorems": [
    "C92_exp2",
    "C92_wraps",
    "C92_exp",
    "C92_top_unused"
   ],
   "note": "The bound e is dominated by a term that the code drops by mistake: the loop over the powers stops one short, so that the coefficient of the highest degree kept is never used (C92_top_unused). The methods as2019 and infinity are not modelled."
  },
  {
   "property": "C93",
   "status": "proved",
   "theorems": [
    "C93_softmax",
    "C93_single_refuted"
   ],
   "note": "The approx_type other than mp-spdz is not modelled. C93_single_refuted is the exception on rows of one entry."
  },
  {
   "property": "C94",
   "status": "proved",
   "theorems": [
    "C94_conv2d",
    "C94_conv2d_int100"
   ],
   "note": "tf.image.extract_patches, tf.reshape, tf.transpose and tf.matmul are modelled after their documentation. Truncation after a convolution of private tensors is the subject of the theorems on multiplication."
  },
  {
   "property": "C95",
   "status": "proved",
   "theorems": [
    "C95_conv_gradient",
    "C95_uncovered_refuted",
    "C95_strides_refuted"
   ],
   "note": "Exact arithmetic over a ring; truncation errors of fixed-point products are not part of the statement, and the division by the batch size is an arbitrary function. C95_uncovered_refuted is the AssertionError for windows that leave rows or columns uncovered; C95_strides_refuted is a silently wrong gradient for strides (3, 2)."
  },
  {
   "property": "C96",
   "status": "proved",
   "theorems": [
    "C96_average",
    "C96_max",
    "C96_same_negative_refuted"
   ],
   "note": "Exact arithmetic over a ring: the encoding of the scalar and truncation are not modelled. The position found by reduce_max_with_argmax is any function that finds a greatest entry. C96_same_negative_refuted is the deviation from TensorFlow under SAME padding."
  },
  {
   "property": "C97",
   "status": "proved",
   "theorems": [
    "C97_average",
    "C97_max",
    "C97_uncovered_refuted",
    "C97_global_average",
    "C97_global_max",
    "C97_strides_refuted",
    "C97_keepdims_refuted"
   ],
   "note": "Exact arithmetic over a ring, as for C95 and C96. The three _refuted theorems are the failures named in the statement; C97_uncovered_refuted holds for every layer and image with uncovered rows or columns."
  },
  {
   "property": "C98",
   "status": "proved",
   "theorems": [
    "C98_forward",
    "C98_padding_refuted",
    "C98_namesakes_refuted",
    "C98_gemm_refuted"
   ],
   "note": "Exact arithmetic over a ring: encoding, truncation and the protocol are not modelled here. The other kinds of nodes (pooling, batch normalization, reductions, reshaping by initializers, ...) are not modelled. The _refuted theorems are the failures named in the statement."
  },
  {
   "property": "C99",
   "status": "proved",
   "theorems": [
    "C99_backward",
    "C99_shared_refuted",
    "C99_bias_refuted"
   ],
   "note": "Exact arithmetic over a ring. Derivatives are stated with dual numbers; at 0 the slope of Relu is taken to be 0. The update of the weights by the optimizer is not modelled: the theorem is about the gradients that it gets."
  },
  {
   "property": "C100",
   "status": "proved",
   "theorems": [
    "C100_clone",
    "C100_weightless_refuted"
   ],
   "note": "Exact arithmetic over a ring: the errors of encoding and truncation (for instance of the product of the kernel and the mask in DepthwiseConv2D.set_weights) are not modelled. Activations and layers without weights are arbitrary functions here; several of them are the subject of other properties. The _refuted theorem is the failure named in the statement."
  },
  {
   "property": "C101",
   "status": "proved",
   "theorems": [
    "C101_set_weights"
   ],
   "note": "Exact arithmetic over a ring. All weights of one layer are of the same kind. The state after an exception is not modelled."
  },
  {
   "property": "C102",
   "status": "partial",
   "theorems": [
    "C102_own_weights",
    "C102_multiplier_refuted"
   ],
   "note": "Proved for depth multipliers equal to one; false for larger ones, as C102_multiplier_refuted shows. The weights are copies: that the code also changes the list it is given is the subject of C103."
  },
  {
   "property": "C103",
   "status": "partial",
   "theorems": [
    "C103_flat",
    "C103_nested",
    "C103_source_refuted",
    "C103_own_refuted",
    "C103_mixed_refuted",
    "C103_exchange_refuted"
   ],
   "note": "Proved for one list for the whole model and, apart from the given lists themselves, for one list for each layer. The _refuted theorems are the failures named in the statement. Shapes, and the denominator of normalizations, are in C101."
  },
  {
   "property": "C104",
   "status": "proved",
   "theorems": [
    "C104_sigmoid",
    "C104_zero",
    "C104_unknown"
   ],
   "note": "The derivative used in training and unscaled tensors are not covered. Polynomials of degree 0 only are not modelled."
  },
  {
   "property": "C105",
   "status": "partial",
   "theorems": [
    "C105_read",
    "C105_whole",
    "C105_short",
    "C105_again_refuted",
    "C105_unscaled_refuted",
    "C105_boolean_refuted"
   ],
   "note": "Proved for scaled arithmetic tensors. The _refuted theorems are the three failures named in the statement. Records are taken from the disk when the generator is made; failures of the file system are not modelled; iterate is C111."
  },
  {
   "property": "C106",
   "status": "proved",
   "theorems": [
    "C106_sigmoid",
    "C106_tanh",
    "C106_relu",
    "C106_log",
    "C106_sigmoid_far_refuted",
    "C106_tanh_far_refuted",
    "C106_relu_far_refuted"
   ],
   "note": "The polynomials of the source are fitted to wider ranges (the sigmoid to 8, relu to 10); there they fail because the coefficients of high degree are below the fixed-point resolution and are cut to 0: this is what the theorems named refuted show. The noninteractive truncation is not covered."
  },
  {
   "property": "C107",
   "status": "partial",
   "theorems": [
    "C107_int",
    "C107_public",
    "C107_sqrt",
    "C107_raises",
    "C107_float_refuted",
    "C107_large_refuted",
    "C107_unscaled_refuted"
   ],
   "note": "Proved for integers and public tensors as divisors; the _refuted theorems are the failures named in the statement. Floating point is a parameter with a relative error; its overflow is not modelled."
  },
  {
   "property": "C108",
   "status": "proved",
   "theorems": [
    "C108_power",
    "C108_power_small",
    "C108_polynomial",
    "C108_pieces",
    "C108_remote_refuted"
   ],
   "note": "The encoding of coefficients is a parameter with an error bound; cutting is such an encoding (C108_encodes). C108_remote_refuted is the failure on three machines. In the pieces, coefficient lists that are all constants are left out."
  },
  {
   "property": "C109",
   "status": "proved",
   "theorems": [
    "C109_function",
    "C109_debug",
    "C109_crossing",
    "C109_loop",
    "C109_graph_flags",
    "C109_flags_refuted"
   ],
   "note": "The body must be correct from every state of the random numbers, because a graph uses the nonces of its trace in every iteration (what this means for secrecy is C60). C109_flags_refuted is the failure for bodies that change a flag. Keyword arguments and dictionaries are not modelled."
  },
  {
   "property": "C110",
   "status": "partial",
   "theorems": [
    "C110_words",
    "C110_high_precision_refuted",
    "C110_prime_refuted"
   ],
   "note": "Holds share for share for 8, 16, 32 and 64-bit words; refuted for CRT tensors (raises) and for tensors modulo a prime (opens to another value). 128-bit words are not modelled."
  },
  {
   "property": "C111",
   "status": "proved",
   "theorems": [
    "C111_repeat",
    "C111_once",
    "C111_epoch_refuted",
    "C111_factory_refuted"
   ],
   "note": "TensorFlow's dataset operations (slices, repeat, shuffle, batch) are modelled from their documented behaviour, with the random numbers as an argument. C111_epoch_refuted and C111_factory_refuted prove the two last sentences. Rows without entries are not covered."
  },
  {
   "property": "C112",
   "status": "proved",
   "theorems": [
    "C112_polynomial",
    "C112_log",
    "C112_small_refuted",
    "C112_two_refuted"
   ],
   "note": "Room: 2k + 9 bits for arguments up to 1 (k fractional bits, at least 8). The two _refuted theorems show that the interval matters. Arguments without fixed-point scaling are not covered: the coefficients are then cut to integers."
  },
  {
   "property": "C113",
   "status": "proved",
   "theorems": [
    "C113_division",
    "C113_reciprocal",
    "C113_sqrt",
    "C113_unscaled_refuted",
    "C113_raises"
   ],
   "note": "C113_unscaled_refuted proves the sentence about integers. The floating-point casts are parameters with an error bound, met by exact arithmetic (C113_exact). Public dividends are not modelled; plain numbers as divisors are C86."
  },
  {
   "property": "C114",
   "status": "proved",
   "theorems": [
    "C114_move",
    "C114_move_public",
    "C114_concat",
    "C114_stack",
    "C114_split",
    "C114_concat_public",
    "C114_stack_public",
    "C114_split_public",
    "C114_pad",
    "C114_mixed_refuted",
    "C114_raises",
    "C114_gather_public",
    "C114_scaled_index_refuted"
   ],
   "note": "C114_mixed_refuted and C114_scaled_index_refuted prove the sentences about mixed lists and scaled indices. TensorFlow's kernels are described by the entry each result entry is copied from. Not covered: negative axes, -1 in shapes, several axes at once in slices and reverse, unequal parts in split, tensors of indices with several axes."
  },
  {
   "property": "C115",
   "status": "proved",
   "theorems": [
    "C115_reduce_sum",
    "C115_reduce_sum_public",
    "C115_reduce_all",
    "C115_scatter",
    "C115_scatter_public",
    "C115_scatter_distinct",
    "C115_boolean_refuted",
    "C115_wide_refuted"
   ],
   "note": "C115_wide_refuted and C115_boolean_refuted prove the last two sentences. Not covered: several axes at once, indices of more than one axis, public indices of other sizes than 64 bits, sums of all entries of public tensors."
  }
 ]
}