{"claims": [
{"property": "C01", "status": "proved", "theorems": ["C01_set_be_bit", "C01_set_le_bit", "C01_get_be_bit", "C01_get_le_bit", "C01_mirror", "C01_out_of_range"], "note": ""},
{"property": "C02", "status": "proved", "theorems": ["C02_xor_be_bit", "C02_xor_le_bit"], "note": ""},
{"property": "C03", "status": "proved", "theorems": ["C03_bitstream_history", "C03_room_and_data"], "note": ""},
{"property": "C04", "status": "proved", "theorems": ["C04_writebits_readbits", "C04_writebytes_readbytes", "C04_putbyte_getbyte", "C04_one_call"], "note": ""},
{"property": "C05", "status": "proved", "theorems": ["C05_crc_table_is_bit_serial", "C05_reset"], "note": ""},
{"property": "C06", "status": "proved", "theorems": ["C06_crc_linear", "C06_crc_remainder", "C06_crc_residue", "C06_crc_residue_word", "C06_crc_burst"], "note": ""},
{"property": "C07", "status": "proved", "theorems": ["C07_xorshift32_full_period", "C07_xorshift32_bijection"], "note": ""},
{"property": "C08", "status": "proved", "theorems": ["C08_xorshift64_full_period", "C08_xorshift64_bijection"], "note": ""},
{"property": "C09", "status": "proved", "theorems": ["C09_xorshift128_period"], "note": ""},
{"property": "C10", "status": "proved", "theorems": ["C10_xorwow_period"], "note": ""},
{"property": "C11", "status": "proved", "theorems": ["C11_bad_decides_maximality", "C11_balanced"], "note": "polynomials of degree 1..30 held in a non-negative int"},
{"property": "C12", "status": "proved", "theorems": ["C12_exclusive_reduce"], "note": ""},
{"property": "C13", "status": "proved", "theorems": ["C13_interleave_positions", "C13_deinterleave_undoes_interleave", "C13_interleave_undoes_deinterleave"], "note": ""},
{"property": "C14", "status": "proved", "theorems": ["C14_shuffle_roundtrip", "C14_unshuffle_roundtrip"], "note": ""},
{"property": "C15", "status": "proved", "theorems": ["C15_bit_reversal", "C15_reversed_index_exists"], "note": ""},
{"property": "C16", "status": "proved", "theorems": ["C16_rotate_portable", "C16_rotate_neon", "C16_rotate_sse", "C16_rotate_avx2", "C16_rotate_undo", "C16_rotate_undo_tables"], "note": ""},
{"property": "C17", "status": "proved", "theorems": ["C17_insertion_sort"], "note": "every strict weak ordering, any surrounding memory"},
{"property": "C18", "status": "proved", "theorems": ["C18_index_sort", "C18_vorder"], "note": "permutation, content, and index order of equivalent elements"},
{"property": "C19", "status": "proved", "theorems": ["C19_merge_sort"], "note": "lengths for which the int arithmetic does not overflow (3n and n+M at most INT_MAX)"},
{"property": "C20", "status": "proved", "theorems": ["C20_polynomial_arithmetic", "C20_field", "C20_two_generates", "C20_accepts_exactly_primitive", "C20_negation"], "note": "tables constructor, all value operators; field axioms on the value type"},
{"property": "C21", "status": "proved", "theorems": ["C21_index_operators", "C21_value_and_mixed_operators", "C21_fma"], "note": "every index/value/mixed operator and fma overload"},
{"property": "C22", "status": "proved", "theorems": ["C22_reference_arithmetic", "C22_reference_agrees_with_tables"], "note": "loop of rcp bounded by explicit fuel > 2M, proved sufficient"},
{"property": "C23", "status": "proved", "theorems": ["C23_ring_operators", "C23_pow_rcp_div", "C23_assign_operators"], "note": "PrimeField arithmetic for every prime and word type wide enough for the products"},
{"property": "C24", "status": "proved", "theorems": ["C24_any_blocks_recover", "C24_each_block_recovers", "C24_bad_identifier_aborts"], "note": "every accepted field, every set and order of distinct identifiers, every instruction set"},
{"property": "C25", "status": "proved", "theorems": ["C25_simd8_equals_scalar", "C25_simd16_equals_scalar", "C25_dispatch_unobservable"], "note": "NEON, SSE4.1 and AVX2 variants"},
{"property": "C26", "status": "proved", "theorems": ["C26_any_blocks_recover", "C26_no_overflow_encode", "C26_no_overflow_decode", "C26_bad_arguments_abort"], "note": "every prime with (P-1)^2(P-2)(P-3) < 2^w; both shipped instances shown to qualify"},
{"property": "C27", "status": "proved", "theorems": ["C27_encoder", "C27_decoder_is_maximum_likelihood", "C27_unrolled_equal_general", "C27_roundtrip", "C27_one_bit_undefined"], "note": "K from 2 to 24 (above that the int sums could overflow)"},
{"property": "C28", "status": "proved", "theorems": ["C28_encoder", "C28_decoder_is_maximum_likelihood", "C28_unrolled_equal_general", "C28_roundtrip"], "note": "K from 2 to 23"},
{"property": "C29", "status": "proved", "theorems": ["C29_constructors", "C29_encoder_systematic", "C29_encoder_onto", "C29_encoder_linear", "C29_encoder_soft"], "note": "static_assert limits and deg G = N-K are hypotheses"},
{"property": "C30", "status": "proved", "theorems": ["C30_hard_decoder", "C30_corrects", "C30_codeword_unchanged"], "note": "the distance of the code is a hypothesis, discharged for BCH(15,5) in distance_15_5"},
{"property": "C31", "status": "proved", "theorems": ["C31_soft_decoder", "C31_maximum_likelihood", "C31_roundtrip"], "note": "soft values in int8 range; left shift of the sign has its C++20 meaning"},
{"property": "C32", "status": "proved", "theorems": ["C32_encoder_makes_codewords", "C32_parity_unique", "C32_codeword_passes"], "note": "encoder yields codewords, parity unique, codewords pass unchanged"},
{"property": "C33", "status": "proved", "theorems": ["C33_corrects_errors_and_erasures", "C33_no_exception"], "note": "exact condition, exception = C55"},
{"property": "C34", "status": "proved", "theorems": ["C34_total_and_failure_changes_nothing"], "note": ""},
{"property": "C35", "status": "proved", "theorems": ["C35_codeword_if_erasures_use_the_checks"], "note": "general claim refuted by C35_counterexample (a proved Example)"},
{"property": "C36", "status": "proved", "theorems": ["C36_packed_encoder", "C36_wrong_degree_rejected", "C36_reference_encoder", "C36_parity_unique", "C36_packed_equals_reference"], "note": "The reference encoder theorem needs every polynomial to be at least 2 (a trivial polynomial 1 after a full product makes the C++ constructor read one past its array) and below 2^(M+1), which the code asserts."},
{"property": "C37", "status": "proved", "theorems": ["C37_multiples_are_codewords", "C37_packed_corrects", "C37_reference_corrects", "C37_unlucky_pair_refused", "C37_packed_total_and_failure_changes_nothing", "C37_reference_total_and_failure_changes_nothing"], "note": "As for Reed-Solomon codes the claim has one exception, the unlucky pairs of C55 (only in fields where y(y+1)=2^M-1 is solvable), for which refusal is proved. N = 2^M-1 is the code length the class computes with; shortened lengths are covered by len."},
{"property": "C38", "status": "proved", "theorems": ["C38_encoder_satisfies_every_check", "C38_parity_is_determined", "C38_encoder_is_linear"], "note": "every well-formed table; the checks determine the parity, and the encoder is linear"},
{"property": "C39", "status": "proved", "theorems": ["C39_result_tells_whether_all_checks_hold", "C39_encoded_words_pass"], "note": "a zero soft value counts as a failed check"},
{"property": "C40", "status": "proved", "theorems": ["C40_encoder_is_the_transform", "C40_transform_involution", "C40_reads_exactly_the_unfrozen"], "note": "PolarEncoder<int8_t>, levels 1..30"},
{"property": "C41", "status": "proved", "theorems": ["C41_systematic"], "note": "PolarSysEnc<int8_t>; C41_needs_closure shows the closure hypothesis matters"},
{"property": "C42", "status": "proved", "theorems": ["C42_noiseless", "C42_other_levels_refused"], "note": "PolarDecoder<int8_t>, levels 5..20, any earlier object contents"},
{"property": "C43", "status": "proved", "theorems": ["C43_shortcuts_change_nothing"], "note": "Equality up to and including the first tie, full equality without ties; C43_ties_differ shows that after a tie the shortcuts do change later symbols"},
{"property": "C44", "status": "proved", "theorems": ["C44_every_lane_is_a_path", "C44_complete_list", "C44_most_likely", "C44_all_frozen_undefined"], "note": "Both back ends, any list width up to 256, levels 5..MAX_M. Lanes hold distinct messages with their codewords and exact path costs; unused lanes carry the penalty 1000000. Order of lanes proved when the last position is not frozen (counterexample otherwise); exact count of real lanes for level <= 12; with no message symbols the call is undefined."},
{"property": "C45", "status": "proved", "theorems": ["C45_noiseless", "C45_other_levels_refused"], "note": "Lane 0 recovers the message from any values with the signs of a codeword; levels outside 5..MAX_M abort."},
{"property": "C46", "status": "proved", "theorems": ["C46_encoder", "C46_parity_symbols", "C46_lanes_obey_parity", "C46_noiseless", "C46_complete_list", "C46_most_likely"], "note": "Parity encoder and decoder; first = 0 makes the decoder read in front of the message array."},
{"property": "C47", "status": "proved", "theorems": ["C47_freezer", "C47_const0", "C47_const0_double", "C47_refused"], "note": "IEEE double arithmetic via Coq.Floats.SpecFloat (executable, no axioms) and any other arithmetic; std::nth_element is any function meeting the standard's postcondition. Holds for every probability incl. NaN."},
{"property": "C48", "status": "proved", "theorems": ["C48_sequence", "C48_sequence_double", "C48_refused"], "note": "std::sort is any function meeting the standard's postcondition."},
{"property": "C49", "status": "proved", "theorems": ["C49_linear_encoder"], "note": "any binary matrix; example shows what non-binary values do"},
{"property": "C50", "status": "proved", "theorems": ["C50_generator_matrix", "C50_generator_polynomial", "C50_wrong_polynomials_rejected"], "note": "K < N, odd polynomials larger than 1; polynomial 1 after a complete product reads before the array (example)"},
{"property": "C51", "status": "proved", "theorems": ["C51_ordered_statistics", "C51_basis_unique", "C51_maximum_likelihood"], "note": "also characterises the returned flag when the best correlation is not negative (example shows it is wrong otherwise)"},
{"property": "C52", "status": "proved", "theorems": ["C52_ordered_statistics_list"], "note": "entries with non-negative correlation; entries below that are not ordered by the code (example)"},
{"property": "C53", "status": "proved", "theorems": ["C53_saturating", "C53_saturating_unsigned", "C53_wrapping", "C53_sign", "C53_order", "C53_masks", "C53_bitwise", "C53_select", "C53_reinterpret", "C53_shuffle", "C53_narrow_defined", "C53_wide", "C53_wide_unary"], "note": "Integer lanes of 8 to 64 bits, any number of lanes. Floating point lanes are not part of this property."},
{"property": "C54", "status": "proved", "theorems": ["C54_x86_saturating", "C54_x86_arith", "C54_x86_sign", "C54_x86_order", "C54_x86_compare", "C54_x86_bitwise", "C54_x86_dup", "C54_x86_reinterpret", "C54_neon_saturating", "C54_neon_arith", "C54_neon_sign", "C54_neon_order", "C54_neon_compare", "C54_neon_bitwise", "C54_neon_dup", "C54_sse_shuffle", "C54_avx2_shuffle", "C54_avx2_shuffle32", "C54_neon_shuffle", "C54_neon32_shuffle", "C54_shuffle_signed", "C54_x86_shuffle_out_of_range"], "note": "Intrinsics modelled on integers as registers after their documentation. C54_x86_shuffle_out_of_range shows that the index bounds are sharp: between WIDTH and 111 + WIDTH the x86 shuffles differ from the portable code."},
{"property": "C55", "status": "proved", "theorems": ["C55_unlucky_pair_refused"], "note": "defect of the code; concrete GF(32) case in C55_nonvacuous"},
{"property": "C56", "status": "proved", "theorems": ["C56_layer_is_offset_min_sum"], "note": ""},
{"property": "C57", "status": "proved", "theorems": ["C57_one_writer_per_word_initially", "C57_single_links_always_write", "C57_masks_turn_once_per_iteration", "C57_one_writer_stays", "C57_two_writers_after_one_iteration"], "note": "C57_masks_turn_once_per_iteration says exactly how the permission to write moves on; one writer per word persists where the last two links of a check share a word (or no links do), and C57_two_writers_after_one_iteration shows that it is lost otherwise"},
{"property": "C58", "status": "proved", "theorems": ["C58_only_the_masks_carry_over", "C58_reuse_without_shared_words", "C58_second_call_differs"], "note": ""},
{"property": "C59", "status": "proved", "theorems": ["C59_lanes_decode_independently"], "note": "PolarDecoder<SIMD<int8_t, W>>, both variants of the helper"},
{"property": "C60", "status": "proved", "theorems": ["C60_exact_freezer_closed", "C60_exact_const0_closed"], "note": "Exact rational arithmetic; Examples C60_double_underflow/C60_double_ties show that doubles can break it."},
{"property": "C61", "status": "proved", "theorems": ["C61_encoders_agree"], "note": "LinearEncoder with the systematic matrix = packed BCH encoder"},
{"property": "C62", "status": "proved", "theorems": ["C62_minimum_distance", "C62_detects", "C62_syndromes_notice", "C62_encoder_distance", "C62_bch_encoder_distance"], "note": "minimum distance NR+1 of every Reed-Solomon and BCH code; compute_syndromes notices 1..NR wrong symbols"},
{"property": "C63", "status": "proved", "theorems": ["C63_autocorrelation", "C63_windows"], "note": "periodic autocorrelation -1 and every non-zero n-bit window exactly once per period"},
{"property": "C64", "status": "proved", "theorems": ["C64_float_encoder", "C64_float_systematic", "C64_float_noiseless", "C64_float_shortcuts", "C64_float_lanes_encode", "C64_float_lanes_decode"], "note": "Floats are Coq's SpecFloat (round to nearest even, NaNs without payload or sign), any format with 1 < prec < emax; non-vacuity: C64_nonvacuous for float and double with infinities, subnormals and the largest numbers"},
{"property": "C65", "status": "proved", "theorems": ["C65_quant_nearest", "C65_quant_special", "C65_quant_monotone", "C65_quant_odd"], "note": "exact values of floats as rationals; std::nearbyint in the default rounding mode"},
{"property": "C66", "status": "proved", "theorems": ["C66_hadamard_distance", "C66_simplex_distance", "C66_hadamard_corrects", "C66_simplex_corrects", "C66_hadamard_errors_and_erasures", "C66_simplex_errors_and_erasures"], "note": "non-vacuity: C66_nonvacuous"},
{"property": "C67", "status": "proved", "theorems": ["C67_odd_errors", "C67_two_errors", "C67_two_errors_reach", "C67_three_errors"], "note": "Bits fed one at a time; C05 carries it over to bytes and words."},
{"property": "C68", "status": "proved", "theorems": ["C68_test_codes_distance", "C68_test_codes_correct", "C68_golay_perfect", "C68_soft_decoder_flips", "C68_weak_first_position"], "note": "C68_weak_first_position records a quirk of the code (worst[] initialised with zeros)."},
{"property": "C69", "status": "proved", "theorems": ["C69_best_codeword_found", "C69_best_codeword_leads_list", "C69_guaranteed_correction", "C69_sufficient_order", "C69_corrects_half_distance", "C69_noiseless", "C69_rank_deficient_rejected", "C69_rank_deficient_rejected_list", "C69_bch_distance"], "note": ""},
{"property": "C70", "status": "proved", "theorems": ["C70_arithmetic", "C70_abs_copysign", "C70_compare", "C70_signum", "C70_sign", "C70_order", "C70_dup", "C70_minimum_maximum", "C70_shuffle", "C70_portable_masks", "C70_reinterpret"], "note": "32 bit ARM NEON, which flushes subnormals to zero, is not modelled; the differences on NaN and signed zeros are stated and exhibited (C70_differences)."},
{"property": "C71", "status": "proved", "theorems": ["C71_decode_x86", "C71_decode_neon", "C71_encode"], "note": "infinities and NaN are outside the decoder theorem (inf - inf is NaN, on which signum differs between the back ends, see C70_differences)"},
{"property": "C72", "status": "proved", "theorems": ["C72_every_lane_is_a_path", "C72_complete_list", "C72_all_frozen_undefined", "C72_other_levels_refused", "C72_noiseless", "C72_parity_encoder", "C72_lanes_obey_parity", "C72_parity_noiseless", "C72_parity_complete_list"], "note": "C72_large_values_crowd_out shows that the bound on the costs is needed; order and noiseless decoding need finite received values below the overflow bound (moderate)"},
{"property": "C73", "status": "proved", "theorems": ["C73_results_in_range", "C73_reset_is_construction", "C73_every_value_once", "C73_xorshift128_four_results", "C73_xorwow_five_results"], "note": ""},
{"property": "C74", "status": "proved", "theorems": ["C74_any_blocks_recover_bytes", "C74_any_bytes_recover", "C74_each_block_recovers_bytes", "C74_odd_length_aborts"], "note": ""},
{"property": "C75", "status": "proved", "theorems": ["C75_tables_are_well_formed", "C75_encode_and_decode", "C75_reuse_without_shared_words", "C75_distinct_words", "C75_shared_words", "C75_reuse"], "note": "C75_shared_words shows for which tables and word sizes the reuse argument does not apply"},
{"property": "C76", "status": "proved", "theorems": ["C76_errors_do_not_depend_on_the_codeword", "C76_success", "C76_lanes", "C76_float"], "note": "int8 values -127..127 as the quantizer produces; float theorem about signs of the message symbols"},
{"property": "C77", "status": "proved", "theorems": ["C77_errors_do_not_depend_on_the_codeword", "C77_success", "C77_reuse", "C77_list"], "note": "Zero soft values at ones of the codeword are excluded (C77_erasures_differ shows why). List entries beyond the filled ones hold earlier contents, see C52."},
{"property": "C78", "status": "proved", "theorems": ["C78_reed_solomon", "C78_bch_packed", "C78_bch_reference"], "note": "any error word, also beyond the capability"},
{"property": "C79", "status": "proved", "theorems": ["C79_short_bch_hard", "C79_short_bch_soft", "C79_short_bch_soft_search", "C79_hadamard", "C79_simplex"], "note": "the exception of the soft search is exhibited (C79_soft_search_depends_on_the_codeword)"},
{"property": "C80", "status": "proved", "theorems": ["C80_every_life_is_the_same", "C80_only_one_at_a_time", "C80_second_object_aborts", "C80_without_object"], "note": ""},
{"property": "C81", "status": "proved", "theorems": ["C81_first_difference", "C81_minimum_distance", "C81_distance_is_attained", "C81_systematic", "C81_parity_aided", "C81_nearest_codeword"], "note": ""},
{"property": "C82", "status": "proved", "theorems": ["C82_burst_of_errors", "C82_burst_of_erasures"], "note": ""},
{"property": "C83", "status": "proved", "theorems": ["C83_decoding_erasures", "C83_chance_of_a_position", "C83_chance_of_failure", "C83_freezer", "C83_const0_least"], "note": "exact arithmetic; the roundings of double are not covered"},
{"property": "C84", "status": "proved", "theorems": ["C84_const0_nested", "C84_freezer_is_const0", "C84_freezer_nested", "C84_sequence_gives_const0"], "note": ""},
{"property": "C85", "status": "proved", "theorems": ["C85_complete_list_corrects", "C85_errors_and_erasures", "C85_systematic", "C85_parity_aided"], "note": "Examples C85_nonvacuous and C85_bound_is_sharp."},
{"property": "C86", "status": "proved", "theorems": ["C86_list", "C86_parity", "C86_every_lane_is_a_path", "C86_complete_list", "C86_lanes_obey_parity"], "note": "Hypotheses met in C86_nonvacuous (AVX2, SSE, NEON) and C86_parity_nonvacuous (double, SSE and NEON). Equality with the decoder on lists of lanes is one way: whenever that one ends (C72 shows it does under its buffer sizes)."},
{"property": "C87", "status": "proved", "theorems": ["C87_permutation", "C87_freezes_the_first", "C87_nested", "C87_closed", "C87_systematic", "C87_not_systematic_below_26", "C87_distance", "C87_distance_is_attained"], "note": "Finding: tests/polar_list_regression_test.cc with its systematic switch on would fail its own assertion for N - K between 1 and 25."},
{"property": "C88", "status": "proved", "theorems": ["C88_attach", "C88_selects_the_first", "C88_passing_words", "C88_near_lanes_are_refused", "C88_noiseless_parity", "C88_noiseless", "C88_any_received", "C88_any_received_plain"], "note": "The random data, channel and statistics of the test are not modelled."},
{"property": "C89", "status": "proved", "theorems": ["C89_one_path", "C89_one_path_parity", "C89_like_the_plain_decoder"], "note": "8 bit soft values."},
{"property": "C90", "status": "proved", "theorems": ["C90_noiseless", "C90_what_comes_out", "C90_undecided", "C90_errors_do_not_depend_on_the_data", "C90_success"], "note": "8 bit soft values, scalar decoder."},
{"property": "C91", "status": "proved", "theorems": ["C91_what_comes_out", "C91_noiseless", "C91_noiseless_crc", "C91_any_received_crc"], "note": "8 bit soft values."},
{"property": "C92", "status": "proved", "theorems": ["C92_errors_do_not_depend_on_the_codeword", "C92_same_wrong_bits_for_all_codewords"], "note": "Hypothesis: no 8 bit operation of the run on the unturned values goes beyond +-127 (the fixed 127 that stands for the missing parity before the first is exempt)."}
]}
