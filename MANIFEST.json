{"claims": [
{"property": "C01", "status": "proved", "theorems": ["C01_nat_f_nat", "C01_f_nat_f"], "note": "f_to_nat and nat_to_f as functions on Z and byte lists; both compositions are the identity, by the base-256 expansion of canonical elements."},
{"property": "C02", "status": "proved", "theorems": ["C02_nat_to_f_reduces", "C02_too_big_refuted"], "note": "Same functions; nat_to_f reduces modulo the field instead of returning None, so the two-way round trip is refuted for every number at or above the modulus."},
{"property": "C03", "status": "proved", "theorems": ["C03_f_to_usize", "C03_usize_roundtrip"], "note": "f_to_usize reads only the lowest byte after asserting the others are zero: exact success condition and round trip."},
{"property": "C04", "status": "proved", "theorems": ["C04_get_bit", "C04_get_bit_wrap", "C04_recompose"], "note": "get_bit on the byte representation equals Z.testbit, and summing the bits gives back the element (induction on the number of bits)."},
{"property": "C05", "status": "proved", "theorems": ["C05_split", "C05_join_split", "C05_error_iff"], "note": "nat_to_limbs / limbs_to_nat: digits in base 2^w, join after split is the identity, and the error occurs exactly when the number does not fit."},
{"property": "C06", "status": "proved", "theorems": ["C06_bit_sound", "C06_bit_complete", "C06_bit_not", "C06_bit_not_value", "C06_constrain", "C06_from_boolean", "C06_constant"], "note": "Bit::alloc, not, constrain_value: every satisfying assignment is 0/1, the honest run satisfies, negation flips value and wire."},
{"property": "C07", "status": "proved", "theorems": ["C07_fits_sound", "C07_fits_complete", "C07_fits_exact"], "note": "fits_in_bits: for every assignment, satisfiable by extension iff the wire value is below 2^n (soundness, completeness, exactness; induction on bits)."},
{"property": "C08", "status": "proved", "theorems": ["C08_fits_zero", "C08_zero_is_one"], "note": "With n = 0 the gadget still allocates bit 0, so it is the one-bit check."},
{"property": "C09", "status": "proved", "theorems": ["C09_decompose_sound", "C09_decompose_complete", "C09_decompose_exact", "C09_decompose_ambiguous", "C09_decompose_panics"], "note": "Num::decompose: bits recombine to the value modulo p; unique when 2^n <= p, a second decomposition is exhibited otherwise; panics listed."},
{"property": "C10", "status": "proved", "theorems": ["C10_histories", "C10_shl", "C10_shr", "C10_truncate", "C10_pop", "C10_get"], "note": "All finite histories of Bitvector operations keep wires and values aligned; each operation is characterised on the integers."},
{"property": "C11", "status": "proved", "theorems": ["C11_from_into", "C11_push_none_panics", "C11_get_panics"], "note": "from_bits after into_bits is the identity on bits and value; pushing a valueless bit panics."},
{"property": "C12", "status": "proved", "theorems": ["C12_product_sound", "C12_product_complete", "C12_product_empty"], "note": "alloc_product: every satisfying assignment has the convolution as coefficients (a polynomial of degree < n with n roots modulo p is zero), and the honest run satisfies."},
{"property": "C13", "status": "proved", "theorems": ["C13_evaluate", "C13_sum", "C13_product"], "note": "Evaluation and addition of polynomials over LCs evaluate to the field operations, for every assignment."},
{"property": "C14", "status": "proved", "theorems": ["C14_equals_sound", "C14_equals_complete"], "note": "equals returns a boolean equal to [a = b] in every satisfying assignment; honest run satisfies."},
{"property": "C15", "status": "proved", "theorems": ["C15_equal", "C15_equal_error"], "note": "equal: constraints hold iff limbs agree; different widths or counts are the stated error."},
{"property": "C16", "status": "proved", "theorems": ["C16_is_equal_sound", "C16_is_equal_complete", "C16_is_equal_error"], "note": "is_equal: result is the conjunction over limbs in every satisfying assignment, honest run satisfies, errors characterised."},
{"property": "C17", "status": "proved", "theorems": ["C17_alloc_from_nat", "C17_alloc_from_nat_error", "C17_alloc_from_limbs", "C17_alloc_from_limbs_error", "C17_from_limbs", "C17_alloc_from_nat_no_constraint", "C17_alloc_from_limbs_no_constraint"], "note": "Both allocation functions: values, limbs and parameters are consistent; exact error conditions; they emit no constraint, so limbs are free until checked."},
{"property": "C18", "status": "proved", "theorems": ["C18_from_num_sound", "C18_from_num_complete"], "note": "from_num ties the weighted limb sum to the number modulo p; completeness when it fits."},
{"property": "C19", "status": "proved", "theorems": ["C19_from_num_any", "C19_from_num_ambiguous", "C19_from_num_4x64"], "note": "Consequence of C18 modulo p: every limb vector with the right residue is accepted, so 4x64 limbs over a 255-bit field represent a number in more than one way."},
{"property": "C20", "status": "proved", "theorems": ["C20_well_formed_exact", "C20_well_formed_complete"], "note": "assert_well_formed holds iff all limbs are below 2^w (exact, both directions)."},
{"property": "C21", "status": "proved", "theorems": ["C21_decompose_sound", "C21_decompose_complete", "C21_recompose", "C21_recompose_panic", "C21_recompose_empty"], "note": "decompose and recompose preserve the number; panic conditions of recompose, and the one case where no bits are accepted (no overflow checks, one bit per limb)."},
{"property": "C22", "status": "proved", "theorems": ["C22_full_bits_sound", "C22_min_bits_sound", "C22_full_bits_honest", "C22_min_bits_honest", "C22_min_bits_short", "C22_min_bits_zero", "C22_min_bits_zero_unsat"], "note": "enforce_full_bits / enforce_min_bits: lower bound in every satisfying assignment; honest acceptance iff the bound holds; short operands and zero."},
{"property": "C23", "status": "proved", "theorems": ["C23_concat", "C23_concat_error"], "note": "concat is positional concatenation of limb lists; error on different widths."},
{"property": "C24", "status": "proved", "theorems": ["C24_truncate", "C24_truncate_values"], "note": "truncate_limbs keeps the low limbs and the residue modulo 2^(w*n)."},
{"property": "C25", "status": "proved", "theorems": ["C25_min_bits_add", "C25_min_bits_shift", "C25_min_bits_scale", "C25_min_bits_group", "C25_min_bits_with_n", "C25_min_bits_mult", "C25_min_bits_mux", "C25_min_bits_sub", "C25_truncate_refuted", "C25_scale_refuted"], "note": "The recorded min_bits stays a valid lower bound through add, shift, scale (nonzero), grouping, padding, mult, mux, sub; refuted for truncate_limbs and for scale by 0."},
{"property": "C26", "status": "proved", "theorems": ["C26_add", "C26_add_error", "C26_shift", "C26_shift_panic", "C26_scale", "C26_scale_panic", "C26_add_refuted"], "note": "add, shift, scale are exact while words stay below p; refuted beyond; panics listed."},
{"property": "C27", "status": "proved", "theorems": ["C27_group", "C27_group_panics"], "note": "group_limbs preserves the number and the word bound; when it panics."},
{"property": "C28", "status": "proved", "theorems": ["C28_sound", "C28_error"], "note": "Carry chain: every satisfying assignment makes the integers equal, under a no-wraparound condition on the field size (induction over limbs)."},
{"property": "C29", "status": "proved", "theorems": ["C29_complete", "C29_complete_any_count"], "note": "Honest run accepts equal numbers, same limb counts or zero excess limbs, under a room condition on the carry width."},
{"property": "C30", "status": "proved", "theorems": ["C30_exact", "C30_high_limb", "C30_carry_refuted"], "note": "Exact characterisation of accepted pairs; two families of equal numbers that are rejected."},
{"property": "C31", "status": "proved", "theorems": ["C31_sound", "C31_exact", "C31_complete", "C31_room_equal", "C31_room_product", "C31_room_mod", "C31_room_red"], "note": "Same for the regrouped comparison, plus lemmas that its size conditions hold for the operand shapes the library produces."},
{"property": "C32", "status": "proved", "theorems": ["C32_mult_sound", "C32_mult_complete", "C32_mult_pallas"], "note": "mult: soundness for all assignments, completeness, and the instance for the Pallas scalar field with 64-bit limbs."},
{"property": "C33", "status": "proved", "theorems": ["C33_mult_exact", "C33_mult_1x2_pallas"], "note": "Exact acceptance condition of mult; the 1x2-limb instance rejects every product of at least 2^128."},
{"property": "C34", "status": "proved", "theorems": ["C34_mult_mod_sound", "C34_mult_mod_complete", "C34_quotient_fits"], "note": "Division identity with range-checked quotient and remainder; honest run returns div and mod; condition for the quotient to fit."},
{"property": "C35", "status": "proved", "theorems": ["C35_mult_mod_any", "C35_mult_mod_refuted"], "note": "Every in-range pair satisfying the identity is accepted, hence remainder + modulus too (refutation of uniqueness)."},
{"property": "C36", "status": "proved", "theorems": ["C36_red_mod_sound", "C36_red_mod_complete", "C36_red_mod_refuted", "C36_assert_product_mod_sound", "C36_assert_product_mod_complete"], "note": "Same for red_mod (also refuted uniqueness) and assert_product_mod."},
{"property": "C37", "status": "proved", "theorems": ["C37_divides_sound", "C37_divides_complete", "C37_divides_error"], "note": "divides: soundness, honest completeness, error when the divisor does not divide."},
{"property": "C38", "status": "proved", "theorems": ["C38_min_complete", "C38_min_refuted"], "note": "Honest run returns the smaller operand; the constraints also accept the other one (refuted)."},
{"property": "C39", "status": "proved", "theorems": ["C39_n_bits", "C39_n_bits_panic", "C39_uncarried_refuted"], "note": "n_bits bounds carried numbers; refuted for uncarried ones; panic on empty numbers."},
{"property": "C40", "status": "proved", "theorems": ["C40_with_n_limbs", "C40_with_n_limbs_panic", "C40_one"], "note": "with_n_limbs pads with zeros or panics; one is 1."},
{"property": "C41", "status": "proved", "theorems": ["C41_mux_sound", "C41_mux_error", "C41_mux_complete"], "note": "mux: selected operand in every satisfying assignment, honest completeness, error on different widths."},
{"property": "C42", "status": "proved", "theorems": ["C42_mux_tree_sound", "C42_mux_tree_count", "C42_mux_tree_complete"], "note": "mux_tree: induction on the selector bits; wrong input counts are refused."},
{"property": "C43", "status": "proved", "theorems": ["C43_switch_sound", "C43_switch_complete"], "note": "switch: pair kept or swapped, soundness and completeness."},
{"property": "C44", "status": "proved", "theorems": ["C44_assert_equal_exact", "C44_assert_equal_error", "C44_inputize_exact", "C44_inputize_complete", "C44_as_nums_sound", "C44_as_nums_complete"], "note": "Wire equality, public inputs and as_nums: exact meaning of the emitted constraints and honest completeness."},
{"property": "C45", "status": "proved", "theorems": ["C45_once", "C45_alive_panics", "C45_free_borrow", "C45_closure_panics", "C45_from", "C45_history", "C45_history_from"], "note": "LazyCell as a state machine; invariant over all histories of borrows and drops, whose outcomes equal those of a separate two-line specification."},
{"property": "C46", "status": "proved", "theorems": ["C46_median_value", "C46_median_unique", "C46_median_empty"], "note": "Median of the sorted vector, characterised by counts and shown unique; panic on the empty vector."},
{"property": "C47", "status": "proved", "theorems": ["C47_less_than_exact"], "note": "Honest run of less_than equals x <? y up to 126 bits, for all operands in range and all fields large enough."},
{"property": "C48", "status": "proved", "theorems": ["C48_less_than_wide", "C48_leq_wide"], "note": "From 127 bits on the answer is always no (shift constant overflows its intended place)."},
{"property": "C49", "status": "proved", "theorems": ["C49_leq_exact"], "note": "Honest run of leq equals x <=? y up to 126 bits."},
{"property": "C50", "status": "proved", "theorems": ["C50_less_than_free", "C50_leq_free"], "note": "Both results satisfy the constraints for any operands (witness assignments constructed)."},
{"property": "C51", "status": "proved", "theorems": ["C51_median_formula", "C51_median_short", "C51_median_accepts", "C51_median_24_refuted", "C51_median_larger"], "note": "Honest result as a formula in the counts for every length below 2^32, specialised to <= 11 timestamps; accepted up to 23, refuted at 24."},
{"property": "C52", "status": "proved", "theorems": ["C52_calculate_complete", "C52_calculate_panics", "C52_calculate_sound", "C52_calculate_divisor_refuted"], "note": "Honest quotient, panics outside the span, what constraints imply, and the unenforced divisor."},
{"property": "C53", "status": "proved", "theorems": ["C53_verify_iff", "C53_verify_panics", "C53_verify_unenforced_refuted"], "note": "Honest run satisfies iff the new target is the floor quotient; prover can satisfy always."},
{"property": "C54", "status": "proved", "theorems": ["C54_hash_below_target", "C54_hash_positive", "C54_hash_far_refuted", "C54_hash_exact", "C54_hash_unenforced_refuted"], "note": "Module not compiled in; modelled with a namespace supplied for the missing argument. Exact region in which the comparison is right."},
{"property": "C55", "status": "proved", "theorems": ["C55_prev_hash_iff", "C55_prev_hash_whole", "C55_prev_hash_empty", "C55_prev_hash_unenforced_refuted"], "note": "Module not compiled in; honest run satisfies iff the zipped prefix agrees with SHA256d; unenforced."},
{"property": "C56", "status": "proved", "theorems": ["C56_synthesize_never_returns"], "note": "synthesize indexes an empty output vector: for every header, state and mode it panics."},
{"property": "C57", "status": "proved", "theorems": ["C57_shape_stops_early"], "note": "Without witnesses the step panics at the first assertion, after 262 constraints."},
{"property": "C58", "status": "proved", "theorems": ["C58_prev_accepts", "C58_prev_rejects", "C58_prev_high"], "note": "Exact acceptance of the previous-hash stage below 2^255 and both profiles above."},
{"property": "C59", "status": "proved", "theorems": ["C59_target_checked", "C59_target_unchecked", "C59_target_release", "C59_target_mostly", "C59_target_refuted"], "note": "Exact result of the nBits decoding in both profiles; never a correct non-zero target."},
{"property": "C60", "status": "proved", "theorems": ["C60_time_checked", "C60_time_unchecked", "C60_time_refuted"], "note": "Exact result of the timestamp decoding in both profiles; never a correct non-zero time."},
{"property": "C61", "status": "proved", "theorems": ["C61_work_panics", "C61_work_iff", "C61_work_exact", "C61_work_refuted"], "note": "Work constraint: honest satisfaction iff the product is the maximum target; free otherwise."},
{"property": "C62", "status": "proved", "theorems": ["C62_update_sound", "C62_update_iff", "C62_update_refuted", "C62_update_panics", "C62_update_small"], "note": "Target update stage: what the constraints force, exact honest condition, freedom, panics."},
{"property": "C63", "status": "proved", "theorems": ["C63_out_short", "C63_out_sound", "C63_out_complete", "C63_chain", "C63_chain_exists"], "note": "Output stage with a pre-sized vector, lifted to chains of any length by induction."},
{"property": "C64", "status": "proved", "theorems": ["C64_fits_in_bits", "C64_num_decompose", "C64_as_sapling", "C64_bit_alloc", "C64_alloc_product", "C64_alloc_from_nat", "C64_alloc_from_limbs", "C64_from_num", "C64_inputize", "C64_equal", "C64_equals", "C64_is_equal", "C64_assert_well_formed", "C64_bn_decompose", "C64_enforce_full_bits", "C64_enforce_min_bits", "C64_equal_when_carried", "C64_equal_when_carried_regroup", "C64_divides", "C64_sub", "C64_mult", "C64_assert_product_mod", "C64_mult_mod", "C64_red_mod", "C64_bn_min", "C64_mux", "C64_mux_default", "C64_mux_tree", "C64_switch", "C64_assert_equal", "C64_gadget_inputize", "C64_as_nums", "C64_less_than", "C64_leq", "C64_verify_median", "C64_verify_difficulty", "C64_calculate_difficulty", "C64_verify_current_hash", "C64_check_prev_hash", "C64_stage_prev_hash", "C64_stage_pow", "C64_stage_time", "C64_stage_work", "C64_stage_target_update", "C64_synthesize", "C64_concat", "C64_add", "C64_shift", "C64_scale", "C64_group_limbs", "C64_truncate_limbs", "C64_with_n_limbs", "C64_as_limbs", "C64_recompose"], "note": "Relational proof (sh): two runs on inputs that differ only in witness values emit identical constraint and name lists, for every gadget and stage."},
{"property": "C65", "status": "proved", "theorems": ["C65_is_equal_exact", "C65_is_equal_stale", "C65_is_equal_from_bits"], "note": "Num::is_equal compares LCs only; exact meaning, and the stale-value case after bit-vector operations."},
{"property": "C66", "status": "proved", "theorems": ["C66_mult_mod_short", "C66_red_mod_short"], "note": "One limb too few for the quotient when the bit counts align: the honest run fails."},
{"property": "C67", "status": "proved", "theorems": ["C67_sub_sound", "C67_sub_complete", "C67_sub_refuted", "C67_sub_any_refuted"], "note": "sub: exact if the result is range checked, honest completeness, wrap-around accepted otherwise."},
{"property": "C68", "status": "proved", "theorems": ["C68_regroup_refuted"], "note": "Concrete small-field numbers for which the regrouped comparison accepts different integers."},
{"property": "C69", "status": "proved", "theorems": ["C69_median_free"], "note": "Either result of the median check satisfies the constraints."},
{"property": "C70", "status": "proved", "theorems": ["C70_median_shape"], "note": "Panics without witnesses iff the vector is non-empty."},
{"property": "C71", "status": "proved", "theorems": ["C71_wide_panics"], "note": "Widths at or above NUM_BITS panic."},
{"property": "C72", "status": "proved", "theorems": ["C72_calculate_shape", "C72_verify_shape"], "note": "Both difficulty functions panic without witnesses."},
{"property": "C73", "status": "proved", "theorems": ["C73_presized_refuted", "C73_time_refuted"], "note": "Even with a pre-sized output vector the honest run panics."},
{"property": "C74", "status": "proved", "theorems": ["C74_pow_iff", "C74_pow_refuted", "C74_pow_high_refuted", "C74_pow_high", "C74_pow_no_target", "C74_pow_checked"], "note": "Exact condition of the proof-of-work stage, and rejection of every valid block."},
{"property": "C75", "status": "proved", "theorems": ["C75_prev_refuted", "C75_pow_refuted"], "note": "Stage constraints leave previous hash, target and hash free (assignments constructed)."},
{"property": "C76", "status": "proved", "theorems": ["C76_initial_state", "C76_epoch_refuted", "C76_initial_refuted"], "note": "Decimal constants parsed by the modelled from_str_vartime; the initial state is exact in every field of 208 bits, and the target update panics on every epoch start outside the span bounds."},
{"property": "C77", "status": "proved", "theorems": ["C77_eq_iff", "C77_eq_shape_refuted", "C77_eq_limbs_refuted", "C77_gadget_alloc", "C77_gadget_alloc_missing", "C77_display_iff", "C77_bits_display_iff", "C77_bits_display_digit"], "note": "PartialEq, Gadget::alloc and Display of BigNat and Display of Bitvector in BignatMisc.v; iff statements, and refutations for wires."},
{"property": "C78", "status": "proved", "theorems": ["C78_fits_in_bits", "C78_num_decompose", "C78_num_is_equal", "C78_as_sapling", "C78_num_alloc", "C78_bit_alloc", "C78_constrain_value", "C78_alloc_product", "C78_alloc_from_limbs", "C78_alloc_from_nat", "C78_from_num", "C78_inputize", "C78_equal", "C78_equals", "C78_is_equal", "C78_assert_well_formed", "C78_decompose", "C78_enforce_full_bits", "C78_enforce_min_bits", "C78_equal_when_carried", "C78_equal_when_carried_regroup", "C78_verify_mult", "C78_divides", "C78_sub", "C78_mult", "C78_assert_product_mod", "C78_mult_mod", "C78_red_mod", "C78_min", "C78_gadget_inputize", "C78_as_nums", "C78_mux", "C78_mux_default", "C78_mux_tree", "C78_switch", "C78_assert_equal", "C78_less_than", "C78_leq", "C78_verify_median", "C78_verify_difficulty_update", "C78_calculate_difficulty_update", "C78_verify_current_hash", "C78_check_prev_hash", "C78_synthesize", "C78_calls", "C78_twice"], "note": "TestCS.v models the two assertions on names; one theorem per gadget that the checked run is the plain run (a calculus of the name patterns used directly in a namespace, with decided disjointness and injectivity of decimal rendering), closure under calls in distinct namespaces, and the panic of a repeated one."},
{"property": "C79", "status": "proved", "theorems": ["C79_faithful_exists", "C79_bounds", "C79_exact", "C79_short", "C79_overflow", "C79_room_equal", "C79_room_product", "C79_room_mod", "C79_room_red", "C79_header_words", "C79_mult_pallas", "C79_shift_refuted", "C79_shift_exact"], "note": "Model/F64.v models to_f64, the doubling, the subtraction, ceil, the addition of 0.1 and the saturating cast with IEEE rounding, for any faithful log2 (shown to exist). Width against the exact one for all words below 2^1020; the words of full-limb operations have exact widths, which discharges the carry conditions of C31, C32, C52, C53 and C62; a shift by 2 whose honest comparison is rejected."},
{"property": "C80", "status": "proved", "theorems": ["C80_to_allocated_sound", "C80_to_allocated_complete", "C80_to_allocated_exists", "C80_to_allocated_missing", "C80_alloc_complete", "C80_alloc_free", "C80_alloc_fails", "C80_from_allocated", "C80_from_allocated_wire"], "note": "Soundness, honest completeness and extension of any assignment for as_sapling_allocated_num; the same for Num::alloc; From<AllocatedNum> keeps wire and value."},
{"property": "C81", "status": "proved", "theorems": ["C81_fits", "C81_num_decompose", "C81_equals", "C81_compare", "C81_alloc", "C81_inputize", "C81_as_nums", "C81_equal", "C81_is_equal", "C81_assert_equal", "C81_well_formed", "C81_decompose", "C81_from_num", "C81_full_bits", "C81_min_bits", "C81_product", "C81_carried", "C81_regrouped", "C81_mult", "C81_divides", "C81_sub", "C81_assert_product_mod", "C81_mult_mod", "C81_red_mod", "C81_mux", "C81_mux_tree", "C81_switch", "C81_min", "C81_median", "C81_current_hash", "C81_calculate_pallas", "C81_update_pallas"], "note": "Size calculus (Proofs/SizeP.v): exact numbers of inputs, auxiliary variables and constraints of every successful run, in either mode, against closed formulas in Spec/SpecSize.v. The SHA-256 gadget is one macro constraint in the model, so circuits containing it are not counted."},
{"property": "C82", "status": "proved", "theorems": ["C82_fits", "C82_decompose", "C82_well_formed", "C82_when_carried_total", "C82_when_carried", "C82_regroup", "C82_verify_mult", "C82_assert_product_mod"], "note": "Proofs/Total.v: a calculus of honest runs that ignores constraints (normal end on all values), combined with the soundness and completeness calculi into exact verdicts."},
{"property": "C83", "status": "proved", "theorems": ["C83_decomp", "C83_decomp_negative", "C83_bignat_decomp", "C83_quickcheck", "C83_carrier", "C83_carrier_lengths", "C83_mult_mod", "C83_polynomial", "C83_polynomial_empty", "C83_carrier_fr", "C83_quickcheck_fr", "C83_repo_tests"], "note": "Model/RepoTests.v models the test circuits and the circuit_tests! verdict; Proofs/DecP.v combines normal end, soundness and completeness of honest runs into exact verdicts; TestsFr.v discharges the size conditions over the test field with floating point carry widths."},
{"property": "C84", "status": "proved", "theorems": ["C84_median", "C84_equals", "C84_less_than", "C84_less_than_equal", "C84_fits_in_bits", "C84_difficulty", "C84_calc_new_target", "C84_hash_target", "C84_hash_previous", "C84_unit_tests"], "note": "Model/UnitTests.v models the tests as programs over their inputs; the outcomes follow from C14, C46, C47, C49, C51 to C55, C78 and C82."},
{"property": "C85", "status": "proved", "theorems": ["C85_verify_mult", "C85_mult", "C85_mult_mod", "C85_assert_product_mod", "C85_red_mod", "C85_mult_mod_prover", "C85_assert_product_mod_prover", "C85_red_mod_prover", "C85_divides", "C85_divides_prover"], "note": "Proofs/ExactP.v: the exact verdict calculus of C83 carried through the products and divisions with the excess limbs kept; the conditions of C33 to C37 and C82 (fits_groups) are sufficient cases of the exact ones in Spec/SpecExact.v."},
{"property": "C86", "status": "proved", "theorems": ["C86_calculate_decides", "C86_calculate_prover", "C86_update_decides", "C86_calculate_pallas", "C86_verify_pallas", "C86_update_pallas", "C86_calculate_fr"], "note": "Proofs/DiffExact.v and Proofs/HeaderExact.v: the verdict calculus of C83/C85 carried through the difficulty update; the Pallas and test-field forms discharge every side condition."},
{"property": "C87", "status": "proved", "theorems": ["C87_example_panics", "C87_setup_panics", "C87_prove_panics", "C87_step_panics"], "note": "Model/Driver.v models the program with Nova as an arbitrary record of functions; follows from C56 by the order of its steps."},
{"property": "C88", "status": "proved", "theorems": ["C88_sha256", "C88_exists", "C88_sha256d", "C88_prev_hash"], "note": "Spec/SpecSha.v transcribes the standard on bit lists, with the constants given by the root property; Proofs/ShaP.v proves the word-level model equal to it (bitwise lemmas, induction over schedule, rounds and blocks). The gadget's own constraints are treated in C89."},
{"property": "C89", "status": "proved", "theorems": ["C89_sound", "C89_macro", "C89_complete", "C89_extends", "C89_shape"], "note": "Model/ShaGadget.v transcribes bellpepper's gadget (Boolean xor/ch/maj, UInt32, MultiEq, schedule, rounds, padding). The rounds are proved once over an abstract program logic (Proofs/ShaLogic.v), instantiated for satisfied constraints, where sums are known only once the packed equality is emitted, and for a prover who picks each value at its allocation (Proofs/Ewp.v)."},
{"property": "C90", "status": "proved", "theorems": ["C90_same_text", "C90_prev_hash_sound", "C90_prev_hash_iff", "C90_prev_hash_fips", "C90_prev_hash_refuted", "C90_pow_iff", "C90_pow_refuted", "C90_pow_high", "C90_pow_checked", "C90_pow_free_refuted", "C90_synthesize_refuted"], "note": "Model/RealHash.v repeats the hashing circuits with the gadget as a parameter; C90_same_text ties them to the ones used elsewhere. Proofs/RealHashP.v asks three things of a gadget (honest, sound, extending), which C89 provides. Variables are named by position (Spec/SpecWires.v) so that soundness speaks of what the circuit really holds."},
{"property": "C91", "status": "proved", "theorems": ["C91_sha", "C91_check_prev_hash", "C91_stage_pow", "C91_setup", "C91_sha_names", "C91_check_prev_hash_names", "C91_synthesize_names"], "note": "The calculi of C64 and C78 (Proofs/ShapeP.v, Proofs/NamesP.v) extended to the gadget; setup is proved total through the shape mode of the logic of C89. Nothing is claimed of whole steps here beyond names, because a step never completes (C56)."},
{"property": "C92", "status": "proved", "theorems": ["C92_compress", "C92_sha_header", "C92_sha_digest", "C92_check_prev_hash", "C92_stage_prev_hash", "C92_stage_pow", "C92_stage_time", "C92_stage_work"], "note": "Proofs/ShaSize.v evaluates the gadget on the forms of its input bits (constant or wire), proves by simulation that the evaluation counts every successful run of the gadget, and computes it. A case of the proof-of-work stage needs a prime just above a hash, given with its certificate in Proofs/ShaSizeEx.v. 25840 constraints for one compressed block is also the figure recalled from the test of the gadget in bellpepper (not checked here)."},
{"property": "C93", "status": "proved", "theorems": ["C93_less_than", "C93_leq", "C93_verify_median_timestamp", "C93_verify_current_hash", "C93_verify_difficulty_update", "C93_calculate_difficulty_update", "C93_check_prev_hash", "C93_synthesize", "C93_synthesize_with"], "note": "A weakest precondition for runs in which no closure and no statement fails (Proofs/ErrP.v); an unwrapped call meets it by construction, so what remains are the last gadgets of less_than, leq and verify_current_hash, which are returned without unwrap and need values on the numbers allocated before."},
{"property": "C94", "status": "proved", "theorems": ["C94_as_limbs", "C94_as_limbs_setup", "C94_as_limbs_panics", "C94_round_trip", "C94_bound_refuted"], "note": "Exact evaluation of as_limbs (Proofs/AsLimbs.v)."},
{"property": "C95", "status": "proved", "theorems": ["C95_closure", "C95_closure_panics", "C95_exact", "C95_large_shift", "C95_update", "C95_update_panics", "C95_retarget_refuted"], "note": "Spec/SpecTarget.v states the closed form and Bitcoin's rule; Proofs/TargetP.v evaluates the closure and compares the two; Proofs/TargetTop.v carries the result to the stage over the Pallas scalar field. Replaces the hypothesis on the closure in C62 and C86 by a formula."},
{"property": "C96", "status": "proved", "theorems": ["C96_less_than_total", "C96_leq_total", "C96_less_than_when", "C96_leq_when", "C96_less_than_when_wide", "C96_leq_when_wide", "C96_last_width", "C96_254_panics"], "note": "Proofs/CmpP.v computes the shift constant for every width and turns the residue condition into intervals; drops the range hypotheses of C47-C49."},
{"property": "C97", "status": "proved", "theorems": ["C97_split_signed", "C97_alloc_signed", "C97_sub_verdict", "C97_sub_far", "C97_mult_far", "C97_assert_product_mod_far", "C97_mult_mod_zero", "C97_red_mod_zero", "C97_assert_product_mod_zero", "C97_divides_zero", "C97_widths"], "note": "Proofs/OutOfRange.v: nat_to_limbs takes residues of negative numbers; the decision calculus gives the verdict of sub on a borrow; the other cases run the head of the program."},
{"property": "C98", "status": "proved", "theorems": ["C98_equals", "C98_is_equal", "C98_as_nums", "C98_product", "C98_mux", "C98_switch", "C98_mux_tree", "C98_decompose", "C98_full_bits", "C98_min_bits"], "note": "Proofs/Relation.v: alternative assignments for each gadget (awp/pwp) joined with soundness (swp) into equivalences."},
{"property": "C99", "status": "proved", "theorems": ["C99_value", "C99_complete", "C99_exact", "C99_identity", "C99_identity_exact"], "note": "Spec/SpecExpr.v: expressions, denotation, size conditions; Proofs/Expr.v: induction over the expression with swp for every assignment and awp for honest and arbitrary provers. For arbitrary provers concatenation is left out because its recorded limb values have the wrong length when only the lower operand has values."},
{"property": "C100", "status": "proved", "theorems": ["C100_value", "C100_complete", "C100_any", "C100_power", "C100_power_complete", "C100_power_any", "C100_full_modulus"], "note": "Spec/SpecModular.v: operations, denotation, sizes, square and multiply; Proofs/Modular.v: induction over the sequence with swp and awp. A result need not be the least residue for a dishonest prover (C35), hence congruence; the honest value is the least residue."},
{"property": "C101", "status": "proved", "theorems": ["C101_bits", "C101_fits", "C101_range", "C101_number_bits", "C101_top_bits", "C101_from_num", "C101_copies", "C101_copy", "C101_poly", "C101_comparison", "C101_product", "C101_difference", "C101_choice", "C101_switch", "C101_tree", "C101_logic", "C101_equal", "C101_inverse_refuted", "C101_quotient", "C101_divides", "C101_mult_mod", "C101_red_mod", "C101_circuit"], "note": "Spec/SpecUnique.v: agreement of two assignments on the variables of a state; Proofs/Unique.v: a calculus (uwp) that runs a program under two assignments and collects the variables allocated; UniqueG, UniqueC, UniqueD: one lemma per gadget, from the soundness lemmas for both assignments; circuits by induction over the expression. The gadgets that do leave freedom are in C19, C35, C38, C50 and C67."},
{"property": "C102", "status": "proved", "theorems": ["C102_grow", "C102_values", "C102_before", "C102_local", "C102_init", "C102_sequence", "C102_alloc", "C102_bits", "C102_from_num", "C102_copies", "C102_poly", "C102_equality", "C102_arith", "C102_choice", "C102_logic", "C102_compare", "C102_difficulty", "C102_hash", "C102_step", "C102_reshape", "C102_chain", "C102_pipeline"], "note": "Spec/SpecScope.v: closed states, scoped calls, growth; Proofs/Scope.v: a calculus (kwp) over the set of variables of the final state and one lemma per gadget; ScopeH: comparison, difficulty, both hash gadgets, the step circuit; TopScope: the run lemma by induction over programs, growth, locality of satisfaction, chaining."},
{"property": "C103", "status": "proved", "theorems": ["C103_bits", "C103_hash", "C103_exactly_one", "C103_double", "C103_prev", "C103_prev_all", "C103_binding"], "note": "Proofs/UniqueSha.v: the uniqueness calculus of C101 for the operations on bits and words, the packed sums of the adder (a multi-bit sum with a bounded carry has one representation), and the instance of ShaLogic for whole messages; TopUniqueSha: hash, hash of hash, previous-hash check, binding to the hash up to a collision read off the assignments, existence by C89."},
{"property": "C104", "status": "proved", "theorems": ["C104_fields", "C104_alloc", "C104_equal", "C104_equal_honest", "C104_mult", "C104_mult_honest", "C104_mult_mod", "C104_mult_mod_honest", "C104_assert_product_mod", "C104_assert_product_mod_honest", "C104_red_mod", "C104_red_mod_honest", "C104_divides", "C104_divides_honest"], "note": "Proofs/Wide.v: with 64-bit limbs and a capacity of 236 to 255 bits the merged groups have 3 limbs (equality) or 2 (products), carries have room and do not wrap; the exact verdicts of C33, C82 and C85 then lose their side conditions. Fields and allocation are shown to meet the hypotheses."},
{"property": "C105", "status": "proved", "theorems": ["C105_chain_sound", "C105_chain_complete", "C105_chain_any", "C105_power_sound", "C105_power_complete", "C105_power_any"], "note": "Proofs/WidePower.v: every operation of a chain on equally many limbs meets the room and fit conditions of C100 (2n limbs are an even number), by induction on the chain."},
{"property": "C106", "status": "proved", "theorems": ["C106_exact", "C106_verdict", "C106_wide_exact", "C106_compare", "C106_honest", "C106_honest_verdict", "C106_unchecked"], "note": "Spec/SpecSub.v composes the two calls of the API. Proofs/CheckedSub.v: soundness and completeness of sub (C67) with an arbitrary in-range difference, the range check removing all others; limbs beyond the common groups are shown empty from the sizes of the integers."},
{"property": "C107", "status": "proved", "theorems": ["C107_exact", "C107_honest", "C107_power", "C107_power_honest"], "note": "Spec/SpecResidue.v composes the calls of the API. Proofs/Residue.v: the chain invariant of C105 (congruence, limbs in range) followed by the exact comparison of C106; completeness by the same program of wires as C105 with the digits of the difference appended."},
{"property": "C108", "status": "proved", "theorems": ["C108_exact", "C108_solvable", "C108_inverse", "C108_honest"], "note": "Spec/SpecCongruence.v composes the calls of the API; the claim is stated with Z.gcd, Z.divide and rel_prime of the standard library. Proofs/Congruence.v: soundness and completeness of assert_product_mod with an arbitrary in-range factor, Bezout for the existence of a solution below the modulus."},
{"property": "C109", "status": "proved", "theorems": ["C109_exact", "C109_composite", "C109_honest", "C109_verdict"], "note": "Spec/SpecComposite.v composes the calls of the API; the claim is stated with prime and Z.divide of the standard library. Proofs/Composite.v: soundness and completeness of the four calls in sequence, and the existence of a divisor not above the square root. The number c - 1 is a second input: the caller must establish the relation between the two."},
{"property": "C110", "status": "proved", "theorems": ["C110_exact", "C110_median", "C110_honest", "C110_verdict"], "note": "Spec/SpecOrder.v composes the calls of the API; the claim is stated with StronglySorted of the standard library. Proofs/Order.v: induction over the list with the exact comparison of C106."},
{"property": "C111", "status": "proved", "theorems": ["C111_exact", "C111_honest", "C111_verdict"], "note": "Spec/SpecOrder.v composes the calls of the API. Proofs/Order.v: the selection of C41 followed by two exact comparisons."},
{"property": "C112", "status": "proved", "theorems": ["C112_pick", "C112_member", "C112_verdict"], "note": "Spec/SpecTable.v composes the calls of the API. Proofs/Table.v: the selection of C42 both ways, with a bit list for each position, followed by limb-wise equality."},
{"property": "C113", "status": "proved", "theorems": ["C113_exact", "C113_median", "C113_honest"], "note": "Spec/SpecSort.v composes the calls of the API; the claim is stated with Permutation and StronglySorted of the standard library. Proofs/Sort.v: every switch permutes its two numbers, and C110 gives the order."},
{"property": "C114", "status": "proved", "theorems": ["C114_blocks", "C114_default", "C114_valid_refuted"], "note": "Spec/SpecNext.v states the conditions on the fields of the header bytes. Proofs/NextP.v uses the state of C76 and the digest computed with the SHA-256 that C88 relates to the standard."},
{"property": "C115", "status": "proved", "theorems": ["C115_only_times", "C115_low_bits", "C115_missing_panics"], "note": "Spec/SpecTimes.v names the eleven positions and what the state has there. Proofs/TimesP.v: the list of timestamps is computed entry by entry before the stage emits anything."}
]}
