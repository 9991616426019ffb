{
 "claims": [
  {
   "property": "C01",
   "status": "partial",
   "theorems": [
    "C01_uniform_int_range_partial",
    "C01_uniform_int_no_overflow",
    "C01_uniform_int_range_refuted"
   ],
   "note": "Proved for all widths, ranges and engine streams except b-a+1 a proper power of the number of engine values with a<>0 and [a,b] not the whole type; refuted there (line 123 returns without adding the minimum). Absence of UB proved without exception."
  },
  {
   "property": "C02",
   "status": "partial",
   "theorems": [
    "C02_uniform_int_uniform_partial",
    "C02_uniform_int_onto_partial",
    "C02_uniform_int_uniform_refuted"
   ],
   "note": "Exact equality of the number of accepted n-tuples for every n and onto, with the same exception as C01, refuted there."
  },
  {
   "property": "C03",
   "status": "proved",
   "theorems": [
    "C03_uniform_int_min_draws",
    "C03_uniform_int_attempt",
    "C03_uniform_int_accepts",
    "C03_uniform_int_no_dead_end",
    "C03_least_draws_exists"
   ],
   "note": "Least number of draws, bound per attempt, an accepted tuple, no dead end, recursion depth 2; engines with at least two values."
  },
  {
   "property": "C04",
   "status": "proved",
   "theorems": [
    "C04_smallint_one_draw",
    "C04_smallint_counts"
   ],
   "note": "Integral engines; exact count for each value."
  },
  {
   "property": "C05",
   "status": "proved",
   "theorems": [
    "C05_random_number_generator_range",
    "C05_random_number_generator_uniform",
    "C05_random_number_generator_onto"
   ],
   "note": "Range, uniformity and onto for every positive n."
  },
  {
   "property": "C06",
   "status": "partial",
   "theorems": [
    "C06_lcg_recurrence_partial",
    "C06_exact_small_moduli",
    "C06_exact_power_of_two",
    "C06_lcg_recurrence_refuted"
   ],
   "note": "Proved for every modulus whose 64-bit products are reduced exactly (all m<=2^32, all powers of two incl. m=0, digit condition safe_mod, small products, Schrage); refuted for uint64 m=2^61-1: const_mod::mult via muldivmod returns a wrong residue."
  },
  {
   "property": "C07",
   "status": "partial",
   "theorems": [
    "C07_lcg_range_partial",
    "C07_lcg_max_is_modulus_minus_1",
    "C07_lcg_range_refuted"
   ],
   "note": "Proved for c<>0 or gcd(a,m)=1; refuted for c=0 with a not coprime to m (output 0 < min())."
  },
  {
   "property": "C08",
   "status": "partial",
   "theorems": [
    "C08_lcg_discard_partial",
    "C08_lcg_discard_prime",
    "C08_lcg_discard_pow2",
    "C08_lcg_discard_refuted",
    "C08_lcg_discard_nilpotent_refuted",
    "C08_lcg_discard_multiplier_one_refuted"
   ],
   "note": "discard(z) = z calls characterised exactly (iff) for a>=2; proved for all prime and all power-of-two moduli; refuted for a=49,c=1,m=72 (full period), for vanishing powers, and a=1 (division by zero)."
  },
  {
   "property": "C09",
   "status": "proved",
   "theorems": [
    "C09_lcg_seed"
   ],
   "note": "All types of 32..64 bits, all seeds incl. negative."
  },
  {
   "property": "C10",
   "status": "proved",
   "theorems": [
    "C10_lcg_save_restore",
    "C10_lcg_bad_input"
   ],
   "note": "Token level stream model."
  },
  {
   "property": "C11",
   "status": "proved",
   "theorems": [
    "C11_rand48_posix",
    "C11_rand48_seed_total",
    "C11_rand48_range",
    "C11_rand48_discard"
   ],
   "note": "Outputs, seeding, range and discard for all 32-bit seeds and all n."
  },
  {
   "property": "C12",
   "status": "proved",
   "theorems": [
    "C12_icg_recurrence",
    "C12_icg_range",
    "C12_invert",
    "C12_icg_read_refuted"
   ],
   "note": "Inverse, recurrence and range. Extra finding: operator>> accepts out-of-range values (C12_icg_read_refuted)."
  },
  {
   "property": "C13",
   "status": "partial",
   "theorems": [
    "C13_additive_combine_partial",
    "C13_ecuyer1988",
    "C13_additive_combine_discard",
    "C13_additive_combine_save_restore",
    "C13_additive_combine_short_text",
    "C13_additive_combine_refuted"
   ],
   "note": "Proved for m2<=m1 (incl. ecuyer1988 from every seed); refuted for m2>m1."
  },
  {
   "property": "C14",
   "status": "proved",
   "theorems": [
    "C14_swc_recurrence",
    "C14_swc01_recurrence",
    "C14_swc_range_after_read_refuted"
   ],
   "note": "Recurrence, carry and range for every n from every state in range (all that seeding and operator() produce), integer and _01 engine; also no undefined behaviour. operator>> accepts out-of-range values, after which outputs exceed max() (refuted theorem)."
  },
  {
   "property": "C15",
   "status": "partial",
   "theorems": [
    "C15_swc_discard_partial",
    "C15_swc01_discard_partial",
    "C15_swc_discard_position_0",
    "C15_swc_discard_refuted"
   ],
   "note": "Proved at every buffer position except 0 and, at 0, for z=0 or z>=r; at position 0 with 0<z<r the code updates nothing (proved exactly) and the claim is refuted."
  },
  {
   "property": "C16",
   "status": "partial",
   "theorems": [
    "C16_swc_eq_compares_history",
    "C16_swc_eq_same_future_partial",
    "C16_swc_equal_but_different_future_refuted",
    "C16_swc_same_future_but_unequal_refuted"
   ],
   "note": "operator== compares exactly the last r terms; with equal carry it implies equal futures. Both directions of the iff are refuted in general because the carry is ignored."
  },
  {
   "property": "C17",
   "status": "proved",
   "theorems": [
    "C17_swc_save_restore",
    "C17_swc01_save_restore"
   ],
   "note": "Any position, both engines; the restored engine compares equal and has the same future."
  },
  {
   "property": "C18",
   "status": "proved",
   "theorems": [
    "C18_lf_recurrence",
    "C18_lf01_recurrence",
    "C18_lf_equality",
    "C18_lf01_equality",
    "C18_lf_save_restore",
    "C18_lf_discard",
    "C18_lf_equality_positions_refuted"
   ],
   "note": "Recurrence, range, equality for equal positions, save/restore, discard; integer and _01 engine (exact arithmetic). Different positions: same future but unequal (refuted theorem)."
  },
  {
   "property": "C19",
   "status": "partial",
   "theorems": [
    "C19_mt_outputs_partial",
    "C19_mt_sequence_unique",
    "C19_mt_r0_refuted",
    "C19_mt_range_after_read_refuted"
   ],
   "note": "Proved for all parameters with r>=1 (all typedefs), every state and every n, incl. range and absence of out-of-bounds access; refuted for r=0 (twist uses the low bit of x[j+1]); operator>> accepts words of more than w bits (refuted range)."
  },
  {
   "property": "C20",
   "status": "proved",
   "theorems": [
    "C20_mt_tempering_bijection",
    "C20_mt_tempering_bijection_general"
   ],
   "note": "For the three typedefs and for any parameters with positive shifts; exactly one preimage for each output."
  },
  {
   "property": "C21",
   "status": "partial",
   "theorems": [
    "C21_mt_seed_value",
    "C21_mt_seed_array_partial",
    "C21_mt_all_zero_refuted",
    "C21_mt_seed_value_normal"
   ],
   "note": "seed(value): standard sequence for all values (n>=3). No all-zero state proved for m>=2 and top bit of a set (all typedefs); refuted for m=1."
  },
  {
   "property": "C22",
   "status": "partial",
   "theorems": [
    "C22_mt_equality_partial",
    "C22_mt_save_restore_partial",
    "C22_mt_normal_kept",
    "C22_mt_becomes_normal",
    "C22_mt_save_restore_refuted",
    "C22_mt_save_restore_top_bit_refuted",
    "C22_mt_equality_after_read_refuted"
   ],
   "note": "Equality iff same future and save/restore at every position for m>=2, top bit of a set (all typedefs), on every state reachable by seeding and generating; refuted for m=1, for a without top bit, and for states read by operator>> that differ in redundant bits."
  },
  {
   "property": "C23",
   "status": "partial",
   "theorems": [
    "C23_discard_short",
    "C23_discard_partial",
    "C23_discard_typedefs",
    "C23_discard_equal",
    "C23_discard_wide_refuted",
    "C23_discard_m1_refuted",
    "C23_discard_overrun_refuted"
   ],
   "note": "Proved without further conditions for mt11213b, mt19937 and mt19937_64, every z < 2^64, every threshold, digits of 32 and 64 bits; discard(z) also compares equal to z calls. For other parameters proved when UIntType has exactly w bits, m >= 2, m <= n-2 or w even, and the buffers of mod_pow_x suffice. Refuted: UIntType wider than w, m = 1, overrun of mod_pow_x."
  },
  {
   "property": "C24",
   "status": "partial",
   "theorems": [
    "C24_lfs_range_partial",
    "C24_lfs_range_refuted",
    "C24_lfs_tausworthe_partial",
    "C24_lfs_tausworthe_full",
    "C24_lfs_successive",
    "C24_lfs_tausworthe_refuted",
    "C24_lfs_never_stuck_partial",
    "C24_lfs_seed_partial",
    "C24_lfs_dead_stays",
    "C24_lfs_seed_stuck_refuted",
    "C24_lfs_seed_undefined_refuted"
   ],
   "note": "Digit recurrence of successive words for all parameters and word types; k leading digits (all digits after finitely many steps when s<k-q) follow one Tausworthe sequence; range for words of exactly w bits; never stuck for w-k<=30. Refuted: range for wider words, trailing digits when s=k-q, seeding when w-k>=31 (int shift)."
  },
  {
   "property": "C25",
   "status": "partial",
   "theorems": [
    "C25_xor_combine_value",
    "C25_xor_combine_value_unsigned",
    "C25_xor_combine_range_partial",
    "C25_xor_combine_max_refuted",
    "C25_xor_combine_shift_refuted",
    "C25_xor_combine_min_refuted",
    "C25_xor_combine_old_max_refuted",
    "C25_taus88_step",
    "C25_taus88_published",
    "C25_taus88_range",
    "C25_taus88_seed",
    "C25_xor_combine_discard"
   ],
   "note": "Value proved for all shifts; range proved when ranges start at 0 and the larger maximum is 2^b-1 covering the shifted values (taus88: all states, all seeds); refuted otherwise (max of 4 and 3, shifts ignored, min 1, deprecated max)."
  },
  {
   "property": "C26",
   "status": "partial",
   "theorems": [
    "C26_independent_bits_range_partial",
    "C26_independent_bits_uniform_partial",
    "C26_independent_bits_onto_partial",
    "C26_independent_bits_shift_refuted",
    "C26_independent_bits_three"
   ],
   "note": "Range, no undefined shift, exact uniformity for every number of draws and onto, for all engines of up to 64 bits and all w, except 3-valued engines with w>=3, where every call is undefined (proved for all such engines)."
  },
  {
   "property": "C27",
   "status": "proved",
   "theorems": [
    "C27_discard_block_output",
    "C27_discard_block_range",
    "C27_discard_block_discard"
   ],
   "note": "Any base engine, any n; also discard."
  },
  {
   "property": "C28",
   "status": "partial",
   "theorems": [
    "C28_shuffle_index_bounds",
    "C28_shuffle_index_partial",
    "C28_shuffle_index_full64_refuted",
    "C28_shuffle_index_full64",
    "C28_shuffle_index_narrow_refuted",
    "C28_shuffle_step_partial",
    "C28_shuffle_run"
   ],
   "note": "Index in bounds, outputs/permutation for every run and all ranges (k<=2^32-2). Index formula for engines with fewer than 2^64 values and k<=2^width; refuted for full 64-bit engines (only entries 0 and k/2 are used, proved) and narrow result types."
  },
  {
   "property": "C29",
   "status": "proved",
   "theorems": [
    "C29_splitmix_each_value_once",
    "C29_splitmix_period",
    "C29_splitmix_output",
    "C29_splitmix_range",
    "C29_splitmix_discard",
    "C29_splitmix_generate",
    "C29_splitmix_seed",
    "C29_splitmix_seed_seq"
   ],
   "note": "All states; the mixing function is proved bijective by explicit inverses. Checked against the 10000th output in the repository's test."
  },
  {
   "property": "C30",
   "status": "partial",
   "theorems": [
    "C30_splitmix_restore_partial",
    "C30_splitmix_restore_iff",
    "C30_splitmix_reads_all",
    "C30_splitmix_restore_refuted",
    "C30_splitmix_stream_fails_refuted",
    "C30_splitmix_failed_stream"
   ],
   "note": "Equal engine for every state and every following text without a digit before the state is complete; refuted when digits follow in the stream and for the stream state (operator>> reads to the end and leaves the stream failed)."
  },
  {
   "property": "C31",
   "status": "partial",
   "theorems": [
    "C31_mixmax_refresh",
    "C31_mixmax_outputs",
    "C31_mixmax_injective",
    "C31_mixmax_fmodmul",
    "C31_mixmax_range_refuted"
   ],
   "note": "Recurrence, stored sum, absence of harmful overflow for all states and all N, SPECIALMUL<=60; outputs in [0,2^61+1] proved; output range [0,2^61-1] refuted (2^61 occurs for a canonical state accepted by operator>>)."
  },
  {
   "property": "C32",
   "status": "partial",
   "theorems": [
    "C32_mixmax_restore_partial",
    "C32_mixmax_restore_fails",
    "C32_mixmax_restore_refuted",
    "C32_mixmax_equal"
   ],
   "note": "All reachable states with counter < 17 whose elements are canonical; refuted at counter 17 (every such state is rejected)."
  },
  {
   "property": "C33",
   "status": "partial",
   "theorems": [
    "C33_seed_seq_std_partial",
    "C33_seed_seq_words",
    "C33_seed_seq_64bit_refuted",
    "C33_seed_seq_empty_refuted",
    "C33_seed_seq_construct"
   ],
   "note": "32-bit value type, n>=1, every seed vector: equality with a separate transcription of [rand.util.seedseq]; words in range; refuted for a 64-bit value type and for n=0 (division by zero in the index arithmetic)."
  },
  {
   "property": "C34",
   "status": "partial",
   "theorems": [
    "C34_words_agree",
    "C34_lcg_range_partial",
    "C34_lcg_range_signed_refuted",
    "C34_lcg_seed_seq_partial",
    "C34_icg_range_partial",
    "C34_lfs_range",
    "C34_fill_array",
    "C34_fill_array_real",
    "C34_seed_array",
    "C34_swc_range",
    "C34_swc01_range",
    "C34_swc_value",
    "C34_lf_range",
    "C34_lf01_range",
    "C34_lf_value",
    "C34_mt_range",
    "C34_mt_seed_seq",
    "C34_mixmax_range",
    "C34_pair_range"
   ],
   "note": "Every engine's seed(first,last), every modulus and width, every length: exact words consumed, exact state, throw iff too short. Also from seed sequences and from a value. Partial only for signed integer types with elements above the maximum of the type (refuted there)."
  },
  {
   "property": "C35",
   "status": "partial",
   "theorems": [
    "C35_generate_bits",
    "C35_generate_bits_unique",
    "C35_generate_words",
    "C35_generate_range",
    "C35_generate_uniform",
    "C35_generate_real_words",
    "C35_generate_real_range",
    "C35_generate_real_uniform",
    "C35_pow2",
    "C35_generate_empty_refuted",
    "C35_plain_words",
    "C35_rand48_uniform_refuted",
    "C35_splitmix_range_refuted"
   ],
   "note": "Integral and real engines, every range size n>=1, all outputs: exact words, exact consumption, range, equal counts. Refuted: n=0 (writes past the end), rand48 (words above 2^31 impossible) and splitmix64 (values above 2^32)."
  },
  {
   "property": "C36",
   "status": "partial",
   "theorems": [
    "C36_faure_discard",
    "C36_faure_seed",
    "C36_discard",
    "C36_discard_all_refuted",
    "C36_seed"
   ],
   "note": "Every base-2 engine (any lattice, width, dimension), every reachable state, every z: exact state equality, exceptions included; seed(n) for every n. The same for faure in every dimension, format and rounding. Refuted for dimension 1, one value taken, z=2^64-1 (the vector count wraps to 0)."
  },
  {
   "property": "C37",
   "status": "partial",
   "theorems": [
    "C37_points",
    "C37_sobol_directions",
    "C37_sobol_tables",
    "C37_sobol_dyadic",
    "C37_first_points_refuted",
    "C37_sobol_few_bits_refuted",
    "C37_sobol_range"
   ],
   "note": "Gray-code formula for every lattice and every number of values. Sobol: recurrence, odd bounded numbers, dyadic intervals for all 3667 dimensions of the table, every aligned block counted from point 0. Refuted for the first 2^k values delivered (point 0 is skipped) and for fewer bits than the degree (out-of-bounds write). The Niederreiter lattice is in C53."
  },
  {
   "property": "C38",
   "status": "partial",
   "theorems": [
    "C38_faure_call",
    "C38_faure_discard",
    "C38_call",
    "C38_discard",
    "C38_seed",
    "C38_position",
    "C38_discard_all_refuted"
   ],
   "note": "Exact condition for operator(), discard and seed on every reachable state of base-2 engines and of faure; a throw leaves the state unchanged. Refuted for discard(2^64-1) in dimension 1."
  },
  {
   "property": "C39",
   "status": "partial",
   "theorems": [
    "C39_faure_restore",
    "C39_faure_equal",
    "C39_restore",
    "C39_restore_all_refuted",
    "C39_equal",
    "C39_uchar_text",
    "C39_uchar_text_refuted"
   ],
   "note": "Exact restore into targets of the same dimension or at another point; equality iff same values. faure: exact restore into every target, of any dimension. Refuted for base-2 targets of another dimension at the same point (stale state vector) and for 8-bit types (whitespace characters)."
  },
  {
   "property": "C40",
   "status": "proved",
   "theorems": [
    "C40_exact",
    "C40_operator",
    "C40_operator_range",
    "C40_zero_sum_never_returns"
   ],
   "note": "All integer types, all weight vectors with representable values: construction without overflow, accepted pairs, probabilities(), and operator() end to end through uniform_int_distribution for every engine and number of draws; every run returns an index of positive weight. All-zero weights: operator() never returns (proved)."
  },
  {
   "property": "C41",
   "status": "partial",
   "theorems": [
    "C41_behaviour",
    "C41_probabilities_partial",
    "C41_probabilities_growing_partial",
    "C41_equal_partial",
    "C41_equal_sound",
    "C41_equal_weights",
    "C41_equal_refuted",
    "C41_probabilities_refuted"
   ],
   "note": "Values returned never depend on the previous state (proved). operator== and probabilities() do: refuted (stale alias indices; after shrinking, probabilities() writes out of bounds). Both proved when no stale index is harmful, e.g. objects that never had more values."
  },
  {
   "property": "C42",
   "status": "partial",
   "theorems": [
    "C42_call_with_parameters_partial",
    "C42_call_with_parameters_refuted",
    "C42_call_with_parameters_ub_refuted"
   ],
   "note": "Proved unless the first weight is the maximum of WeightType and another weight is non-zero (the guard in try_get_sum is inverted); refuted there for unsigned (sum wraps) and signed (overflow) types."
  },
  {
   "property": "C43",
   "status": "partial",
   "theorems": [
    "C43_zero",
    "C43_one",
    "C43_real_ends",
    "C43_nearest_partial",
    "C43_directed_partial",
    "C43_any_range_partial",
    "C43_wide_refuted",
    "C43_signed_refuted"
   ],
   "note": "Rounding modelled (any format with gradual underflow and unbounded exponent, four directions). The bound of 1 is proved for R <= 2^digits (to nearest) and R <= 2^(digits-1) (all directions); refuted for float with a 32-bit engine; for all ranges the error is at most 2 plus 5 units in the last place. p=0 and p=1 exact. Signed engines whose range does not fit their type: undefined (refuted)."
  },
  {
   "property": "C44",
   "status": "partial",
   "theorems": [
    "C44_range_partial",
    "C44_full_last_never_returns",
    "C44_shift_refuted",
    "C44_shift_float_refuted",
    "C44_independent",
    "C44_uniform_partial",
    "C44_real_range",
    "C44_real_independent"
   ],
   "note": "Bucket below 2^w and independent of the real part: proved for all integral engines of 32..64 bits, all formats and directions, and for floating-point engines. Real part in [0,1) and (whole digits) uniform when the last digit is not a full one. 'No negative shift' refuted: long double with a 24-bit engine, float with a 16-bit engine; the function then never returns. Not covered: engines with narrower result types (integer promotion)."
  },
  {
   "property": "C45",
   "status": "partial",
   "theorems": [
    "C45_uniform_01_partial",
    "C45_uniform_01_accurate",
    "C45_uniform_01_accepts",
    "C45_uniform_01_old_partial",
    "C45_uniform_01_real",
    "C45_uniform_01_refuted",
    "C45_uniform_01_ub_refuted",
    "C45_uniform_real",
    "C45_uniform_real_real",
    "C45_uniform_real_exact",
    "C45_canonical_partial",
    "C45_canonical_real",
    "C45_canonical_refuted",
    "C45_canonical_bounds_refuted"
   ],
   "note": "Rounding modelled. uniform_real in [a,b) for all integral and floating-point engines and all representable a<b, every direction. uniform_01 in [0,1) except for signed engines whose range does not fit their type (refuted: negative results, overflow). generate_canonical: proved when R+1 is a power of two, one output suffices, powers of R+1 are exact, or rounding is downwards; refuted for ecuyer1988 and double (1+2^-52)."
  },
  {
   "property": "C46",
   "status": "partial",
   "theorems": [
    "C46_add",
    "C46_add_shifted",
    "C46_multiply_simple",
    "C46_multiply_karatsuba",
    "C46_product",
    "C46_empty_operand_refuted",
    "C46_copy_bits",
    "C46_shift_left",
    "C46_sqr",
    "C46_remainder",
    "C46_coefficients",
    "C46_mod_pow_x_partial",
    "C46_division_fits_room",
    "C46_overrun_refuted",
    "C46_degree_one_refuted"
   ],
   "note": "All of polynomial_ops and class polynomial is modelled over arrays of W-bit digits with out-of-bounds accesses and oversized shifts as failures. Proved for all operands and sizes: add, add_shifted_inplace, multiply_simple, multiply_karatsuba, operator*, copy_bits, shift_left, sqr (W = 32, 64), sparse_mod, coefficient access, resize/normalize, mod_pow_x (degree at least 2, digits touched allocated). Refuted: an empty operand of operator* (endless loop), a write past the end in mod_pow_x for moduli such as x^63+x^62+1, and x mod (x+1)."
  },
  {
   "property": "C47",
   "status": "partial",
   "theorems": [
    "C47_muldivmod_exact_partial",
    "C47_muldivmod_refuted",
    "C47_muldivmod_unsafe_refuted",
    "C47_muldivmod_zero_refuted"
   ],
   "note": "Exact for safe_mod moduli or whenever a*b <= m*(2^32-2); refuted for 2^61-1, for a whole class of moduli, and for m=0."
  },
  {
   "property": "C48",
   "status": "proved",
   "theorems": [
    "C48_lfs_restores",
    "C48_xor_combine_restores",
    "C48_discard_block_restores",
    "C48_shuffle_order_restores",
    "C48_lfs_discard",
    "C48_shuffle_order_discard",
    "C48_xor_combine_equal",
    "C48_discard_block_equal",
    "C48_shuffle_order_equal"
   ],
   "note": "Parametric in the base engine; token level streams."
  },
  {
   "property": "C49",
   "status": "proved",
   "theorems": [
    "C49_mixmax_seed",
    "C49_mixmax_seed_value",
    "C49_mixmax_seeded_outputs"
   ],
   "note": "All seeds; the table is verified against the characteristic polynomial of the matrix, with the standard library's primitive integers (their axioms are listed in DESIGN.md section 3)."
  },
  {
   "property": "C50",
   "status": "partial",
   "theorems": [
    "C50_digits",
    "C50_power_of_two",
    "C50_real_refuted"
   ],
   "note": "Integral engines: exact value for every n with (R+1)^n <= 2^digits. Refuted for floating-point engines: float from a 48-bit engine is always <= 2^-48. Not covered: integral engines with (R+1)^n > 2^digits, where several roundings occur."
  },
  {
   "property": "C51",
   "status": "partial",
   "theorems": [
    "C51_base",
    "C51_points",
    "C51_digits",
    "C51_range_refuted"
   ],
   "note": "Base, all dimensions up to 1117, all formats with at least 24 digits, all rounding directions, sequence types of 32 to 64 bits: values are the Faure points with a proved error bound, never negative; digits exact. 'At most max()' is proved for the first coordinate and refuted for the others (double, dimension 4, point 6238428445962759169 gives 1+2^-51)."
  },
  {
   "property": "C52",
   "status": "proved",
   "theorems": [
    "C52_net",
    "C52_digit_net"
   ],
   "note": "For the exact points and for the digits that the code computes, for every dimension, block and box. Whether a rounded value falls into the box of its exact value is not claimed (C51 bounds the distance)."
  },
  {
   "property": "C53",
   "status": "partial",
   "theorems": [
    "C53_directions",
    "C53_table",
    "C53_library",
    "C53_low_digit_refuted"
   ],
   "note": "Proved for every dimension up to 4720, every number of bits, every table of irreducible polynomials: the lattice is built, and every digit of every direction number is given by the recurrence of the paper in the complete blocks. In a last incomplete block (degree does not divide the number of bits) the leading term of the polynomial is lost; refuted with niederreiter_base2 of 64 bits, whose fourth coordinate never has its lowest bit set. The table holds exactly the irreducible polynomials below 2^16."
  },
  {
   "property": "C54",
   "status": "proved",
   "theorems": [
    "C54_niederreiter",
    "C54_niederreiter_library",
    "C54_sobol",
    "C54_sobol_library",
    "C54_sobol_t0_refuted"
   ],
   "note": "For Niederreiter (all 4720 dimensions, all numbers of bits) and Sobol (all 3667 dimensions, at least 15 bits), all blocks, all boxes. t is the sum of (degree - 1)."
  },
  {
   "property": "C55",
   "status": "partial",
   "theorems": [
    "C55_table",
    "C55_zero_partial",
    "C55_operator_range",
    "C55_empty",
    "C55_probabilities_partial",
    "C55_zero_refuted",
    "C55_probabilities_refuted"
   ],
   "note": "Table, range and accuracy proved for every format and rounding direction (average not underflowing, (n+3)*2^(1-p) <= 1/8). Weight-0 values are excluded when n(4n+9)*2^(1-p) < 1 (float: up to 1446 values); refuted beyond (48 weights in half precision). probabilities() is refuted after param() with fewer weights (write outside the vector)."
  },
  {
   "property": "C56",
   "status": "partial",
   "theorems": [
    "C56_partition",
    "C56_zero_partial",
    "C56_zero_refuted",
    "C56_empty_refuted"
   ],
   "note": "Partition with boundaries within (5n+2)*2^(1-p) of the exact ones, for every format and rounding direction. Refuted: a last value of probability 0 is returned when no partial sum exceeds the uniform value; parameters from an empty range give size()-1, i.e. -1."
  },
  {
   "property": "C57",
   "status": "partial",
   "theorems": [
    "C57_distribution",
    "C57_list",
    "C57_function_partial",
    "C57_default",
    "C57_range_default_refuted",
    "C57_function_refuted",
    "C57_function_param_refuted",
    "C57_function_param"
   ],
   "note": "Every format and rounding direction, all constructors and param(). Results lie in an interval of the list, of positive weight while n(4n+9)*2^(1-p) < 1. The constructor from a function is proved for intervals of at least 32 units in the last place; refuted for narrower ones (equal boundaries, operator() never returns), and param_type computes other boundaries for float. Refuted: the range constructors with fewer than two boundaries keep their weights, and operator() reads outside the vector. Overflow to infinity is not modelled."
  },
  {
   "property": "C58",
   "status": "partial",
   "theorems": [
    "C58_distribution",
    "C58_area",
    "C58_operator",
    "C58_density",
    "C58_default",
    "C58_equal",
    "C58_equal_iff",
    "C58_list",
    "C58_function_partial"
   ],
   "note": "Every format and rounding direction, all constructors and param(); the density follows by counting pairs. The constructor from a function is proved for intervals of at least 32 units in the last place. densities() and streaming are not covered; overflow to infinity is not modelled."
  },
  {
   "property": "C59",
   "status": "partial",
   "theorems": [
    "C59_inversion",
    "C59_range_partial",
    "C59_range_refuted",
    "C59_max_refuted"
   ],
   "note": "Round to nearest, every format with at least 4 digits and a wide exponent range, every pow of bounded relative error, signed IntType. The inversion is proved for (K + t + 10(t+1)^2)*2^(1-p) <= 1/8 (double: up to about 10^7 trials). Without that condition: it ends, without overflow, in [0,t+1] (or [-1,t] for p > 1/2). The range [0,t] is refuted (t = 2, p = 3/8 gives 3, p = 5/8 gives -1), and so is t = INT_MAX (t+1 overflows)."
  },
  {
   "property": "C60",
   "status": "partial",
   "theorems": [
    "C60_range_partial",
    "C60_accept_near",
    "C60_cast_refuted"
   ],
   "note": "Range: every format with at least 20 digits, every rounding direction, every sqrt of relative error 1/1000, signed IntType; no operation but the conversion of line 321 can be undefined, and that one only if us*INT_MAX < t. It is refuted that it never is (t = 100, p = 1/2, second uniform number 0 or 2^-40). The test within 15 of the mode is proved against the ratio of the probabilities (round to nearest). Not covered: that the squeezes and the final test with logarithms agree with the same ratio, and that the table mountain hat dominates."
  },
  {
   "property": "C61",
   "status": "partial",
   "theorems": [
    "C61_inversion_partial",
    "C61_hang_refuted"
   ],
   "note": "Round to nearest, every format with at least 4 digits and a wide exponent range, every exp of bounded relative error, signed IntType. For a uniform number u <= 1 - (K + 5 mean + 2 prec + 62)*2^(1-prec) the loop ends, the result is at most prec+30 and inverts the distribution function up to rounding; every result of at most prec+30 does so for larger u too. That there is always a result is refuted: with double, mean 9/2 and u = 1-2^-53 the loop has no result for any number of turns (in the code: signed overflow of x)."
  },
  {
   "property": "C62",
   "status": "partial",
   "theorems": [
    "C62_range_partial",
    "C62_quick",
    "C62_cast_refuted"
   ],
   "note": "Every format with at least 20 digits, every rounding direction, every sqrt of relative error 1/1000, signed and unsigned IntType, means from 10 to max()/2. No operation but the conversion of line 308 can be undefined, and that one only if us*max() < 2*mean. It is refuted that it never is (mean 1000000, 32 bit engine, second uniform number 0). Termination with probability 1 is not stated."
  },
  {
   "property": "C63",
   "status": "proved",
   "theorems": [
    "C63_accept_table",
    "C63_accept_series",
    "C63_accept_zero",
    "C63_double"
   ],
   "note": "Every format with at least 20 digits, every rounding direction, every log and sqrt of relative error K*eps. The error factor exp E is explicit; for double, mean and k up to 2^20 it is below 1 + 10^-6 (C63_double). v = 0 is accepted always (C63_accept_zero). v must not be subnormal in the test with the series. That the hat dominates is not part of the claim. Uses the axioms of the standard library's real numbers."
  },
  {
   "property": "C64",
   "status": "proved",
   "theorems": [
    "C64_table",
    "C64_test",
    "C64_inside",
    "C64_run"
   ],
   "note": "Every format with at least 20 digits and a wide exponent range, every rounding direction, every exp of relative error K*eps; tolerance (68+K)(eps + 2^-52) in the height. Tables within 2^-53 of the curve and of equal areas. The run theorem assumes an engine of 32 to 64 bits for which generate_int_float_pair is defined (C44). Overflow to infinity is not modelled. Uses the axioms of the standard library's real numbers."
  },
  {
   "property": "C65",
   "status": "proved",
   "theorems": [
    "C65_table",
    "C65_test",
    "C65_inside",
    "C65_pass",
    "C65_tail",
    "C65_tail_run",
    "C65_run"
   ],
   "note": "As C64 with tolerance (218+K)(eps + 2^-52). Of the tail it is proved that a result is x(1)+x for results x, y of the two exponential distributions with x^2/2 <= y up to rounding; probabilities are not defined in the model. Uses the axioms of the standard library's real numbers."
  },
  {
   "property": "C66",
   "status": "partial",
   "theorems": [
    "C66_value",
    "C66_run",
    "C66_refuted",
    "C66_old_run",
    "C66_old_io"
   ],
   "note": "Every format with at least 4 digits, every rounding direction, every log of relative error K*eps, K*eps <= 1/8. Always defined if (1-p)^max() is below the least possible 1-u; refuted without that condition (int, p = 2^-40 and the largest uniform number: undefined conversion; p = 2^-60: division by zero). 1-u is the rounded number. Deprecated class: exact round trip, and results from 1 with the same bounds (C66_old_run). Uses the axioms of the standard library's real numbers."
  },
  {
   "property": "C67",
   "status": "proved",
   "theorems": [
    "C67_value",
    "C67_run"
   ],
   "note": "Every format with at least 4 digits, every rounding direction, every sqrt of relative error K*eps, K*eps <= 1/8, all a <= b <= c with a < c. Error bounds explicit, with a separate term for underflow. For u > q1 the quantiles are used in reverse order (same distribution). The result may exceed [a,c] by the rounding error only. Overflow is not modelled. Uses the axioms of the standard library's real numbers."
  },
  {
   "property": "C68",
   "status": "proved",
   "theorems": [
    "C68_weibull",
    "C68_extreme"
   ],
   "note": "Every format with at least 4 digits, every rounding direction, every log and pow of relative error K*eps whose log returns numbers of the format. Weibull: 1/a must not be subnormal. Extreme value: minus infinity exactly for u = 0. Overflow is not modelled otherwise. Uses the axioms of the standard library's real numbers."
  },
  {
   "property": "C69",
   "status": "partial",
   "theorems": [
    "C69_value",
    "C69_double",
    "C69_float_refuted"
   ],
   "note": "Every format and rounding direction for which the constant is below pi (double: proved), every tan of relative error K*eps. Refuted for float, where the constant is above pi: u = 0 gives a large positive number instead of the least result. Uses the axioms of the standard library's real numbers."
  },
  {
   "property": "C70",
   "status": "partial",
   "theorems": [
    "C70_hat",
    "C70_small_hat",
    "C70_large",
    "C70_small",
    "C70_run",
    "C70_engine",
    "C70_refuted"
   ],
   "note": "Every format with at least 7 digits and every rounding direction; exp, log, sqrt, tan and pow of relative error K*eps (K*eps <= 1/16), with an underflow term for exp and pow; alpha at most 2^-(emin+2*digits). The error of the acceptance ratio is explicit. Overflow is not modelled. 'Produces values > 0' is refuted: 0 for alpha = 1 and an engine that returns 0. Uses the axioms of the standard library's real numbers."
  },
  {
   "property": "C71",
   "status": "partial",
   "theorems": [
    "C71_beta",
    "C71_chi",
    "C71_chi_refuted",
    "C71_fisher",
    "C71_fisher_run",
    "C71_student",
    "C71_student_run",
    "C71_refuted"
   ],
   "note": "Values up to rounding for all operands without underflow; definedness for beta with a parameter > 1 and F and t with n > 2. Refuted beyond: beta(1,1), F(2,2), t(2) divide by 0 if the engine returns 0; chi squared with the least positive n fails the assertion of gamma_distribution. Uses the axioms of the standard library's real numbers."
  },
  {
   "property": "C72",
   "status": "partial",
   "theorems": [
    "C72_gamma",
    "C72_run",
    "C72_refuted"
   ],
   "note": "The parameters of the gamma distribution for k >= 1, 0 < p < 1; definedness up to the call of the Poisson distribution for k >= 2. The documented domain is refuted (k = 0, p = 0, p = 1; k = 1 with an engine that returns 0). That the mixture has the negative binomial distribution is not proved. Uses the axioms of the standard library's real numbers."
  },
  {
   "property": "C73",
   "status": "partial",
   "theorems": [
    "C73_laplace",
    "C73_lognormal",
    "C73_old",
    "C73_old_run",
    "C73_old_refuted"
   ],
   "note": "Every format with at least 7 digits, every rounding direction. The variance of the deprecated lognormal_distribution has an absolute error; that the standard deviation is accurate is refuted (mean 1, sigma 2^-27 gives 0). Overflow is not modelled. Uses the axioms of the standard library's real numbers."
  },
  {
   "property": "C74",
   "status": "partial",
   "theorems": [
    "C74_table",
    "C74_fc",
    "C74_accept_partial",
    "C74_accept_zero",
    "C74_double_partial",
    "C74_squeeze_refuted"
   ],
   "note": "Every format with at least 20 digits and a wide exponent range, every rounding direction, every log of relative error K*eps (K*eps <= 1/8), signed IntType. Rejection is correct for all k; acceptance if 2|k-m|+2 <= (t+1)p. Without that condition the quick acceptance is refuted (t = 1000, p = 3/64 returns 0 with v above 40 P(X=0)/P(X=46)). The error factor is explicit, below 1 + 10^-5 for double and t up to 2^20. v = 0 is accepted always. Uses the axioms of the standard library's real numbers."
  },
  {
   "property": "C75",
   "status": "partial",
   "theorems": [
    "C75_normalize_partial",
    "C75_sum",
    "C75_negative_refuted",
    "C75_iter_refuted",
    "C75_make",
    "C75_default",
    "C75_equal",
    "C75_read",
    "C75_read_short",
    "C75_set_param_refuted",
    "C75_law",
    "C75_run"
   ],
   "note": "Every format with (5n+3) roundings at most 1/8, every rounding direction except that the exact sum and idempotence are for rounding to nearest. Non-negativity of the last normalized probability is refuted ({1,6,3,3,0} in double gives -2^-52 and fails the assertion), as are the documented 1/k of the iterator constructor and param() after param(p) with fewer phases. The mixture law is stated for the areas of the alias table and exactly exponential variates. The format of operator<< and operator>> is not modelled, only what is done with the vectors. Uses the axioms of the standard library's real numbers."
  },
  {
   "property": "C76",
   "status": "partial",
   "theorems": [
    "C76_size",
    "C76_history",
    "C76_dim01",
    "C76_disc",
    "C76_circle",
    "C76_sphere",
    "C76_general",
    "C76_max_refuted"
   ],
   "note": "Every format with at least 20 digits and emin+3*digits+30 <= 0 (float, double), every rounding direction, every sqrt of relative error K*eps. For dim() >= 4 the accuracy is for normal variates of at most 2^digits, and engines whose digits fit (digit_bits - 8 mod digit_bits <= digits). The documented x <= dist.max() is refuted: dim() 2 gives (1, y) with y > 0, dim() 3 a first coordinate of 1 + 2^-52. Uniformity is stated through the map (point of the disc, height linear in its squared norm; normal variates divided by their norm), not as a measure. Uses the axioms of the standard library's real numbers."
  },
  {
   "property": "C77",
   "status": "partial",
   "theorems": [
    "C77_mixture",
    "C77_shift",
    "C77_sum",
    "C77_engine",
    "C77_mix",
    "C77_refuted"
   ],
   "note": "Every format with at least 20 digits and emin+3*digits+30 <= 0 (float, double), every rounding direction, exp/log/pow/sqrt of relative error K*eps, k at most 2^-(emin+2 digits). The law is stated by moment generating functions: the Poisson mixture as an infinite sum, the shifted square by a pointwise identity of densities (no integral over the line). k <= 1 needs k and lambda not subnormal (refuted otherwise) and a Poisson program that returns an int; C61/C62 say when poisson_distribution<> does. Uses the axioms of the standard library's real numbers."
  },
  {
   "property": "C78",
   "status": "partial",
   "theorems": [
    "C78_round_trip",
    "C78_integers",
    "C78_accept",
    "C78_reject",
    "C78_drop_refuted",
    "C78_discrete",
    "C78_piecewise",
    "C78_hyper",
    "C78_piecewise_distribution",
    "C78_empty_refuted"
   ],
   "note": "Characters, eofbit and failbit; default flags, C locale, no exceptions, no badbit. Elements of any type whose text is read back before a blank or a bracket (proved for integer types of up to 64 bits; for floating point this is a condition on the precision of the stream). Refuted: numbers out of range and lone signs before the closing bracket are dropped without failbit; '[][]' is accepted by piecewise_constant_distribution and the next call reads outside of the vector."
  },
  {
   "property": "C79",
   "status": "partial",
   "theorems": [
    "C79_step",
    "C79_step_01",
    "C79_fixed_points",
    "C79_sequence",
    "C79_determined",
    "C79_seed",
    "C79_ranlux",
    "C79_period"
   ],
   "note": "Proved: the congruential form, the fixed points, the ranlux outputs, and C79_period for every prime modulus. Missing: the last sentence, that 2^576 - 2^240 + 1 is prime and the numerical periods that follow from it."
  },
  {
   "property": "C80",
   "status": "proved",
   "theorems": [
    "C80_minstd_rand0",
    "C80_minstd_rand",
    "C80_hellekalek1995",
    "C80_rand48",
    "C80_rand48_outputs",
    "C80_ecuyer1988"
   ],
   "note": "Everything stated is proved."
  },
  {
   "property": "C81",
   "status": "proved",
   "theorems": [
    "C81_registers",
    "C81_taus88",
    "C81_seeded",
    "C81_dead",
    "C81_revisit_refuted"
   ],
   "note": "Everything stated is proved; C81_revisit_refuted is the last sentence of the statement."
  }
 ]
}