{
 "claims": [
  {
   "property": "C01",
   "status": "proved",
   "theorems": [
    "C01_add",
    "C01_sub",
    "C01_mul",
    "C01_squared",
    "C01_neg",
    "C01_of_bigint",
    "C01_of_long",
    "C01_zero_one",
    "C01_full_width_modulus_refuted",
    "C01_add_any_width",
    "C01_sub_any_width"
   ],
   "note": "all operations, every limb count, every odd modulus with one spare bit (2p <= 2^(64n), true of all shipped fields); C01_full_width_modulus_refuted shows the carry assertion fires without the spare bit"
  },
  {
   "property": "C02",
   "status": "proved",
   "theorems": [
    "C02_inverse"
   ],
   "note": ""
  },
  {
   "property": "C03",
   "status": "proved",
   "theorems": [
    "C03_canonical",
    "C03_equality",
    "C03_conversions"
   ],
   "note": ""
  },
  {
   "property": "C04",
   "status": "proved",
   "theorems": [
    "C04_mul_reduce",
    "C04_add",
    "C04_sub",
    "C04_squared"
   ],
   "note": "Every USE_ASM program (n = 3, 4, 5: +=, -=, mul_reduce, squared) is transcribed instruction by instruction and run by an interpreter for the x86-64 subset it uses; equality with the portable model is proved for all inputs, all initial scratch register, flag and array contents, with and without aliasing of the operands. Not covered: that the compiler honours the operand constraints (T0, T1, cy, u are passed as inputs although written)."
  },
  {
   "property": "C05",
   "status": "proved",
   "theorems": [
    "C05_num_bits",
    "C05_test_bit",
    "C05_observers"
   ],
   "note": ""
  },
  {
   "property": "C06",
   "status": "proved",
   "theorems": [
    "C06_decimal",
    "C06_digits",
    "C06_mpz",
    "C06_decimal_only",
    "C06_non_digit",
    "C06_too_large",
    "C06_stream_text",
    "C06_stream_binary"
   ],
   "note": "non-digits are rejected by assertion; too large an integer is undefined behaviour (GMP writes past the array before the assertion), proved as C06_too_large"
  },
  {
   "property": "C07",
   "status": "proved",
   "theorems": [
    "C07_stream",
    "C07_words"
   ],
   "note": ""
  },
  {
   "property": "C08",
   "status": "partial",
   "theorems": [
    "C08_montgomery_partial",
    "C08_refuted"
   ],
   "note": "false of the default build: C08_refuted gives a witness (from_words converts first, then compares the already reduced value, so it always returns true); the MONTGOMERY_OUTPUT build is right: C08_montgomery_partial"
  },
  {
   "property": "C09",
   "status": "proved",
   "theorems": [
    "C09_bigint",
    "C09_unsigned_long",
    "C09_unsigned_long_long",
    "C09_vector",
    "C09_prime_field",
    "C09_binary_bigint",
    "C09_binary_unsigned_long"
   ],
   "note": ""
  },
  {
   "property": "C10",
   "status": "proved",
   "theorems": [
    "C10_result_is_root",
    "C10_square",
    "C10_nonsquare",
    "C10_prime_field",
    "C10_shipped_fields",
    "C10_shipped_twelve",
    "C10_shipped_four",
    "C10_shipped_six",
    "C10_extension_sqrt"
   ],
   "note": "any field with the right parameters, every shipped prime field and every shipped extension field. Non-squares are proved to loop forever (DEBUG builds assert)"
  },
  {
   "property": "C11",
   "status": "partial",
   "theorems": [
    "C11_exact_order",
    "C11_other_sizes",
    "C11_refuted",
    "C11_prime_field",
    "C11_shipped_fields"
   ],
   "note": "all n up to 2^31; n above 2^31 is undefined behaviour (1u << 32), refuted by witness n = 2^32"
  },
  {
   "property": "C12",
   "status": "proved",
   "theorems": [
    "C12_batch_invert",
    "C12_zero"
   ],
   "note": ""
  },
  {
   "property": "C13",
   "status": "proved",
   "theorems": [
    "C13_pack_bits",
    "C13_pack_bits_too_wide",
    "C13_pack_unpack",
    "C13_pack_ints",
    "C13_pack_ints_too_wide",
    "C13_field_to_bits",
    "C13_bits_to_field",
    "C13_bits_to_field_too_long",
    "C13_field_bits_roundtrip",
    "C13_bits_field_roundtrip",
    "C13_bits_to_field_vector",
    "C13_field_vector_to_bits"
   ],
   "note": ""
  },
  {
   "property": "C14",
   "status": "partial",
   "theorems": [
    "C14_recoding_partial",
    "C14_digits",
    "C14_sparse",
    "C14_carry_lost",
    "C14_refuted",
    "C14_wide_window_ub"
   ],
   "note": "false as stated: C14_refuted (k = 2^64-1, w = 1) and C14_carry_lost characterise every scalar for which the carry out of the top limb is dropped; windows of 31 or more are undefined behaviour (C14_wide_window_ub). Proved for w <= 29 and every other scalar"
  },
  {
   "property": "C15",
   "status": "proved",
   "theorems": [
    "C15_fixed_window",
    "C15_opt_window",
    "C15_window_choice"
   ],
   "note": "every abelian group, every hint; scalars below 2^(64n)-2^w or even, windows up to 29"
  },
  {
   "property": "C16",
   "status": "proved",
   "theorems": [
    "C16_scalar_mul",
    "C16_field_scalar"
   ],
   "note": ""
  },
  {
   "property": "C17",
   "status": "proved",
   "theorems": [
    "C17_naive",
    "C17_naive_plain",
    "C17_naive_mismatch",
    "C17_naive_plain_mismatch",
    "C17_BDLO12",
    "C17_BDLO12_too_long",
    "C17_bos_coster",
    "C17_field_scalars"
   ],
   "note": "all four methods, every group and length; scalars with a spare top bit as all field elements have (C17_field_scalars). BDLO12 up to 2^42 bases, beyond that proved UB (C17_BDLO12_too_long). std::make_heap is an oracle with its standard specification, shown satisfiable"
  },
  {
   "property": "C18",
   "status": "proved",
   "theorems": [
    "C18_chunks",
    "C18_methods",
    "C18_zero_chunks",
    "C18_inner_product"
   ],
   "note": "every chunk count >= 1 and every completion order; chunks = 0 is proved UB (division by zero)"
  },
  {
   "property": "C19",
   "status": "proved",
   "theorems": [
    "C19_bos_coster",
    "C19_make_heap_exists"
   ],
   "note": "std::make_heap is an oracle with its standard specification (permutation establishing the heap property)"
  },
  {
   "property": "C20",
   "status": "proved",
   "theorems": [
    "C20_mixed_addition",
    "C20_length_mismatch"
   ],
   "note": ""
  },
  {
   "property": "C21",
   "status": "proved",
   "theorems": [
    "C21_windowed_exp",
    "C21_window_size",
    "C21_large_scalar_refuted"
   ],
   "note": ""
  },
  {
   "property": "C22",
   "status": "proved",
   "theorems": [
    "C22_batch_exp",
    "C22_batch_exp_with_coeff",
    "C22_batch_to_special"
   ],
   "note": ""
  },
  {
   "property": "C23",
   "status": "proved",
   "theorems": [
    "C23_fp2_mul",
    "C23_fp3_mul",
    "C23_fp2_ring",
    "C23_fp3_ring",
    "C23_fp2_squared",
    "C23_fp3_squared",
    "C23_fp2_scalar",
    "C23_fp3_scalar",
    "C23_fp2_field",
    "C23_fp3_field",
    "C23_fp2_inverse"
   ],
   "note": "any base ring for the ring operations, any field with a non-residue for inverse"
  },
  {
   "property": "C24",
   "status": "proved",
   "theorems": [
    "C24_base",
    "C24_fp4_mul",
    "C24_fp6_2over3_mul",
    "C24_fp6_3over2_mul",
    "C24_fp12_mul",
    "C24_rings",
    "C24_fp12_squared",
    "C24_norm_inverse",
    "C24_fp4_field",
    "C24_fp6_2over3_field",
    "C24_fp6_3over2_field",
    "C24_fp12_field"
   ],
   "note": "fields whenever the non-residues satisfy Euler's criterion over a prime field; norm-based inverse without any condition on the non-residue"
  },
  {
   "property": "C25",
   "status": "partial",
   "theorems": [
    "C25_bn128_unitary",
    "C25_bn128_eqb",
    "C25_fp4_squared",
    "C25_fp6_squared",
    "C25_fp12_squared",
    "C25_fp4_unitary",
    "C25_fp6_unitary",
    "C25_fp12_unitary",
    "C25_fp12_exp",
    "C25_fp4_exp_partial",
    "C25_fp6_exp_partial",
    "C25_fp4_exp_all_ones",
    "C25_fp6_exp_all_ones",
    "C25_fp4_refuted",
    "C25_fp6_refuted"
   ],
   "note": "cyclotomic_squared and unitary_inverse for all subgroup elements; cyclotomic_exp of Fp12 for all exponents; cyclotomic_exp of Fp4/Fp6 for every exponent except 2^(64n)-1, where it is false (C25_fp4_refuted, C25_fp6_refuted: the recoding drops the final carry and x^-1 is returned)"
  },
  {
   "property": "C26",
   "status": "proved",
   "theorems": [
    "C26_mul_by_023",
    "C26_mul_by_023_asserts",
    "C26_mul_by_2345",
    "C26_mul_by_2345_asserts",
    "C26_mul_by_045",
    "C26_mul_by_024"
   ],
   "note": "identities over any commutative ring; the assertions on the zero coefficients are proved exact"
  },
  {
   "property": "C27",
   "status": "proved",
   "theorems": [
    "C27_fp2",
    "C27_fp3",
    "C27_fp4",
    "C27_fp6_2over3",
    "C27_fp6_3over2",
    "C27_fp12",
    "C27_shipped_twelve",
    "C27_shipped_four",
    "C27_shipped_six"
   ],
   "note": "q congruent to 1 modulo the tower degree, tables as specified; all shipped tables satisfy this (C27_shipped_*)"
  },
  {
   "property": "C28",
   "status": "proved",
   "theorems": [
    "C28_log2",
    "C28_round_up",
    "C28_round_up_overflow",
    "C28_is_power_of_2",
    "C28_bitreverse",
    "C28_bitreverse_involutive",
    "C28_twos_complement",
    "C28_twos_complement_reject",
    "C28_int_list_to_bits",
    "C28_div_ceil",
    "C28_div_ceil_zero",
    "C28_div_ceil_negative_refuted"
   ],
   "note": "div_ceil for non-negative dividend and positive divisor; negative divisor refuted by witness; round_to_next_power_of_2 above 2^63 is UB"
  },
  {
   "property": "C29",
   "status": "proved",
   "theorems": [
    "C29_bool",
    "C29_bool_reject",
    "C29_bool_vector",
    "C29_vector",
    "C29_set",
    "C29_map",
    "C29_reserialize",
    "C29_field_vector",
    "C29_bit_vector",
    "C29_oversized",
    "C29_bit_vector_reject",
    "C29_set_any",
    "C29_map_any"
   ],
   "note": "any element type with its own round trip, instantiated to prime field elements; deserialize_bit_vector leaves the final newline unread"
  },
  {
   "property": "C30",
   "status": "proved",
   "theorems": [
    "C30_binary_in_range",
    "C30_binary_uniform",
    "C30_random_element",
    "C30_sha512_rng",
    "C30_sha512_rng_wide_field",
    "C30_draw_until"
   ],
   "note": "random_element and SHA512_rng for every entropy/hash output; fields wider than 512 bits shown to be refused. SHA512 itself is an oracle"
  },
  {
   "property": "C31",
   "status": "proved",
   "theorems": [
    "C31_mul",
    "C31_pmul_coefficients",
    "C31_add",
    "C31_representation",
    "C31_field",
    "C31_field_is_code",
    "C31_char2",
    "C31_irreducible"
   ],
   "note": ""
  },
  {
   "property": "C32",
   "status": "proved",
   "theorems": [
    "C32_inverse",
    "C32_inverse_zero",
    "C32_sqrt",
    "C32_sqrt_unique"
   ],
   "note": ""
  },
  {
   "property": "C33",
   "status": "proved",
   "theorems": [
    "C33_same"
   ],
   "note": ""
  },
  {
   "property": "C34",
   "status": "proved",
   "theorems": [
    "C34_bn128_add",
    "C34_bn128_dbl",
    "C34_bn128_mixed_add",
    "C34_bn128_opp",
    "C34_bn128_sub",
    "C34_add",
    "C34_dbl",
    "C34_mixed_add",
    "C34_opp",
    "C34_sub"
   ],
   "note": "every field of characteristic not two and every non-singular curve y^2 = x^3 + b, all representatives, all exceptional cases; bn128: given that the ate-pairing library adds different points and doubles"
  },
  {
   "property": "C35",
   "status": "proved",
   "theorems": [
    "C35_add",
    "C35_add_member",
    "C35_dbl",
    "C35_mixed_add",
    "C35_opp",
    "C35_sub"
   ],
   "note": "every field of characteristic not two and every non-singular curve, all representatives with X = 0 whenever Z = 0"
  },
  {
   "property": "C36",
   "status": "partial",
   "theorems": [
    "C36_add_partial",
    "C36_mixed_add_partial",
    "C36_dbl_partial",
    "C36_opp",
    "C36_odd_order",
    "C36_odd_order_twist",
    "C36_refuted",
    "C36_order_two_lost"
   ],
   "note": "false for arbitrary operands with non-zero coordinates: (x,y)+(x,-y) is (0,-1), which inverted coordinates cannot hold, and the code returns O (C36_refuted, C36_order_two_lost). Proved whenever the sum is representable, and unconditionally on the points of odd order used by the library (C36_odd_order, C36_odd_order_twist)"
  },
  {
   "property": "C37",
   "status": "partial",
   "theorems": [
    "C37_bn128_eq",
    "C37_bn128_is_zero",
    "C37_bn128_normal_form",
    "C37_bn128_batch",
    "C37_bn128_batch_zero",
    "C37_jacobian_eq",
    "C37_jacobian_is_zero",
    "C37_jacobian_normal_form",
    "C37_projective_eq",
    "C37_projective_is_zero",
    "C37_projective_normal_form",
    "C37_edwards_eq",
    "C37_edwards_is_zero",
    "C37_edwards_to_special",
    "C37_edwards_to_affine",
    "C37_edwards_to_affine_refuted",
    "C37_jacobian_batch",
    "C37_projective_batch",
    "C37_edwards_batch"
   ],
   "note": "proved for Jacobian and projective types and for operator==, is_zero, to_special of Edwards; Edwards to_affine_coordinates replaces the inverted coordinates by the plain affine ones, so the object no longer equals itself (C37_edwards_to_affine_refuted)"
  },
  {
   "property": "C38",
   "status": "partial",
   "theorems": [
    "C38_bn128_g1",
    "C38_bn128_g1_vector",
    "C38_bn128_g2",
    "C38_bn128_same",
    "C38_bn128_g2_ambiguous",
    "C38_bn128_off_curve",
    "C38_jacobian_g1",
    "C38_projective_g1",
    "C38_edwards_g1",
    "C38_jacobian_any_partial",
    "C38_projective_any_partial",
    "C38_edwards_any_partial",
    "C38_fp2_recoverable",
    "C38_fp3_recoverable",
    "C38_g2_ambiguous",
    "C38_off_curve"
   ],
   "note": "G1: every point of every curve over a prime field, compressed or not. G2: every point whose y is zero or has a non-zero first component; the others are lost by compression (C38_g2_ambiguous: P and -P give the same bytes). Off-curve x makes the reader loop forever (C38_off_curve). bn128: G1 for all points of order r, G2 as above, for any streams of bn::Fp that round trip"
  },
  {
   "property": "C39",
   "status": "proved",
   "theorems": [
    "C39_bn128",
    "C39_bn128_gops",
    "C39_jacobian",
    "C39_projective",
    "C39_edwards",
    "C39_edwards_twist",
    "C39_spec_group"
   ],
   "note": "associativity etc. proved from the field axioms for every non-singular short Weierstrass curve and for complete twisted Edwards curves (points of odd order)"
  },
  {
   "property": "C40",
   "status": "proved",
   "theorems": [
    "C40_alt_bn128",
    "C40_bls12_381",
    "C40_mnt",
    "C40_edwards",
    "C40_edwards_tate",
    "C40_mnt4_affine",
    "C40_mnt6_affine"
   ],
   "note": ""
  },
  {
   "property": "C41",
   "status": "proved",
   "theorems": [
    "C41_alt_bn128",
    "C41_bls12_381",
    "C41_mnt4",
    "C41_mnt6_edwards"
   ],
   "note": "alt_bn128, bls12_381, mnt4, mnt6 and edwards; zero input fails an assertion. bn128 delegates to an external library and is not modelled. Relies on the standard library's Uint63 axioms"
  },
  {
   "property": "C42",
   "status": "partial",
   "theorems": [
    "C42_alt_bn128_left_partial",
    "C42_alt_bn128_left",
    "C42_alt_bn128_refuted",
    "C42_alt_bn128_right",
    "C42_bls12_381_partial",
    "C42_bls12_381_left",
    "C42_bls12_381_refuted",
    "C42_bls12_381_right",
    "C42_mnt6_right_partial",
    "C42_mnt6_right",
    "C42_mnt6_right_refuted",
    "C42_mnt6_left_refuted",
    "C42_mnt4_refuted",
    "C42_mnt6_refuted",
    "C42_edwards_left_partial",
    "C42_edwards_left",
    "C42_edwards_refuted",
    "C42_edwards_tate_refuted",
    "C42_edwards_right",
    "C42_edwards_tate_left",
    "C42_edwards_tate_right"
   ],
   "note": "shipped constants: e(O,Q) = one for every Q of G2 on alt_bn128, bls12_381 and edwards ate; e(P,O) = one on mnt6 for every P with x, y non-zero. Refuted elsewhere: e(P,O) fails an assertion for every P on alt_bn128, bls12_381, edwards ate and Tate, e(O,Q) for every Q in the edwards Tate pairing; on mnt6 e(P,O) fails an assertion at the point (0, sqrt b) of G1 and at O, and e(O,Q) is not one at the G2 generator; on mnt4 neither e(O,Q) nor e(P,O) is one at the generators. The _partial theorems hold for arbitrary Q or P. Assertions are on (no NDEBUG)"
  },
  {
   "property": "C43",
   "status": "partial",
   "theorems": [
    "C43_bn128",
    "C43_jacobian",
    "C43_projective",
    "C43_edwards_partial",
    "C43_edwards_refuted"
   ],
   "note": "exact for Jacobian and projective types; the Edwards check also accepts triples such as (0,Y,0) which represent no point (C43_edwards_refuted), all of them listed by C43_edwards_partial"
  },
  {
   "property": "C44",
   "status": "proved",
   "theorems": [
    "C44_bn128_fields",
    "C44_bn128_curve",
    "C44_shipped_fields",
    "C44_moduli_prime",
    "C44_alt_bn128_bls12_381",
    "C44_mnt4",
    "C44_mnt6_edwards",
    "C44_mnt6_curve",
    "C44_edwards_curve",
    "C44_alt_bn128_loop",
    "C44_bls12_381_loop",
    "C44_mnt4_loop",
    "C44_mnt6_loop",
    "C44_edwards_loop"
   ],
   "note": "prime-field constants of all shipped curves incl. primality and primitive generator; extension towers (non-residues, Frobenius tables, square-root members; nqr_to_t is checked by its order, and nqr^t = nqr_to_t is not stated for extension fields), twist constants, generators on their curves, Miller loop counts against q and r (edwards: the count is -q mod r, the inverse of the ate pairing). Relies on the standard library's Uint63 axioms (primitive integers used to check certificates)"
  },
  {
   "property": "C45",
   "status": "proved",
   "theorems": [
    "C45_nested",
    "C45_times",
    "C45_last_times",
    "C45_recursive_time_refuted",
    "C45_mismatch",
    "C45_leave_empty",
    "C45_inhibited"
   ],
   "note": "Counters and cumulative times of properly nested blocks, mismatched and extra leave_block, and inhibited profiling. C45_recursive_time_refuted records an extra finding outside the property: a block nested inside one of the same name gets a wrong cumulative time."
  },
  {
   "property": "C46",
   "status": "partial",
   "theorems": [
    "C46_mnt4",
    "C46_mnt6",
    "C46_edwards",
    "C46_edwards_only_one",
    "C46_bn_refuted"
   ],
   "note": "true of mnt4, mnt6 and edwards; false of alt_bn128 and bls12_381 mul_by_b (C46_bn_refuted), which nothing calls"
  },
  {
   "property": "C47",
   "status": "partial",
   "theorems": [
    "C47_order",
    "C47_gf192_refuted"
   ],
   "note": "Proved for gf32, gf64, gf128 and gf256. gf192 violates the property: multiplicative_generator has order (2^192-1)/2169 (C47_gf192_refuted)."
  },
  {
   "property": "C48",
   "status": "proved",
   "theorems": [
    "C48_words_roundtrip",
    "C48_from_words",
    "C48_from_words_short",
    "C48_stream_roundtrip",
    "C48_stream_valid"
   ],
   "note": ""
  },
  {
   "property": "C49",
   "status": "proved",
   "theorems": [
    "C49_alt_bn128",
    "C49_bls12_381",
    "C49_alt_bn128_generators",
    "C49_bls12_381_generators",
    "C49_alt_bn128_nondegenerate",
    "C49_bls12_381_nondegenerate",
    "C49_mnt4",
    "C49_mnt6",
    "C49_edwards",
    "C49_mnt4_nondegenerate",
    "C49_mnt6_nondegenerate",
    "C49_edwards_tate",
    "C49_edwards_tate_nondegenerate",
    "C49_edwards_nondegenerate",
    "C49_alt_bn128_partial",
    "C49_bls12_381_partial",
    "C49_mnt4_partial",
    "C49_mnt4_negative_loop_partial",
    "C49_mnt6_partial",
    "C49_mnt6_negative_loop_partial",
    "C49_edwards_partial",
    "C49_edwards_tate_partial"
   ],
   "note": "alt_bn128, bls12_381, mnt4, mnt6 and edwards (ate and Tate) with the shipped constants: bilinearity for all points of G1 and G2 (for the Tate pairing all points of order r of the twist) and non-degeneracy at the generators, the value has order exactly r (C49_*_nondegenerate). bn128 delegates to an external library and is not modelled. The C49_*_partial theorems are runs on small curves"
  },
  {
   "property": "C50",
   "status": "partial",
   "theorems": [
    "C50_mnt4",
    "C50_mnt6_refuted",
    "C50_mnt4_partial",
    "C50_mnt6_partial",
    "C50_mnt6_negative_loop_refuted"
   ],
   "note": "mnt4 with the shipped constants: equal for all P of order r on the curve and Q of order r on the twist (C50_mnt4). mnt6: false, the negative loop count is ignored; the affine value is the inverse of the projective one for all such points and differs on all non-zero multiples of the generators (C50_mnt6_refuted). The C50_*_partial and negative_loop theorems are runs on small curves"
  },
  {
   "property": "C51",
   "status": "proved",
   "theorems": [
    "C51_alt_bn128",
    "C51_bls12_381",
    "C51_mnt4",
    "C51_mnt6",
    "C51_edwards",
    "C51_edwards_tate"
   ],
   "note": "alt_bn128, bls12_381, mnt4, mnt6 and edwards (ate and Tate), the code as modelled with the shipped constants; the edwards ate value is the inverse of the ate pairing"
  },
  {
   "property": "C52",
   "status": "proved",
   "theorems": [
    "C52_bn128_generators",
    "C52_generators",
    "C52_mul_by_q",
    "C52_mnt4_generators",
    "C52_mnt6_generators",
    "C52_mnt4_mul_by_q",
    "C52_mnt6_mul_by_q",
    "C52_edwards_generators",
    "C52_edwards_mul_by_q"
   ],
   "note": "checked by computation with integers modulo p and transported to the model's field"
  },
  {
   "property": "C53",
   "status": "partial",
   "theorems": [
    "C53_twelve_g1",
    "C53_twelve_g2",
    "C53_mnt4_g1",
    "C53_mnt4_g2",
    "C53_mnt6_g1",
    "C53_mnt6_g2",
    "C53_edwards_ate_g1",
    "C53_edwards_ate_g2",
    "C53_edwards_tate_g1",
    "C53_edwards_tate_g2",
    "C53_bn128_g1_refuted",
    "C53_bn128_g2_refuted"
   ],
   "note": "proved for alt_bn128, bls12_381, mnt4, mnt6 and edwards (ate and Tate). False for bn128: the readers loop over copies (for (auto p : prec_P.P)), the target keeps its old P and Q (C53_bn128_g1_refuted, C53_bn128_g2_refuted; the field streams of the ate-pairing library are an arbitrary codec that round trips)"
  },
  {
   "property": "C54",
   "status": "partial",
   "theorems": [
    "C54_fp2",
    "C54_fp3",
    "C54_fp4",
    "C54_fp6_2over3",
    "C54_fp6_3over2",
    "C54_fp12",
    "C54_vector_binary",
    "C54_vector_text_refuted",
    "C54_vector_then_point_refuted"
   ],
   "note": "elements: proved for every tower. Vectors: the values are restored always, the stream position in binary mode only; in text mode the last newline is left behind (C54_vector_text_refuted), and a compressed point that follows is silently read as the neutral element (C54_vector_then_point_refuted)"
  },
  {
   "property": "C55",
   "status": "partial",
   "theorems": [
    "C55_square",
    "C55_nonsquare",
    "C55_same",
    "C55_shipped",
    "C55_zero_refuted"
   ],
   "note": "proved for all non-zero elements, generic and for the shipped parameters of both fields; false for zero, on which the loop never ends and DEBUG builds abort (C55_zero_refuted), unlike the generic square root"
  },
  {
   "property": "C56",
   "status": "partial",
   "theorems": [
    "C56_round_trip",
    "C56_flags",
    "C56_flag",
    "C56_layout_prime",
    "C56_layout_refuted"
   ],
   "note": "round trip and Boolean proved for all six extension classes (without MONTGOMERY_OUTPUT the Boolean is always true, see C08). The documented layout holds for prime fields and is false for extension fields (C56_layout_refuted): each coordinate is padded to full words, so bits above ceil_size_in_bits() are written and read"
  },
  {
   "property": "C57",
   "status": "proved",
   "theorems": [
    "C57_sizes",
    "C57_degrees",
    "C57_log_of_field_size",
    "C57_get_word",
    "C57_coset_shift",
    "C57_coset_shift_shipped",
    "C57_coset_shift_value",
    "C57_coset_shift_tight"
   ],
   "note": ""
  },
  {
   "property": "C58",
   "status": "proved",
   "theorems": [
    "C58_random_point",
    "C58_exact",
    "C58_ends",
    "C58_onto",
    "C58_order",
    "C58_shipped",
    "C58_bn128",
    "C58_mnt4",
    "C58_mnt6",
    "C58_edwards"
   ],
   "note": ""
  },
  {
   "property": "C59",
   "status": "partial",
   "theorems": [
    "C59_exact",
    "C59_bound",
    "C59_compare",
    "C59_convert",
    "C59_constants",
    "C59_random",
    "C59_commutative",
    "C59_equality",
    "C59_equality_refuted",
    "C59_convert_refuted"
   ],
   "note": "exactness, comparison, conversion of integers, constants, commutativity, reflexivity on finite numbers and symmetry proved. == is not transitive and not reflexive on infinities (C59_equality_refuted); equal numbers can convert to different integers because as_ulong truncates (C59_convert_refuted). inverse() and pow are library calls, not modelled"
  },
  {
   "property": "C60",
   "status": "proved",
   "theorems": [
    "C60_product",
    "C60_mnt4",
    "C60_mnt6",
    "C60_mnt4_groups",
    "C60_mnt6_groups"
   ],
   "note": ""
  },
  {
   "property": "C61",
   "status": "proved",
   "theorems": [
    "C61_choice",
    "C61_no_table",
    "C61_monotone",
    "C61_reached",
    "C61_documented",
    "C61_wnaf",
    "C61_batch",
    "C61_opt"
   ],
   "note": ""
  },
  {
   "property": "C62",
   "status": "partial",
   "theorems": [
    "C62_prime",
    "C62_asm_three_limbs_refuted",
    "C62_binary",
    "C62_extension",
    "C62_negation",
    "C62_fp2_base",
    "C62_profiling_test"
   ],
   "note": "proved for prime fields, binary fields and extension fields, with the base field costs of Fp2; false for prime fields of three limbs with USE_ASM (edwards): squared() takes one off mul_cnt for a multiplication that the Comba branch never makes (C62_asm_three_limbs_refuted)"
  },
  {
   "property": "C63",
   "status": "partial",
   "theorems": [
    "C63_jacobian",
    "C63_bn128",
    "C63_bls12_381_refuted",
    "C63_mnt_member",
    "C63_mnt_refuted",
    "C63_mnt_mixed_refuted",
    "C63_edwards",
    "C63_edwards_mixed_refuted"
   ],
   "note": "proved for alt_bn128 and bn128, for mixed_add of bls12_381, add() of mnt4 and mnt6 and operator+ of edwards; false elsewhere: operator+ of bls12_381 counts no addition, operator+ of mnt4 and mnt6 counts nothing, mixed_add of mnt4 and mnt6 counts neutral operands and counts equal points twice, mixed_add of edwards counts neutral operands (C63_*_refuted)"
  },
  {
   "property": "C64",
   "status": "partial",
   "theorems": [
    "C64_counts",
    "C64_inhibited",
    "C64_quiet",
    "C64_quiet_refuted",
    "C64_recursive_refuted"
   ],
   "note": "proved without inhibit_profiling_info and without a block inside one of its own name; false otherwise (C64_quiet_refuted: the value at entry is not stored, C64_quiet says what is added instead; C64_recursive_refuted)"
  },
  {
   "property": "C65",
   "status": "partial",
   "theorems": [
    "C65_scalar_mul",
    "C65_jacobian",
    "C65_bls12_381_refuted",
    "C65_bn128",
    "C65_mnt_refuted",
    "C65_edwards"
   ],
   "note": "proved for alt_bn128, bn128 and edwards and for any group whose operator+ counts additions of different points; false for bls12_381, mnt4 and mnt6, whose operator+ counts no addition: only the doublings appear (C65_bls12_381_refuted, C65_mnt_refuted)"
  },
  {
   "property": "C66",
   "status": "partial",
   "theorems": [
    "C66_fp2",
    "C66_fp3",
    "C66_fp4",
    "C66_fp6_2over3",
    "C66_fp6_3over2",
    "C66_fp12",
    "C66_fp3_asm_refuted",
    "C66_fp6_2over3_asm_refuted"
   ],
   "note": "proved for the six classes over a prime field whose squared() counts as it should; over prime fields of three limbs with USE_ASM (edwards) squared() of Fp3 and the inverses show too few multiplications (C66_fp3_asm_refuted, C66_fp6_2over3_asm_refuted)"
  },
  {
   "property": "C67",
   "status": "partial",
   "theorems": [
    "C67_inverse_agrees",
    "C67_batch_invert_agrees",
    "C67_prime_zero",
    "C67_prime_batch",
    "C67_tower",
    "C67_binary_zero_refuted",
    "C67_binary_batch_refuted",
    "C67_mpz_truncated",
    "C67_input_bool",
    "C67_bits_to_field",
    "C67_twos_complement",
    "C67_twos_complement_alias",
    "C67_from_twos_complement",
    "C67_mul_by_023",
    "C67_mul_by_2345",
    "C67_extra_scalars",
    "C67_extra_scalars_chunks",
    "C67_naive_agrees",
    "C67_bos_coster_agrees",
    "C67_bos_coster_refuted",
    "C67_mixed_addition",
    "C67_leave_block_agrees",
    "C67_leave_block",
    "C67_pack_agrees",
    "C67_pack",
    "C67_pack_too_wide",
    "C67_string",
    "C67_read_text",
    "C67_read_element",
    "C67_read_malformed",
    "C67_from_words",
    "C67_from_words_short",
    "C67_sqrt_square",
    "C67_sqrt_nonsquare"
   ],
   "note": "proved for inverse, batch_invert, bigint(mpz_t), input_bool, convert_bit_vector_to_field_element, to_twos_complement, mul_by_023, mul_by_2345, multi_exp (naive, naive_plain, BDLO12), multi_exp_with_mixed_addition, leave_block, the bigint string constructor, operator>> of bigint and Fp_model, from_words, tonelli_shanks_sqrt and pack_bit_vector_into_field_element_vector; false for Bos-Coster with extra scalars, which reads outside its heap (C67_bos_coster_refuted); the last sentence is false for binary fields: inverse() of zero returns zero and one zero makes batch_invert return zeros only, without any sign of failure (C67_binary_zero_refuted, C67_binary_batch_refuted)"
  },
  {
   "property": "C68",
   "status": "proved",
   "theorems": [
    "C68_csv",
    "C68_bn128"
   ],
   "note": "for every group with a correct interface (gops_ok, operator==) and for bn128 with the exponents of main; the ate-pairing library is taken to add and double correctly (ecadd_ok, ecdouble_ok)"
  },
  {
   "property": "C69",
   "status": "proved",
   "theorems": [
    "C69_prime",
    "C69_fields",
    "C69_binary",
    "C69_binary_words",
    "C69_print_hex",
    "C69_coordinate",
    "C69_formats",
    "C69_jacobian",
    "C69_mnt",
    "C69_edwards",
    "C69_bn128",
    "C69_coordinates"
   ],
   "note": "for bn128 the toString(10) of the ate-pairing library is any format that distinguishes elements and has no comma, colon or bracket"
  },
  {
   "property": "C70",
   "status": "partial",
   "theorems": [
    "C70_times",
    "C70_time_entry",
    "C70_open_block",
    "C70_op_entry",
    "C70_op_entry_refuted",
    "C70_leave_shown",
    "C70_print_time"
   ],
   "note": "proved for the times and for what leave_block shows; false for operation counts: cumulative_op_counts is not cleared, so the sum over all blocks since the program started is divided by the number since the call (C70_op_entry says what is shown, C70_op_entry_refuted is a witness)"
  },
  {
   "property": "C71",
   "status": "proved",
   "theorems": [
    "C71_weierstrass",
    "C71_edwards",
    "C71_vector"
   ],
   "note": "size_t arithmetic is taken without wrap-around"
  },
  {
   "property": "C72",
   "status": "partial",
   "theorems": [
    "C72_multiple",
    "C72_one",
    "C72_into_partial",
    "C72_injective",
    "C72_constants",
    "C72_g1_unique",
    "C72_twists"
   ],
   "note": "that the image has order r is proved for points whose order divides h*r; the numbers of points of the curves (Hasse's theorem, point counts) are not proved, only that h*r lies in Hasse's interval"
  }
 ]
}