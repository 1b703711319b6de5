{"id": "C01", "title": "Prime-field ring operations compute modular arithmetic", "statement": "For a prime-field type Fp_model<n,modulus> whose modulus is odd and fits in n 64-bit limbs with one spare bit and whose inv/Rsquared parameters satisfy their defining equations, converting the result of +, -, unary -, *, squared, +=, -=, *=, square and of the constructors from bigint and from long with as_bigint gives exactly the result of the same operation on integers reduced modulo the modulus.", "quantifier": "every limb count n >= 1, every odd modulus with 2*modulus <= 2^(64n) (as all shipped moduli), all operands", "why_tests_cant": "There are about 2^508 operand pairs for a 254-bit field; carry and final-subtraction corner cases have probability about 2^-64 and are never hit by random tests.", "anchors": ["libff/algebra/fields/prime_base/fp.tcc: Fp_model::mul_reduce, operator+=, operator-=, operator*=, operator-, squared, as_bigint, Fp_model(bigint), Fp_model(long)"]}
{"id": "C02", "title": "Prime-field inverse is a true inverse", "statement": "For prime modulus, x.inverse() (and in-place invert) of every non-zero x returns y with x*y == one(); for zero the documented assertion fires and no value is returned.", "quantifier": "every prime modulus with consistent parameters, every element", "why_tests_cant": "Uses an extended gcd whose intermediate sign and limb-count handling depends on the operand; exhaustive testing is impossible.", "anchors": ["libff/algebra/fields/prime_base/fp.tcc: Fp_model::invert, inverse"]}
{"id": "C03", "title": "Prime-field elements are always canonical, so == is mathematical equality", "statement": "Every value produced by any constructor or operation of Fp_model keeps its internal representative strictly below the modulus; hence a == b holds exactly when a.as_bigint() == b.as_bigint(), is_zero() exactly when as_bigint() is 0, and equal elements serialise to identical bytes.", "quantifier": "every sequence of API operations starting from any constructors", "why_tests_cant": "A single missing conditional subtraction would create two representations of the same element on a vanishing fraction of inputs only.", "anchors": ["libff/algebra/fields/prime_base/fp.tcc: operator==, is_zero, as_bigint, mul_reduce, operator+=, operator-=", "libff/algebra/fields/prime_base/fp.hpp"]}
{"id": "C04", "title": "Hand-optimised and portable field code agree bit for bit", "statement": "The assembly-specialised 3-, 4- and 5-limb code paths of Fp (Comba multiplication, Montgomery reduction, add and subtract with conditional correction) return exactly the same limbs as the portable code for all inputs, so results do not depend on build configuration.", "quantifier": "all canonical operand pairs for n = 3, 4, 5", "why_tests_cant": "Carry-chain bugs in unrolled code are triggered by a 2^-64 fraction of inputs.", "anchors": ["libff/algebra/fields/prime_base/fp.tcc: mul_reduce, operator+=, operator-=, squared (USE_ASM branches)", "libff/algebra/field_utils/fp_aux.tcc"]}
{"id": "C05", "title": "bigint observers are arithmetic on the represented integer", "statement": "For every bigint<n>: num_bits() is the bit length of the represented integer (0 for 0), test_bit(i) is bit i (false beyond the top limb), is_even/is_zero/as_ulong/==/!=/< agree with the integer.", "quantifier": "every n >= 1, every value, every bit index", "why_tests_cant": "num_bits is the loop bound of every scalar multiplication, so an off-by-one on some limb pattern silently corrupts group results; values range over 2^(64n).", "anchors": ["libff/algebra/field_utils/bigint.tcc: num_bits, test_bit, is_even, is_zero, as_ulong, operator==, operator<, clear"]}
{"id": "C06", "title": "bigint decimal parsing and I/O round trip", "statement": "Constructing a bigint<n> from the decimal rendering of any integer below 2^(64n) yields that integer; a non-digit character is rejected by assertion, and no value is returned for an integer that does not fit; writing a bigint with operator<< and reading it with operator>> restores it in both text and binary modes.", "quantifier": "all n, all values, all digit strings", "why_tests_cant": "Space of strings and values is unbounded.", "anchors": ["libff/algebra/field_utils/bigint.tcc: bigint(const char*), operator<<, operator>>"]}
{"id": "C07", "title": "Prime-field words and stream serialisation round trip", "statement": "to_words followed by from_words, and operator<< followed by operator>> (all four combinations of BINARY_OUTPUT and MONTGOMERY_OUTPUT), restore every prime-field element, and consume exactly the bytes that were written.", "quantifier": "all elements, all parameter sets, all following stream contents", "why_tests_cant": "Round trip must hold for all 2^254 elements and at any stream position.", "anchors": ["libff/algebra/fields/prime_base/fp.tcc: to_words, from_words, operator<<, operator>>"]}
{"id": "C08", "title": "from_words reports whether the words denote a canonical element", "statement": "Fp_model::from_words returns true exactly when the words it was given encode an integer below the modulus (fp.hpp documents that it returns false otherwise).", "quantifier": "all word vectors of the right length", "why_tests_cant": "Random words are rarely out of range for moduli close to a power of two; the flag is not otherwise exercised.", "anchors": ["libff/algebra/fields/prime_base/fp.tcc: from_words", "libff/algebra/fields/prime_base/fp.hpp: from_words doc comment"]}
{"id": "C09", "title": "power computes exponentiation for every exponent representation", "statement": "power(base, e) (and operator^ of every field) returns base multiplied by itself e times, for e given as bigint, unsigned long, unsigned long long, or vector of 64-bit words (most significant word first); base^0 is one.", "quantifier": "every monoid, every base, every exponent of every length", "why_tests_cant": "Exponents are up to thousands of bits; loop-state bugs (leading zero words, zero exponent, top bit) need specific patterns.", "anchors": ["libff/algebra/field_utils/algorithms.tcc: power (4 overloads)", "libff/algebra/fields/prime_base/fp.tcc: operator^, operator^="]}
{"id": "C10", "title": "Square roots are correct and found for every square", "statement": "tonelli_shanks_sqrt (used by sqrt() of Fp, Fp2, Fp3, Fp4, Fp6, Fp12) terminates for every square element and returns a value whose square is the input; it is never observed to return a non-root when it terminates.", "quantifier": "every field with odd order and correct (s, t, nqr^t, euler) parameters, every square", "why_tests_cant": "Number of iterations depends on the 2-adic order of the input; for s = 28 or 32 most chains are never exercised by random tests.", "anchors": ["libff/algebra/field_utils/algorithms.tcc: tonelli_shanks_sqrt", "libff/algebra/fields/prime_base/fp.tcc: sqrt"]}
{"id": "C11", "title": "Roots of unity have exactly the requested order", "statement": "get_root_of_unity<F>(n) returns, for every power of two n = 2^k with k <= s, an element w with w^n = 1 and w^(n/2) = -1 (exact order n); for other n it throws.", "quantifier": "all n, all fields with a correct root_of_unity parameter", "why_tests_cant": "FFT correctness for every domain size depends on it; large n are never tested.", "anchors": ["libff/algebra/field_utils/field_utils.tcc: get_root_of_unity"]}
{"id": "C12", "title": "batch_invert inverts every element", "statement": "For a vector of any length of non-zero field elements, batch_invert replaces each element by its multiplicative inverse; a zero anywhere fires the assertion.", "quantifier": "all lengths, all vectors", "why_tests_cant": "One shared inversion with index-dependent bookkeeping; unbounded vector lengths.", "anchors": ["libff/algebra/field_utils/field_utils.tcc: batch_invert"]}
{"id": "C13", "title": "Packing between bits, integers and field elements is lossless", "statement": "convert_field_element_to_bit_vector / convert_bit_vector_to_field_element, the vector versions, pack_bit_vector and pack_int_vector place bit i of the input at the documented position: unpacking what was packed restores the (zero-padded) input and packing never loses or reorders bits; a too-long or wrong-size input fires the assertion.", "quantifier": "all bit vectors, all field element vectors, all chunk sizes below the capacity", "why_tests_cant": "Unbounded lengths and off-by-one at chunk boundaries.", "anchors": ["libff/algebra/field_utils/field_utils.tcc: pack_bit_vector, pack_int_vector, convert_*"]}
{"id": "C14", "title": "find_wnaf produces a valid signed-digit recoding", "statement": "find_wnaf(w, k) returns digits d_i with sum d_i 2^i = k, every non-zero digit odd with absolute value below 2^w, and any two non-zero digits at least w+1 positions apart, for every bigint k.", "quantifier": "all window sizes 1..62, all n, all scalars", "why_tests_cant": "Carry propagation into the top limb happens only for scalars within 2^w of 2^(64n).", "anchors": ["libff/algebra/scalar_multiplication/wnaf.tcc: find_wnaf"]}
{"id": "C15", "title": "wNAF scalar multiplication equals repeated addition", "statement": "fixed_window_wnaf_exp and opt_window_wnaf_exp return k*P in every abelian group, for every scalar (below 2^(64n) - 2^w), window size and scalar-bit hint.", "quantifier": "all groups, points, scalars, window tables", "why_tests_cant": "Scalars range over 2^254; digits index a precomputed table.", "anchors": ["libff/algebra/scalar_multiplication/wnaf.tcc: fixed_window_wnaf_exp, opt_window_wnaf_exp"]}
{"id": "C16", "title": "scalar_mul and operator* equal repeated addition", "statement": "scalar_mul(P, k), i.e. k * P for a bigint or field-element k, equals P added k times, in every group, for every k including 0 and values whose top bit is bit 64n-1.", "quantifier": "all groups, points, scalars", "why_tests_cant": "Exponential scalar space.", "anchors": ["libff/algebra/curves/curve_utils.tcc: scalar_mul, operator* (curve_utils.tcc)", "libff/algebra/curves/alt_bn128/alt_bn128_g1.hpp: operator*"]}
{"id": "C17", "title": "Every multi-exponentiation method computes the sum of products", "statement": "multi_exp with each of the methods naive, naive_plain, bos_coster and BDLO12 returns sum_i s_i*P_i for vectors of every length and every scalar, so all methods agree with one another.", "quantifier": "all groups, all vector lengths, all scalars (zeros, repeats, extreme bit lengths), all points", "why_tests_cant": "Window and bucket selection depends on length and scalar bit lengths; data-dependent heap processing.", "anchors": ["libff/algebra/scalar_multiplication/multiexp.tcc: multi_exp, multi_exp_inner (naive, naive_plain, bos_coster, BDLO12)"]}
{"id": "C18", "title": "Chunked parallel multi_exp does not depend on the number of chunks or the schedule", "statement": "multi_exp(\u2026, chunks) returns the same group element for every chunks >= 1 (including chunks larger than the vector) and every order in which the OpenMP threads finish their chunks.", "quantifier": "all chunk counts, all thread completion orders, all inputs", "why_tests_cant": "Schedules and chunk/length combinations cannot be enumerated by tests.", "anchors": ["libff/algebra/scalar_multiplication/multiexp.tcc: multi_exp, batch_exp, batch_exp_with_coeff, inner_product"]}
{"id": "C19", "title": "Bos-Coster terminates and stays inside its heap", "statement": "The Bos-Coster method terminates for every input vector, and every heap access it performs is inside the (odd-length padded) vector; the asserted heap size condition holds.", "quantifier": "all scalar vectors of every length", "why_tests_cant": "Termination depends on the data-dependent sequence of subtractions/exponentiations; out-of-bounds accesses depend on parity and length.", "anchors": ["libff/algebra/scalar_multiplication/multiexp.tcc: multi_exp_inner<bos_coster>, ordered_exponent"]}
{"id": "C20", "title": "multi_exp_with_mixed_addition agrees with multi_exp", "statement": "multi_exp_with_mixed_addition (which treats scalars 0 and 1 specially and requires special-form points) returns the same group element as sum_i s_i*P_i.", "quantifier": "all lengths, scalars, special-form points, chunk counts", "why_tests_cant": "Partition into zero/one/other scalars is data dependent.", "anchors": ["libff/algebra/scalar_multiplication/multiexp.tcc: multi_exp_with_mixed_addition"]}
{"id": "C21", "title": "Fixed-base windowed exponentiation is exact", "statement": "For a table produced by get_window_table(scalar_size, window, g), windowed_exp(scalar_size, window, table, x) returns x*g for every x below 2^scalar_size, never indexing outside the table, and get_exp_window_size always returns a window of at least one.", "quantifier": "all scalar sizes, windows 1..30, groups, base points, scalars below 2^scalar_size", "why_tests_cant": "The last, shorter window row only matters for some size/window residues.", "anchors": ["libff/algebra/scalar_multiplication/multiexp.tcc: get_window_table, windowed_exp, get_exp_window_size"]}
{"id": "C22", "title": "Batch operations equal their element-wise versions", "statement": "batch_exp, batch_exp_with_coeff and batch_to_special return vectors whose i-th entry is the i-th single result (x_i*g, (c*x_i)*g, P_i in special form), for every length and for any positions of zero points.", "quantifier": "all vectors, all positions of zeros", "why_tests_cant": "Compaction of non-zero points shifts indices in a data-dependent way.", "anchors": ["libff/algebra/scalar_multiplication/multiexp.tcc: batch_exp, batch_exp_with_coeff, batch_to_special", "libff/algebra/curves/alt_bn128/alt_bn128_g1.cpp: batch_to_special_all_non_zeros_"]}
{"id": "C23", "title": "Quadratic and cubic extension fields implement F[u]/(u^k - nr)", "statement": "Fp2 and Fp3 +, -, unary -, *, squared (every variant), inverse and scalar multiplication are exactly the operations of the quotient ring F[u]/(u^2-nr), F[u]/(u^3-nr); inverse is a true inverse of every non-zero element when nr is a non-residue.", "quantifier": "every base field, non-residue, all elements", "why_tests_cant": "Karatsuba/Toom identities must hold for all q^2 or q^3 elements.", "anchors": ["libff/algebra/fields/prime_extension/fp2.tcc", "libff/algebra/fields/prime_extension/fp3.tcc"]}
{"id": "C24", "title": "Tower fields Fp4, Fp6, Fp12 implement their quotient rings", "statement": "Fp4_model, Fp6_2over3, Fp6_3over2 and Fp12_2over3over2 operations are exactly those of their towers; they are commutative rings, and inverse is a true inverse whenever the tower element's norm is non-zero (every non-zero element when the non-residue conditions hold).", "quantifier": "every base field and non-residue, all elements", "why_tests_cant": "Same as above for q^4, q^6, q^12 elements.", "anchors": ["libff/algebra/fields/prime_extension/fp4.tcc", "libff/algebra/fields/prime_extension/fp6_2over3.tcc", "libff/algebra/fields/prime_extension/fp6_3over2.tcc", "libff/algebra/fields/prime_extension/fp12_2over3over2.tcc"]}
{"id": "C25", "title": "Cyclotomic squaring and exponentiation equal the generic ones on the cyclotomic subgroup", "statement": "cyclotomic_squared(x) == x*x and cyclotomic_exp(x, e) == x^e and unitary_inverse(x)*x == one for every x in the cyclotomic (norm-one) subgroup of Fp4, Fp6_2over3 and Fp12.", "quantifier": "all elements of the subgroup, all exponents of any number of limbs", "why_tests_cant": "Elements of the subgroup are only reached through final exponentiation; identity must hold for all of them; signed-digit recoding per exponent.", "anchors": ["libff/algebra/fields/prime_extension/fp4.tcc: cyclotomic_squared, cyclotomic_exp", "libff/algebra/fields/prime_extension/fp6_2over3.tcc: cyclotomic_squared, cyclotomic_exp", "libff/algebra/fields/prime_extension/fp12_2over3over2.tcc: cyclotomic_squared, cyclotomic_exp"]}
{"id": "C26", "title": "Sparse multiplications equal full multiplication", "statement": "mul_by_023 (Fp4), mul_by_2345 (Fp6), mul_by_024 and mul_by_045 (Fp12) return exactly the product with the sparse element they abbreviate.", "quantifier": "all field elements and all sparse operands", "why_tests_cant": "Long hand-scheduled straight-line code; one wrong term is a polynomial identity failure that must be excluded for all inputs.", "anchors": ["libff/algebra/fields/prime_extension/fp12_2over3over2.tcc: mul_by_024, mul_by_045", "libff/algebra/fields/prime_extension/fp4.tcc: mul_by_023", "libff/algebra/fields/prime_extension/fp6_2over3.tcc: mul_by_2345"]}
{"id": "C27", "title": "Frobenius_map(k) is exponentiation by q^k", "statement": "For Fp2, Fp3, Fp4, Fp6, Fp12 with correct Frobenius coefficient tables, x.Frobenius_map(k) equals x raised to the power q^k.", "quantifier": "all elements, all k", "why_tests_cant": "Cannot be enumerated; k beyond the table length relies on periodic indexing.", "anchors": ["libff/algebra/fields/prime_extension/*: Frobenius_map", "libff/algebra/curves/*/*_fields.cpp: Frobenius_coeffs"]}
{"id": "C28", "title": "Integer utilities meet their arithmetic specification", "statement": "log2(n) is ceil(log2 n), get_power_of_two/round_to_next_power_of_2 return the least power of two >= n, is_power_of_2 is exact, bitreverse(n,l) reverses the low l bits and is an involution, div_ceil is the ceiling quotient (throws on 0), to/from_twos_complement are inverse on w-bit integers, int_list_to_bits is big-endian within each word.", "quantifier": "all 64-bit arguments", "why_tests_cant": "2^64 arguments, with wrap-around corner cases near 2^63.", "anchors": ["libff/common/utils.cpp: log2, get_power_of_two, round_to_next_power_of_2, is_power_of_2, bitreverse, div_ceil, to_twos_complement, from_twos_complement, int_list_to_bits"]}
{"id": "C29", "title": "Container serialisation round trips and composes", "statement": "With the templates of serialization.tcc, writing and reading bool, bool vectors, vectors, maps and sets restores the value and leaves the stream exactly after the written bytes, for any element type whose own round trip does; serialize_bit_vector/deserialize_bit_vector round trip every bit vector.", "quantifier": "all container contents and sizes, any following stream contents", "why_tests_cant": "Nested containers of arbitrary size and arbitrary trailing data.", "anchors": ["libff/common/serialization.tcc: output_bool, input_bool, output_bool_vector, input_bool_vector, operator<<, operator>> (vector, map, set)", "libff/common/utils.cpp: serialize_bit_vector, deserialize_bit_vector"]}
{"id": "C30", "title": "Random sampling always yields in-range elements", "statement": "random_element() of a prime field and SHA512_rng<F>(i) return a canonical element for every output of the randomness source on which they terminate, and they use rejection sampling: among sources they accept exactly those whose masked value is below the modulus. random_element() of a binary field maps the blocks of k/8 random bytes one to one onto the elements.", "quantifier": "all moduli, all outputs of the entropy source / hash", "why_tests_cant": "Rejections and top-limb masks depend on the modulus bit pattern; the random space cannot be enumerated.", "anchors": ["libff/algebra/fields/prime_base/fp.tcc: random_element", "libff/common/rng.tcc: SHA512_rng", "libff/algebra/fields/binary/gf*.cpp: randomize, random_element"]}
{"id": "C31", "title": "Binary fields implement GF(2)[x]/(f)", "statement": "gf32, gf64, gf128, gf192, gf256: + and - are XOR, * is the carry-less product reduced modulo the field polynomial, giving a commutative ring with one; squared is x*x; every operation keeps all representatives below x^k.", "quantifier": "all pairs of elements", "why_tests_cant": "2^512 operand pairs; reduction bugs affect only some bit patterns.", "anchors": ["libff/algebra/fields/binary/gf32.cpp", "libff/algebra/fields/binary/gf64.cpp", "libff/algebra/fields/binary/gf128.cpp", "libff/algebra/fields/binary/gf192.cpp", "libff/algebra/fields/binary/gf256.cpp"]}
{"id": "C32", "title": "Binary field inverse and square root", "statement": "inverse() is a multiplicative inverse of every non-zero element and sqrt() squares back to every element for gf32 .. gf256.", "quantifier": "all elements", "why_tests_cant": "Addition chains computing x^(2^k-2) and x^(2^(k-1)) are correct only if the whole exponent is right for every element and the modulus is irreducible.", "anchors": ["libff/algebra/fields/binary/gf*.cpp: inverse, sqrt"]}
{"id": "C33", "title": "Binary field carry-less-multiply path equals the portable path", "statement": "The USE_ASM (PCLMUL, Karatsuba, folding reduction) multiplication of gf64, gf128, gf192 and gf256 returns the same limbs as the portable shift-and-xor loop for all operands.", "quantifier": "all pairs of elements", "why_tests_cant": "Folding of the high half has operand-dependent corner cases.", "anchors": ["libff/algebra/fields/binary/gf64.cpp: operator*=", "libff/algebra/fields/binary/gf128.cpp: operator*=", "libff/algebra/fields/binary/gf192.cpp: operator*=", "libff/algebra/fields/binary/gf256.cpp: operator*="]}
{"id": "C34", "title": "Jacobian curve arithmetic realises the elliptic-curve group law", "statement": "For alt_bn128, bls12_381 and bn128 G1 and G2: operator+, mixed_add, dbl, unary -, operator- and add on any projective representatives of curve points return a representative of the chord-and-tangent sum (including O, equal points, opposite points), and the result is again on the curve.", "quantifier": "all pairs of points in all Jacobian representations", "why_tests_cant": "Exceptional cases (P = Q, P = -Q, O, points of order two) and representative scaling are not reachable by sampling.", "anchors": ["libff/algebra/curves/alt_bn128/alt_bn128_g1.cpp: operator+, mixed_add, dbl", "libff/algebra/curves/alt_bn128/alt_bn128_g2.cpp", "libff/algebra/curves/bls12_381/bls12_381_g1.cpp", "libff/algebra/curves/bls12_381/bls12_381_g2.cpp", "libff/algebra/curves/bn128/bn128_g1.cpp:188-338", "libff/algebra/curves/bn128/bn128_g2.cpp"]}
{"id": "C35", "title": "Projective MNT curve arithmetic realises the elliptic-curve group law", "statement": "For mnt4 and mnt6 G1 and G2 (homogeneous projective coordinates): operator+, add, mixed_add, dbl, unary - return a representative of the chord-and-tangent sum, for all cases including O, doubling and opposite points.", "quantifier": "all pairs of points in all projective representations", "why_tests_cant": "As for Jacobian coordinates.", "anchors": ["libff/algebra/curves/mnt/mnt4/mnt4_g1.cpp", "libff/algebra/curves/mnt/mnt4/mnt4_g2.cpp", "libff/algebra/curves/mnt/mnt6/mnt6_g1.cpp", "libff/algebra/curves/mnt/mnt6/mnt6_g2.cpp"]}
{"id": "C36", "title": "Inverted Edwards arithmetic realises the Edwards addition law", "statement": "For edwards G1 and G2 (inverted coordinates): operator+, mixed_add, dbl and unary - return a representative of the (twisted) Edwards sum for all operands with non-zero coordinates, and O is neutral.", "quantifier": "all pairs of points in all inverted-Edwards representations on which the code is specified", "why_tests_cant": "Formulas have exceptional points; representatives are scaled.", "anchors": ["libff/algebra/curves/edwards/edwards_g1.cpp", "libff/algebra/curves/edwards/edwards_g2.cpp"]}
{"id": "C37", "title": "Point equality and normalisation are representation independent", "statement": "operator== returns true exactly when the two representations denote the same affine point; to_affine_coordinates / to_special keep the denoted point, yield is_special() points, and is_zero() is exactly the neutral element.", "quantifier": "all pairs of representations", "why_tests_cant": "Cross-multiplied comparisons must be right for all scalings.", "anchors": ["libff/algebra/curves/*/*_g1.cpp: operator==, is_zero, to_affine_coordinates, to_special, is_special", "libff/algebra/curves/*/*_g2.cpp"]}
{"id": "C38", "title": "Point serialisation round trips", "statement": "Writing a curve point and reading it back yields an equal point, with and without point compression, for every point of the curve.", "quantifier": "all curve points incl. O and points with special coordinates", "why_tests_cant": "Compression keeps one bit of y; it must distinguish the two roots for every point.", "anchors": ["libff/algebra/curves/alt_bn128/alt_bn128_g1.cpp: operator<<, operator>>", "libff/algebra/curves/alt_bn128/alt_bn128_g2.cpp: operator<<, operator>>", "libff/algebra/curves/bls12_381/bls12_381_g2.cpp", "libff/algebra/curves/mnt/*", "libff/algebra/curves/edwards/*", "libff/algebra/curves/bn128/bn128_g1.cpp:361-506", "libff/algebra/curves/bn128/bn128_g2.cpp:388-489"]}
{"id": "C39", "title": "Curve points form an abelian group under the library operations", "statement": "Up to operator==, + on curve points is associative and commutative, has G::zero() as neutral element and unary - as inverse; therefore scalar multiplication distributes over addition on the actual curve types.", "quantifier": "all triples of curve points", "why_tests_cant": "Associativity is a statement about all triples of points.", "anchors": ["libff/algebra/curves/alt_bn128/alt_bn128_g1.cpp", "libff/algebra/curves/bls12_381/bls12_381_g1.cpp", "libff/algebra/curves/mnt/mnt4/mnt4_g1.cpp", "libff/algebra/curves/bn128/bn128_g1.cpp"]}
{"id": "C40", "title": "double_miller_loop is the product of two Miller loops and stays inside the precomputation", "statement": "double_miller_loop(P1,Q1,P2,Q2) equals miller_loop(P1,Q1)*miller_loop(P2,Q2) and both consume exactly the coefficients produced by precompute_G2, never reading past the end.", "quantifier": "all precomputed points, all loop counts", "why_tests_cant": "Index bookkeeping over a data-independent but parameter-dependent loop; algebraic identity over all Fqk elements.", "anchors": ["libff/algebra/curves/alt_bn128/alt_bn128_pairing.cpp", "libff/algebra/curves/bls12_381/bls12_381_pairing.cpp", "libff/algebra/curves/mnt/mnt4/mnt4_pairing.cpp"]}
{"id": "C41", "title": "Final exponentiation raises to the documented exponent", "statement": "final_exponentiation(f) equals f raised to a fixed integer multiple of (q^k-1)/r (coprime-to-r cofactor) for every non-zero f, so its results have order dividing r.", "quantifier": "all non-zero elements of Fqk", "why_tests_cant": "Addition-chain correctness for all field elements.", "anchors": ["libff/algebra/curves/alt_bn128/alt_bn128_pairing.cpp: final_exponentiation", "libff/algebra/curves/bls12_381/bls12_381_pairing.cpp: final_exponentiation", "libff/algebra/curves/mnt/mnt4/mnt4_pairing.cpp: final_exponentiation"]}
{"id": "C42", "title": "Pairing of the neutral element", "statement": "reduced_pairing(O, Q) and reduced_pairing(P, O) equal GT::one().", "quantifier": "all P, Q", "why_tests_cant": "Neutral inputs follow the same straight-line code as other points and are easily forgotten.", "anchors": ["libff/algebra/curves/alt_bn128/alt_bn128_pairing.cpp: reduced_pairing, precompute_G1, precompute_G2"]}
{"id": "C43", "title": "is_well_formed accepts exactly the points of the curve", "statement": "is_well_formed() returns true exactly for representations of points satisfying the curve equation (and for the neutral element's canonical representation).", "quantifier": "all coordinate triples", "why_tests_cant": "Security check against invalid-curve inputs; must be exact for all triples.", "anchors": ["libff/algebra/curves/*/*_g1.cpp: is_well_formed", "libff/algebra/curves/*/*_g2.cpp: is_well_formed"]}
{"id": "C44", "title": "Shipped curve parameters are mutually consistent", "statement": "For each shipped prime field (alt_bn128, bls12_381, mnt4, mnt6, edwards Fr and Fq) the modulus is prime, the Montgomery constants (inv, R^2, R^3), num_bits, euler, (s,t), root_of_unity, nqr and nqr^t satisfy the equations all arithmetic relies on, generators lie on their curves. The bn128 constants (curve and twist coefficients, cofactors, square-root parameters) are those of the same fields and curves.", "quantifier": "all shipped parameter sets; primality quantifies over all divisors", "why_tests_cant": "Primality and non-residuosity are universally quantified statements; tests only exercise consequences.", "anchors": ["libff/algebra/curves/*/*_fields.cpp", "libff/algebra/curves/*/*_init.cpp", "libff/algebra/curves/bn128/bn128_init.cpp:29-114"]}
{"id": "C45", "title": "Profiling blocks nest for every history", "statement": "For every well-nested sequence of enter_block/leave_block calls no assertion fires, the block stack and indentation return to their initial state, invocation counts equal the number of completed blocks per name; a leave_block whose name is not the innermost open block fires the assertion (single-threaded builds).", "quantifier": "all call histories, all clock readings", "why_tests_cant": "Histories are unbounded.", "anchors": ["libff/common/profiling.cpp: enter_block, leave_block"]}
{"id": "C46", "title": "mul_by_a/b/d multiply by the twist coefficients", "statement": "The G2 helpers mul_by_a, mul_by_b and mul_by_d return the product of their argument with the twist coefficient set by the init function, for every field element.", "quantifier": "all extension field elements, all coefficients and non-residues", "why_tests_cant": "The helpers hard-code which components of the coefficient vanish; the identity is over all elements and all parameters.", "anchors": ["libff/algebra/curves/mnt/mnt4/mnt4_g2.cpp: mul_by_a, mul_by_b", "libff/algebra/curves/mnt/mnt6/mnt6_g2.cpp: mul_by_a, mul_by_b", "libff/algebra/curves/edwards/edwards_g2.cpp: mul_by_a, mul_by_d", "libff/algebra/curves/alt_bn128/alt_bn128_g2.cpp: mul_by_b", "libff/algebra/curves/bls12_381/bls12_381_g2.cpp: mul_by_b"]}
{"id": "C47", "title": "Binary field multiplicative generator generates", "statement": "The powers of multiplicative_generator of gf32, gf64, gf128, gf192 and gf256 are exactly the non-zero elements: its multiplicative order is 2^k - 1.", "quantifier": "all exponents", "why_tests_cant": "The order of an element can only be established from the factorisation of 2^k - 1; enumerating powers is impossible.", "anchors": ["libff/algebra/fields/binary/gf*.cpp: multiplicative_generator"]}
{"id": "C48", "title": "Binary field word vectors and streams round trip", "statement": "from_words(to_words(a)) = a and reading what operator<< wrote returns the same element and leaves the rest of the stream, for gf32 .. gf256; every element produced by a reader is in range; from_words uses exactly the first words of the vector and a vector that is too short is outside its domain.", "quantifier": "all elements, all word vectors, all following stream contents", "why_tests_cant": "2^256 elements; short vectors give undefined behaviour rather than a failing test.", "anchors": ["libff/algebra/fields/binary/gf*.cpp: to_words, from_words, operator<<, operator>>"]}
{"id": "C49", "title": "Reduced pairings are bilinear and non-degenerate", "statement": "For g1, g2 generating the order-r subgroups, reduced_pairing(a g1, b g2) = reduced_pairing(g1, g2)^(a b) for all 1 <= a, b < r, and reduced_pairing(g1, g2) is an element of order r (not one); for alt_bn128, bls12_381, mnt4, mnt6, edwards (ate and Tate) code, with positive and negative loop counts.", "quantifier": "all pairs of multiples of the two generators", "why_tests_cant": "Tests try a few random pairs on one curve; a sign or loop-count slip that cancels there goes unnoticed.", "anchors": ["libff/algebra/curves/*/*_pairing.cpp: precompute_G1, precompute_G2, miller_loop, final_exponentiation, reduced_pairing"]}
{"id": "C50", "title": "Affine and projective ate pairings agree", "statement": "affine_reduced_pairing(P, Q) = reduced_pairing(P, Q) for the MNT curves.", "quantifier": "all pairs of non-zero points of the two subgroups", "why_tests_cant": "The affine pairing is only compared with itself in the tests (its own bilinearity), so a consistent inversion is not seen.", "anchors": ["libff/algebra/curves/mnt/mnt4/mnt4_pairing.cpp:229-386, 733-741", "libff/algebra/curves/mnt/mnt6/mnt6_pairing.cpp:745-753 and the affine functions before it"]}
{"id": "C51", "title": "The pairings compute the textbook pairings", "statement": "For P in G1 and Q in G2 the shipped alt_bn128 (bls12_381, mnt4, mnt6, edwards) reduced_pairing returns f^(c (p^k-1)/r), k the embedding degree, where f is the textbook optimal ate (ate) value at P, written with slopes, lines and verticals over Fp^k and no projective coordinates, sparse products or dropped factors; c is coprime to r and the same for all points; f is never zero, so no assertion fails; edwards: the inverse of the ate value, on the short Weierstrass form of the curve; edwards Tate: the value f_{r,P}(Q)^((q^6-1)/r).", "quantifier": "all points of order r of the curve, all points of order r of the twist in the Frobenius eigenspace, all Jacobian coordinates of both", "why_tests_cant": "Tests compare pairings with each other (bilinearity); a wrong line coefficient that still gives a bilinear map, or one that fails for few points, passes.", "anchors": ["libff/algebra/curves/alt_bn128/alt_bn128_pairing.cpp:190-470", "libff/algebra/curves/bls12_381/bls12_381_pairing.cpp:190-460", "libff/algebra/curves/mnt/mnt4/mnt4_pairing.cpp:415-695", "libff/algebra/curves/mnt/mnt6/mnt6_pairing.cpp:420-707", "libff/algebra/curves/edwards/edwards_pairing.cpp:473-669", "libff/algebra/curves/edwards/edwards_pairing.cpp:203-470"]}
{"id": "C52", "title": "Generators have order r and mul_by_q is the Frobenius", "statement": "The shipped G1 and G2 generators of alt_bn128, bls12_381, mnt4, mnt6, edwards and bn128 have order exactly r, the Frobenius acts on the G2 generator as multiplication by q, and mul_by_q computes the Frobenius of the image of its argument on the curve over the target field.", "quantifier": "mul_by_q: all coordinate triples", "why_tests_cant": "Tests check order()*G == 0 by the same scalar multiplication code and use mul_by_q only inside the pairing.", "anchors": ["libff/algebra/curves/alt_bn128/alt_bn128_init.cpp:33-185", "libff/algebra/curves/alt_bn128/alt_bn128_g2.cpp:330-335", "libff/algebra/curves/bls12_381/bls12_381_init.cpp:30-190", "libff/algebra/curves/bls12_381/bls12_381_g2.cpp:316-321", "libff/algebra/curves/mnt/mnt4/mnt4_init.cpp: mnt4_G1::G1_one, mnt4_G2::G2_one", "libff/algebra/curves/mnt/mnt4/mnt4_g2.cpp:368-373", "libff/algebra/curves/mnt/mnt6/mnt6_init.cpp: mnt6_G1::G1_one, mnt6_G2::G2_one", "libff/algebra/curves/mnt/mnt6/mnt6_g2.cpp:374-379", "libff/algebra/curves/edwards/edwards_init.cpp: edwards_G1::G1_one, edwards_G2::G2_one", "libff/algebra/curves/edwards/edwards_g2.cpp:287-292", "libff/algebra/curves/bn128/bn128_init.cpp: G1_one, G2_one"]}
{"id": "C53", "title": "Pairing precomputations survive the stream operators", "statement": "For every curve, writing a G1 or G2 precomputation (coordinates, line coefficients, lists of coefficients) with operator<< and reading it back with operator>> yields the same precomputation and leaves the stream exactly after the written bytes, in text and in binary mode.", "quantifier": "all coordinate and coefficient values, all list lengths below 2^64, any following stream contents", "why_tests_cant": "Tests round trip one precomputation of one random point into a fresh object, and compare only with operator==.", "anchors": ["libff/algebra/curves/alt_bn128/alt_bn128_pairing.cpp:26-108", "libff/algebra/curves/bls12_381/bls12_381_pairing.cpp:26-109", "libff/algebra/curves/mnt/mnt4/mnt4_pairing.cpp:35-175", "libff/algebra/curves/mnt/mnt6/mnt6_pairing.cpp:35-177", "libff/algebra/curves/edwards/edwards_pairing.cpp:27-170", "libff/algebra/curves/bn128/bn128_pairing.cpp:31-165"]}
{"id": "C54", "title": "Extension-field elements and vectors of them survive the stream operators", "statement": "Writing an element of Fp2, Fp3, Fp4, Fp6 or Fp12, or a vector of such elements, and reading it back restores the value and leaves the stream exactly after the written bytes, so that objects written one after the other can be read one after the other.", "quantifier": "all elements, all vector lengths below 2^64, any following stream contents", "why_tests_cant": "Tests read a single element from a stream containing nothing else; composition with what follows is not exercised.", "anchors": ["libff/algebra/fields/prime_extension/fp2.tcc:264-313", "libff/algebra/fields/prime_extension/fp3.tcc:266-315", "libff/algebra/fields/prime_extension/fp4.tcc:344-356", "libff/algebra/fields/prime_extension/fp6_2over3.tcc:371-383", "libff/algebra/fields/prime_extension/fp6_3over2.tcc:282-329", "libff/algebra/fields/prime_extension/fp12_2over3over2.tcc:522-569"]}
{"id": "C55", "title": "bn128 square roots are correct and found for every square", "statement": "bn128_G1::sqrt and bn128_G2::sqrt terminate for every square of bn::Fp and bn::Fp2 and return a value whose square is the input.", "quantifier": "all elements of bn::Fp and bn::Fp2, DEBUG and release builds", "why_tests_cant": "Tests take square roots of a few random squares; the zero element has probability about 2^-254.", "anchors": ["libff/algebra/curves/bn128/bn128_g1.cpp:27-75", "libff/algebra/curves/bn128/bn128_g2.cpp:27-75", "libff/algebra/curves/bn128/bn128_init.cpp:29-60"]}
{"id": "C56", "title": "Words of extension-field elements determine the element", "statement": "to_words of an element of Fp2, Fp3, Fp4, Fp6 or Fp12 yields degree*n words and from_words reads it back with result true over any previous value; from_words returns true exactly when the value of each coordinate is below the modulus; only the low ceil_size_in_bits() bits of the words are used, the others are 0 when writing and ignored when reading.", "quantifier": "all elements, all previous values, all word vectors, both encodings", "why_tests_cant": "Tests round trip random elements; the bits above ceil_size_in_bits() and rejected word vectors are never looked at.", "anchors": ["libff/algebra/fields/field.hpp:70-80", "libff/algebra/fields/prime_extension/fp2.tcc:244-263", "libff/algebra/fields/prime_extension/fp3.tcc:242-265", "libff/algebra/fields/prime_extension/fp4.tcc:323-342", "libff/algebra/fields/prime_extension/fp6_2over3.tcc:350-369", "libff/algebra/fields/prime_extension/fp6_3over2.tcc:257-280", "libff/algebra/fields/prime_extension/fp12_2over3over2.tcc:501-520", "libff/algebra/fields/prime_extension/fp2.hpp:64-74"]}
{"id": "C57", "title": "Field sizes, word access and coset shifts are right", "statement": "2^floor_size_in_bits() <= |F| <= 2^ceil_size_in_bits() for the prime fields and all extension fields; log_of_field_size_helper and soundness_log_of_field_size_helper bound the field size from above and below; get_word_of_field_elem returns the requested 64-bit word of the value; coset_shift() times a subgroup of order 2^k, k <= s, is disjoint from the subgroup.", "quantifier": "all moduli, all degrees, all elements and word indices, all k up to the two-adicity, all shipped fields", "why_tests_cant": "The coset statement is about every element of subgroups of size up to 2^47, and the size statement about moduli other than the shipped ones.", "anchors": ["libff/algebra/field_utils/field_utils.tcc:34-90", "libff/algebra/fields/prime_base/fp.hpp:128-129", "libff/algebra/fields/prime_extension/fp2.hpp:104-107", "libff/algebra/fields/prime_extension/fp12_2over3over2.hpp:120-121"]}
{"id": "C58", "title": "Random points lie in the subgroup generated by the generator, and all of it is reached", "statement": "Whatever the random source returns, random_element() of a curve group is k times the generator with 0 <= k < r, hence on the curve and of order dividing r; it is the neutral element only for k = 0; every such multiple is returned for some random words; the function returns as soon as one block of random words is below r.", "quantifier": "all curves, all random sources", "why_tests_cant": "Tests draw a few points; a biased or incomplete range of scalars would not show.", "anchors": ["libff/algebra/curves/alt_bn128/alt_bn128_g1.cpp:362-365", "libff/algebra/curves/bls12_381/bls12_381_g2.cpp:350-370", "libff/algebra/curves/mnt/mnt4/mnt4_g1.cpp:391-394", "libff/algebra/curves/edwards/edwards_g1.cpp:298-301", "libff/algebra/curves/bn128/bn128_g1.cpp:356-359", "libff/algebra/fields/prime_base/fp.tcc:740-773"]}
{"id": "C59", "title": "Double: exact complex integers, and == an equivalence compatible with conversion", "statement": "On complex integers whose parts, and the parts of every intermediate product, stay below 2^53 in absolute value, +, -, *, squared() and unary minus are exact, == / != / < / > compare the values, and as_ulong / as_bigint return the real part; the constants and generators have their values and random_element() is rand() mod 1001. == is an equivalence relation, and equal numbers convert to the same integer.", "quantifier": "all binary64 complex numbers", "why_tests_cant": "Tests use a few small numbers; the exactness bound, non-transitivity and the truncating conversion depend on specific bit patterns.", "anchors": ["libff/common/double.cpp:21-192", "libff/common/double.hpp:20-77"]}
{"id": "C60", "title": "Products and quotients of Miller loops give products and quotients of pairings", "statement": "Final exponentiation is multiplicative. final_exponentiation(affine_ate_e_over_e_miller_loop(P1,Q1,P2,Q2)) is e(P1,Q1)/e(P2,Q2) and final_exponentiation(affine_ate_e_times_e_over_e_miller_loop(P1,Q1,P2,Q2,P3,Q3)) is e(P1,Q1) e(P2,Q2)/e(P3,Q3), where e is affine_reduced_pairing, although the code divides by the unitary inverse of a value that is not unitary; on points of order r all calls succeed and the quotient is 1 exactly if the pairings are equal.", "quantifier": "all points of mnt4 and mnt6", "why_tests_cant": "Tests never call these functions; correctness of the unitary inverse depends on the final exponentiation killing the subfield, an argument over all field elements.", "anchors": ["libff/algebra/curves/mnt/mnt4/mnt4_pp.cpp:43-78", "libff/algebra/curves/mnt/mnt6/mnt6_pp.cpp:43-87"]}
{"id": "C61", "title": "The shipped window tables select the recorded window and never break exponentiation", "statement": "get_exp_window_size returns the largest window with a non-zero table entry not above the number of scalars (1 if none, at most 14 with LOWMEM), and is monotone. In every shipped table the non-zero entries increase, so each such window is used from exactly its entry on, and the choice agrees with the range recorded in the comment beside the entry. With these tables get_window_table, batch_exp and opt_window_wnaf_exp succeed and are right for every announced number of scalars or bits.", "quantifier": "all twelve groups; any number of scalars, any number of bits, all scalars and points", "why_tests_cant": "A misplaced entry only makes one window unreachable or slow for millions of scalars; results would still be right for the sizes that tests use.", "anchors": ["libff/algebra/scalar_multiplication/multiexp.tcc:515-550", "libff/algebra/scalar_multiplication/wnaf.tcc:99-120", "libff/algebra/curves/alt_bn128/alt_bn128_init.cpp:55-178", "libff/algebra/curves/edwards/edwards_init.cpp:60-174"]}
{"id": "C62", "title": "Every field operation is counted exactly once", "statement": "With PROFILE_OP_COUNTS, every call of +, +=, -, -=, *, *=, square, squared, inverse and invert returns its value and adds one to the class's counter of its own kind and leaves the other four counters as they were, although squaring and binary inversion go through multiplications and correct the counters by constants. An operation of Fp2 costs a fixed number of base field operations.", "quantifier": "all elements and all counter states; prime fields of any limb count with and without USE_ASM, the five binary fields, all extension fields", "why_tests_cant": "test_op_profiling only looks at one straight-line program on a few fields, none of which has three limbs, the only case in which the code is wrong.", "anchors": ["libff/algebra/fields/prime_base/fp.tcc:323-718", "libff/algebra/fields/binary/gf64.cpp:43-239", "libff/algebra/fields/binary/gf192.cpp:245-288", "libff/algebra/fields/prime_extension/fp2.tcc:57-229", "libff/algebra/fields/tests/test_all_fields.cpp:260-289"]}
{"id": "C63", "title": "Every group addition is counted exactly once", "statement": "With PROFILE_OP_COUNTS, operator+, add and mixed_add leave the counters alone when an operand is the neutral element, add one to dbl_cnt for equal points (add_cnt for edwards, whose formula is complete) and add one to add_cnt for different points.", "quantifier": "all pairs of points, all counter states, all twelve groups", "why_tests_cant": "No test reads the group counters; equal points in different coordinates and neutral operands are rare inputs.", "anchors": ["libff/algebra/curves/alt_bn128/alt_bn128_g1.cpp:140-303", "libff/algebra/curves/bls12_381/bls12_381_g1.cpp:130-277", "libff/algebra/curves/mnt/mnt4/mnt4_g1.cpp:141-342", "libff/algebra/curves/edwards/edwards_g1.cpp:153-243", "libff/algebra/curves/bn128/bn128_g1.cpp:188-330"]}
{"id": "C64", "title": "Profiling blocks attribute the operations done inside them", "statement": "For well nested enter_block and leave_block calls, cumulative_op_counts of a block name and data point grows by the sum over the completed blocks of that name of the counter at leave minus the counter at enter; with inhibit_profiling_counters nothing changes.", "quantifier": "all nestings, all counter values without overflow, all settings of the two inhibit flags", "why_tests_cant": "No test reads cumulative_op_counts; the error needs inhibit_profiling_info together with PROFILE_OP_COUNTS, or recursion.", "anchors": ["libff/common/profiling.cpp:242-330"]}
{"id": "C65", "title": "Operation counts of scalar multiplication", "statement": "scalar_mul of a point of prime order r by a scalar k with 0 < k < r adds log2 k (rounded down) to dbl_cnt and one less than the number of ones in the binary form of k to add_cnt: the first one bit costs nothing and no addition inside the ladder meets equal or opposite points.", "quantifier": "all curves and base fields, all points of prime order r, all scalars 0 < k < r of any number of limbs, all counter values", "why_tests_cant": "No test reads the counters of a scalar multiplication; the exact count needs that no intermediate sum is neutral or a doubling, for every scalar below the order.", "anchors": ["libff/algebra/curves/curve_utils.tcc:14-34"]}
{"id": "C66", "title": "Prime field cost of extension field operations", "statement": "With PROFILE_OP_COUNTS the counters of the prime field at the bottom of a tower advance, in one operation of an extension field class, by a number that depends only on the class and the operation: a product takes 4 multiplications in Fp2, 8 in Fp3, 13 in Fp4, 25 in Fp6_2over3, 32 in Fp6_3over2 and 100 in Fp12; squared() takes 4, 4 (and 3 squarings), 10, 18, 28 and 72; inverse() makes exactly one prime field inversion in every class. Additions, subtractions, negations and the values themselves are stated too.", "quantifier": "all base fields, all nonresidues, all operands, all counter values, the six extension classes, with and without USE_ASM", "why_tests_cant": "The profiling tests read the counters of one class for a fixed sequence of operations; none reads the counters of the field below.", "anchors": ["libff/algebra/fields/prime_extension/fp2.tcc:89-222", "libff/algebra/fields/prime_extension/fp3.tcc:93-219", "libff/algebra/fields/prime_extension/fp4.tcc:22-245", "libff/algebra/fields/prime_extension/fp6_2over3.tcc:17-232", "libff/algebra/fields/prime_extension/fp6_3over2.tcc:18-234", "libff/algebra/fields/prime_extension/fp12_2over3over2.tcc:17-254"]}
{"id": "C67", "title": "Builds without assertions", "statement": "In a build with NDEBUG (the default build type) a function whose arguments satisfy its assertions returns what it returns with assertions. Outside: the inverse of zero in a prime field, alone or through batch_invert, is undefined behaviour; bigint(mpz_t) keeps the low limbs; input_bool reads any number but 1 as false; convert_bit_vector_to_field_element reduces modulo p; to_twos_complement returns numbers of more than w bits; mul_by_023 and mul_by_2345 return the product with a known error term. multi_exp with more scalars than points ignores the extra scalars for every method and number of chunks, and multi_exp_with_mixed_addition ignores extra points; leave_block closes the innermost block whatever its name; packing into chunks wider than floor_size_in_bits reduces modulo p. A string with a character other than a digit, given to the bigint constructor or met in a stream of field elements, and from_words with too few words are undefined behaviour; the square root of a non-square does not return. A failure is never silent.", "quantifier": "all fields, all operands and vectors, all integers, all bit vectors, all streams, all binary fields with and without USE_ASM", "why_tests_cant": "The tests never pass arguments that violate an assertion, and the test build has assertions on or off for all of them alike.", "anchors": ["CMakeLists.txt:5-7", "CMakeLists.txt:181-182", "libff/algebra/fields/binary/gf64.cpp:184-239", "libff/algebra/fields/prime_base/fp.tcc:670-722", "libff/algebra/field_utils/field_utils.tcc:219-257", "libff/algebra/field_utils/bigint.tcc:49-63", "libff/common/serialization.tcc:56-64", "libff/common/utils.cpp:64-75", "libff/algebra/fields/prime_extension/fp4.tcc:128-145", "libff/algebra/fields/prime_extension/fp6_2over3.tcc:113-131", "libff/algebra/scalar_multiplication/multiexp.tcc:118-161", "libff/algebra/scalar_multiplication/multiexp.tcc:282-398", "libff/algebra/scalar_multiplication/multiexp.tcc:441-502", "libff/common/profiling.cpp:287-330", "libff/algebra/field_utils/field_utils.tcc:141-160", "libff/algebra/field_utils/bigint.tcc:27-47", "libff/algebra/field_utils/bigint.tcc:226-254", "libff/algebra/fields/prime_base/fp.tcc:787-807", "libff/algebra/field_utils/algorithms.tcc:101-162"]}
{"id": "C68", "title": "The multi-exponentiation profiler never reports a mismatch", "statement": "multiexp_profile prints one line per exponent, with the times of Bos-Coster and BDLO12 and, up to the given exponent, of the naive method, and writes neither of its \"Answers NOT MATCHING\" messages: the three methods return equal points on every instance it generates, without undefined behaviour or failed assertions.", "quantifier": "all random points of the curve, all outputs of SHA512_rng, all exponents up to 30, with and without USE_MIXED_ADDITION, all results std::make_heap may return", "why_tests_cant": "The program compares the methods on the points and scalars of one run only.", "anchors": ["libff/algebra/scalar_multiplication/multiexp_profile.cpp:29-126", "libff/algebra/scalar_multiplication/multiexp_profile.cpp:128-140"]}
{"id": "C69", "title": "Printed text determines the value", "statement": "print() of a prime field element writes its value in decimal. For prime fields and every extension tower no printed text is the beginning of the text of another element, and binary field elements that print alike are equal; from gf64 on the text is sixteen hexadecimal digits a word, the high word first. bigint::print_hex writes the value in hexadecimal without leading zeros. print() of a curve point succeeds, and two points print alike exactly if operator== holds; print_coordinates shows the coordinates stored, and different representations of points other than the neutral element print differently.", "quantifier": "all prime fields, towers and binary fields, all elements; all points of all curves in all representations, G1 and G2", "why_tests_cant": "The tests never look at printed text.", "anchors": ["libff/algebra/field_utils/bigint.tcc:74-84", "libff/algebra/fields/prime_base/fp.tcc:278-286", "libff/algebra/fields/binary/gf256.cpp:399-404", "libff/algebra/fields/binary/gf32.cpp:225-228", "libff/algebra/fields/prime_extension/fp2.hpp:61", "libff/algebra/fields/prime_extension/fp3.hpp:62", "libff/algebra/curves/alt_bn128/alt_bn128_g1.cpp:36-65", "libff/algebra/curves/mnt/mnt6/mnt6_g2.cpp:55-94", "libff/algebra/curves/edwards/edwards_g1.cpp:35-64", "libff/algebra/curves/bn128/bn128_g1.cpp:87-111"]}
{"id": "C70", "title": "Profiler reports after clear_profiling_counters", "statement": "After clear_profiling_counters(), called at any time and inside any open blocks, the profiler reports the blocks that follow and nothing else: print_cumulative_time_entry shows for every name the total time and the number of its blocks since the call and throws for a name without any, and print_cumulative_op_counts shows the operations of these blocks divided by their number. leave_block shows the operations done since its block was entered.", "quantifier": "all states, all well nested histories before and after the call, all clock and counter readings", "why_tests_cant": "No test calls clear_profiling_counters or looks at a report, and the counters exist only with PROFILE_OP_COUNTS.", "anchors": ["libff/common/profiling.cpp:98-104", "libff/common/profiling.cpp:106-153", "libff/common/profiling.cpp:155-177", "libff/common/profiling.cpp:287-336"]}
{"id": "C71", "title": "size_in_bits is enough for a point", "statement": "size_in_bits() bits are enough to tell all points of G1 or G2 apart, the neutral element included: there is a code with values below 2^size_in_bits() that is different for different points of the curve. curve_size_in_bits() bits are enough for all vectors of the given length.", "quantifier": "all prime fields, G1 over Fp and G2 over Fp2 or Fp3, all short Weierstrass curves, all Edwards curves whose d is not a square, all points, all vectors", "why_tests_cant": "A counting statement about all points of a curve; the tests compare two sizes with constants.", "anchors": ["libff/common/utils.tcc:16-20", "libff/algebra/curves/alt_bn128/alt_bn128_g1.hpp:74", "libff/algebra/curves/alt_bn128/alt_bn128_g2.hpp:78", "libff/algebra/curves/bn128/bn128_g2.hpp:79", "libff/algebra/curves/mnt/mnt6/mnt6_g2.hpp:87", "libff/algebra/curves/edwards/edwards_g2.hpp:76"]}
{"id": "C72", "title": "mul_by_cofactor", "statement": "mul_by_cofactor() returns h times the point, where h is the stored cofactor, and maps every point of the curve into the subgroup of order r; on that subgroup it is injective. The shipped cofactors fit h_bitcount bits, are prime to r, and h*r lies in Hasse's interval for the number of points over the field of the group.", "quantifier": "all points of the curves with mul_by_cofactor (alt_bn128, bn128, bls12_381, mnt4, mnt6), G1 and G2, in every representation", "why_tests_cant": "The tests do not call mul_by_cofactor, and a wrong digit in h shows only on points outside the subgroup.", "anchors": ["libff/algebra/curves/bls12_381/bls12_381_g1.cpp:309-312", "libff/algebra/curves/bls12_381/bls12_381_init.cpp:46", "libff/algebra/curves/bls12_381/bls12_381_init.cpp:116", "libff/algebra/curves/alt_bn128/alt_bn128_g1.cpp:320-324", "libff/algebra/curves/mnt/mnt4/mnt4_g2.cpp:375-378", "libff/algebra/curves/mnt/mnt6/mnt6_g2.cpp:381-384", "libff/algebra/curves/mnt/mnt6/mnt6_init.cpp:141"]}
