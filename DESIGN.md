# Formal model of libff in Rocq (Coq 8.16.1)

This document was written before the proofs and is kept current.

## Layout

`rocq/theories/` (logical name `Verif`). `*Model.v` files hold only definitions
that transcribe C++ code (each definition cites file and lines, and says what is
simplified); `*Spec.v` hold the small independent specifications; `*Proofs.v`
and the other files hold lemmas; `Properties*.v` hold only the property theorems
(each proved by `exact lemma`), the examples that show their hypotheses are met,
and `Print Assumptions`.

| files | content | code modelled |
|---|---|---|
| Result | outcome monad `Ok / AssertFail / Throw / UB / StreamFail / OutOfFuel` | asserts, throws, undefined behaviour, stream failure |
| Limbs, LimbsProofs | 64-bit limbs as `Z` in `[0,2^64)`, limb lists, executable reference functions for GMP `mpn_*` | GMP (trusted, see below) |
| StreamModel, StreamProofs | byte streams, formatted integer input and output | `std::istream`/`std::ostream` as used |
| BigintModel, BigintProofs | `bigint<n>` | field_utils/bigint.tcc |
| FpModel, FpSpec, FpProofs, FpField, FpInst, FpIoProofs, FpReach, FpExtra, FpWidth, FpConvProofs | `Fp_model`: Montgomery arithmetic on limb lists, the subset type of canonical elements, closure of the whole API | fields/prime_base/fp.tcc |
| FpAsmModel, FpAsmProofs, FpAsm3Proofs, FpAsmTop | the inline assembly programs and an interpreter for the x86-64 subset they use | field_utils/fp_aux.tcc, USE_ASM branches of fp.tcc |
| AlgorithmsModel, AlgorithmsProofs, AlgorithmsField | power, Tonelli-Shanks, batch_invert, roots of unity | field_utils/algorithms.tcc, field_utils.tcc |
| PackingModel, PackingProofs | bit/integer/field packing | field_utils/field_utils.tcc |
| UtilsModel, UtilsProofs, UtilsExtra | log2, bit reversal, div_ceil, ... | common/utils.{hpp,cpp,tcc} |
| SerializationModel, SerializationProofs, SerializationExtra | containers, bit vectors, SHA512_rng | common/serialization.tcc, common/rng.tcc |
| ProfilingModel, ProfilingProofs, ProfilingExtra | enter_block/leave_block | common/profiling.cpp |
| FieldOps, Algebra, NumTheory | records of field operations (`Fops`), ring/field laws, powers, orders | the implicit `FieldT` concept |
| GroupOps, GroupProofs | the implicit `GroupT` concept: representations with a denotation into an abelian group | |
| WnafModel, MultiexpModel and their proofs, BosCosterProofs, MultiexpExtra | wNAF, four multi_exp methods, mixed addition, fixed-base windows, batch operations, chunking | scalar_multiplication/*.tcc, curves/curve_utils.tcc |
| ExtModel, ExtSpec, ExtProofs, ExtFrob, ExtCyc, ExtInst, ExtExtra, ZmInst | Fp2, Fp3, Fp4, Fp6 (2 over 3 and 3 over 2), Fp12 over any base | fields/prime_extension/*.tcc |
| Gf2Poly, BinaryModel, BinaryProofs, BinaryField, BinaryCerts, BinaryInst, BinaryOrder, BinaryIo, BinaryExtra | gf32, gf64, gf128, gf192, gf256, with and without the carry-less multiply intrinsics | fields/binary/*.cpp |
| CurveSpec, CurveGroup, CurveModel, CurveProofs, CurveEdwards, CurveEdwOps, CurveEdwGroup, CurveExtra | affine group law and its associativity; Jacobian, projective and inverted-Edwards formulas | curves/*/*_g{1,2}.cpp |
| PrecompIoModel, PrecompIoProofs | streams of extension-field elements, of vectors of them and of pairing precomputations | fields/prime_extension/*.tcc, *_pairing.cpp |
| Bn128Model, Bn128Proofs, Bn128Shipped | the bn128 wrappers around the ate-pairing library: points, square roots, streams, constants | curves/bn128/bn128_g{1,2}.cpp, bn_utils.tcc, bn128_gt.*, bn128_init.cpp |
| WordsModel, WordsProofs, WordsShipped, WordsMnt | to_words and from_words of the extension fields, field sizes, word access, coset shifts, random points | fields/prime_extension/*.{tcc,hpp}, field_utils.tcc, curves/*/*_g{1,2}.cpp |
| QuotientModel, QuotientProofs | quotients of affine Miller loops | mnt4_pp.cpp, mnt6_pp.cpp |
| WindowsModel, WindowsProofs | window tables of the twelve groups, with the recorded ranges | *_init.cpp |
| OpcountModel, OpcountProofs, OpcountTowerModel, OpcountTowerProofs | operation counters of fields and groups, counts of profiling blocks (PROFILE_OP_COUNTS) | fields/**, curves/*/*_g{1,2}.cpp, common/profiling.cpp |
| MultiexpProfileModel, MultiexpProfileProofs | the program that times and compares the methods | scalar_multiplication/multiexp_profile.cpp |
| NdebugModel, NdebugProofs, NdebugTower | the functions whose assertions check arguments, compiled with NDEBUG | field_utils/*, fields/*, common/{utils.cpp,serialization.tcc} |
| ReportModel, ReportProofs | clear_profiling_counters and the numbers of the profiler's reports | common/profiling.cpp |
| GroupSizeModel, GroupSizeProofs | size_in_bits of the groups | curves/*/*_g{1,2}.hpp, common/utils.tcc |
| CofactorModel, CofactorProofs | mul_by_cofactor and the shipped cofactors | curves/*/*_g{1,2}.{hpp,cpp}, *_init.cpp |
| NdebugMultiModel, NdebugMultiProofs | multi-exponentiation, leave_block and bit packing, compiled with NDEBUG | scalar_multiplication/multiexp.tcc, common/profiling.cpp, field_utils/field_utils.tcc |
| NdebugParseModel, NdebugParseProofs | parsing of integers and field elements, from_words and tonelli_shanks_sqrt, compiled with NDEBUG | field_utils/{bigint,algorithms}.tcc, fields/prime_base/fp.tcc |
| PrintModel, PrintProofs | print() of integers, field elements and points | field_utils/bigint.tcc, fields/*, curves/*/*_g?.cpp |
| DoubleModel, DoubleProofs | Double (complex binary64) | common/double.{hpp,cpp} |
| CurveIoModel, CurveIoProofs | point (de)compression and streams | operator<< and >> of the same files |
| ParamsModel, ParamsA..D, ParamsAll, ParamsExtra, ParamsProofs | shipped prime field constants with primality certificates | curves/*/*_fields.cpp, *_init.cpp |
| TowerModel, TowerSpec, TowerProofs, TowerShipped, TowerSqrt, LoopShipped | shipped extension field, twist, generator and loop constants | *_fields.cpp, *_init.cpp |
| FinalExpModel, FinalExpSpec, FinalExpProofs | final exponentiations | *_pairing.cpp |
| PairingModel, PairingSpec, PairingProofs, PairingExtra, NeutralProofs, NeutralShipped, PairingShipped | precomputation, Miller loops (single, double, affine), pairings | *_pairing.cpp |
| MillerSpec, MillerProofs, MillerTwelve, MillerRegular, MillerOrder, MillerShipped | textbook Miller function; the code's loop equals it up to factors the final exponentiation removes | alt_bn128, bls12_381 |
| MillerCocycle, Cochain, MillerBilinear, BilinearTwelve, BilinearShipped, NonDegenerate | bilinearity, non-degeneracy | alt_bn128, bls12_381 |
| MillerQuad, BilinearQuad, MntShipped, MntGen, MntNonDeg, MntAffine | the same for projective coordinates and even embedding degree over a quadratic extension: textbook value, bilinearity, generators, non-degeneracy | mnt4, mnt6 |
| TateBilinear, EdwTate, EdwTateValue, EdwTateShipped | generic Tate bilinearity; the edwards Tate pairing against the textbook value of f_{r,P} at Q, bilinearity, non-degeneracy | edwards_pairing.cpp (tate_*) |
| EdwSpec, EdwSw, EdwPairing, EdwGroup, EdwBilinear, EdwShipped, EdwGen | points of order r of twisted Edwards curves, the birational map to the short Weierstrass form, the edwards ate pairing against the textbook value, bilinearity, generators, mul_by_q, non-degeneracy | edwards |
| ToyPairing | the pairing code of every curve family run on small curves | *_pairing.cpp |
| Mod63, Mul63, Certs, Hom, HomCurve, MontRing, HomMont, HomPairing, GenProofs, GenShipped | fast integer arithmetic to check constants by computation, Pocklington certificates, transport of computed facts to the model's fields | none (proof machinery) |

## Conventions

* A limb is `Z` with invariant `0 <= l < 2^64`; a `bigint<n>` is a `list Z` of
  length n of limbs, little endian. Unsigned wrap-around is explicit (`mod 2^64`).
* Loops over `size_t`/`long` are structural recursion when the bound is explicit;
  data-dependent loops take fuel and return `OutOfFuel`, and a theorem excludes it
  (or proves that the loop never ends, e.g. C10_nonsquare).
* `assert` failure, `throw`, and undefined behaviour are distinct outcomes.
  Assertions are on (no NDEBUG) except in NdebugModel.v, NdebugMultiModel.v and NdebugParseModel.v; the DEBUG macro is a parameter where it matters.
* Template parameters (`T`, `FieldT`, `modulus`) are section variables, discharged
  to explicit arguments/hypotheses; concrete instances are given for shipped curves.
* Abelian groups: the generic scalar-multiplication algorithms are proved over an
  arbitrary type `T` of representations with a denotation into an abelian group;
  they are instantiated on the real curve types once the group law is proved.
* When the code violates a property, the property is kept, the violation is a
  theorem with suffix `_refuted`, and the part that does hold is `_partial`.

## Properties: model and proof plan

* C01/C03 Fp ring ops: limb-level CIOS/add/sub model; invariant of the reduction
  loop `val T = (a*b + m*p)/2^(64 i)`; bounds give canonicity; homomorphism to Z/p.
* C02 inverse: `mpn_gcdext` as a specified oracle (cofactor relation), then the
  sign/zero-extension code of `invert`; correctness from the Bezout relation.
* C04 asm paths: instruction-by-instruction model of the macros (64-bit registers,
  carry flag); proved equal to the portable result via canonicity + congruence.
* C05 bigint observers: induction over limbs, `Z.log2`, `Z.testbit`.
* C06 decimal: digit-list semantics; `mpn_set_str` as executable reference.
* C07/C08 words and streams: streams as byte lists; C08 is refuted.
* C09 power: loop invariants for each overload, prime, extension and binary fields.
* C10 sqrt: orders in the 2-Sylow subgroup; fuel bound by s; squares only.
* C11 root of unity: repeated squaring; shift UB at 2^32 as distinct outcome.
* C12 batch_invert: invariant on prefix products.
* C13 packing: index arithmetic over bit lists.
* C14/C15 wNAF: invariant `k = c*2^i + sum d_j 2^j`, carry loss near 2^(64n) shown
  by a refutation of the unguarded statement.
* C16 scalar_mul: invariant over bits.
* C17..C22 multi-exponentiation: denotational invariants; Bos-Coster: heap as list
  with index arithmetic, measure on the sum of scalars; BDLO12: bucket sums;
  chunking: partition of the index range, any completion order.
* C23..C27 extension fields: generic commutative ring/field K; `ring`/`field`;
  Frobenius by the binomial theorem in characteristic p.
* C28 utils: arithmetic with explicit 64-bit wrap.
* C29 containers: streams as byte lists with formatted-integer reader.
* C30 random: source as arbitrary stream of limbs or bytes.
* C31..C33 binary fields: polynomials over GF(2) as `N` with xor/clmul; Frobenius
  x^(2^k)=x by Rabin-style computation for the concrete modulus.
* C34..C39, C43, C46 curves: affine chord-and-tangent specification; representations
  related by a denotation; `field` and case analysis; associativity by explicit
  case analysis of the chord-tangent law.
* C40..C42 pairing: line functions abstract; loop product invariants; exponent
  calculus for the final exponentiation; neutral element by following the formulas
  on the code's representation of O.
* C44 parameters: Pocklington certificates and identities checked by `vm_compute`.
* C45 profiling: trace semantics of enter/leave.
* C47 generators of binary fields: factorisation of 2^k-1 with certificates, powers
  computed; refuted for gf192.
* C48 words and streams of binary fields: as C07.
* C49 bilinearity: the code's Miller loop is proved equal to the textbook function
  f_{n,Q}(P) up to factors in a proper subfield (C51); the Miller functions form a
  multiplicative cocycle (Weil reciprocity is not needed: the cocycle identity and
  the eigenvalue of Frobenius on G2 suffice); the error terms have order prime to
  r or are killed by the final exponentiation. The Tate pairing fixes P and evaluates
  at Q; its additivity in Q: the Miller cocycles at Q1, Q2 and Q1+Q2 differ by a coboundary (TateBilinear).
  Non-degeneracy:
  the model's pairing at the generators is run on a Montgomery copy of the field
  (MontRing.v) and the result carried back along the isomorphism (HomPairing.v).
* C50 affine against projective pairings: shipped mnt4, all points of order r (NAF Miller loop
  against the binary one by the cocycle identity, MntAffine); refuted for shipped mnt6, where the
  affine value is always the inverse; runs on small curves.
* C51 the shipped pairing is the textbook (optimal) ate pairing: line functions by
  `field`, loop invariant relating the running point to a multiple of Q.
* C52 generators have order r and mul_by_q acts as multiplication by q: computed on
  integers modulo p and transported along a homomorphism.
* C53, C54 streams of precomputations and extension-field elements: round trips composed from
  the coordinate field's; refuted for bn128 and for text vectors of extension-field elements.
* C55 bn128 square roots: equal to the generic algorithm (C10) on non-zero elements by a loop
  simulation; on zero the inner loop never finds the order of 0.
* C56 words: composed from the prime field's round trip; the documented layout is refuted on a
  two-limb field. C57 sizes from the bit length; the coset shift from the primitive generator.
* C58 random points: the scalar's range (C30) and the scalar multiplication (C21); every scalar
  is reached by writing its Montgomery form into the random words.
* C60 quotients: x times its conjugate lies in the subfield, which the final exponentiation
  sends to 1.
* C61 window tables: the scan of the reversed table returns the last entry that is reached; the
  shipped tables are checked by computation to increase and to match the recorded ranges.
* C62-C66 counters: the functions are run in a state of counters; the chains of the binary inverses
  are followed with symbolic values. C63 says where each group addition counts, in terms of the
  points denoted. C64 is an induction over the nesting of blocks, as C45.
  C65 follows the double and add loop: the partial sum is m times the point with 0 < m < r, so it is
  neither neutral nor equal to the point when the next one bit is added. C66 is proved once for a
  quadratic and once for a cubic step over any counted class and instantiated along the towers.
* C67 builds without assertions: the functions are run side by side with the checked ones; a zero
  factor makes the running product and then every entry zero. C68 compares answers with C17 and C18.
* C69 printing: texts are split at separators that the parts cannot contain.
* C70 reports: trace semantics as for C45 and C64; a report is a sum and a number, not their quotient.
* C71 sizes: an explicit injective code, x followed by one bit for the choice between y and -y.
* C72 cofactors: from C16; the constants are checked by computation, for G2 against the order the trace of the curve gives to the twist (the formulas for the orders of twists are taken from the literature, not proved).
* C59 Double: SpecFloat's rounding is the identity on numbers with at most 53 digits; the
  refutations are computed.

## Modelled and not modelled

Modelled: everything in the table above, for all limb counts and moduli, all
curves (bn128: everything except what it delegates to the ate-pairing library). Simplifications are stated at each definition; the main ones:

* Object identity is dropped: methods that mutate `*this` are functions to the new
  value; aliasing is considered where the code copies late (C04, operators `+=`).
* `std::vector`, `std::map`, `std::set` are lists (sorted association lists);
  `std::make_heap` is an oracle constrained by its documented postcondition.
* Static members initialised by `init_*` are constants; use before init is not
  modelled. Thread interleavings occur only in OpenMP chunking (C18), modelled as
  an arbitrary completion order of independent chunks.
* Profiling times are arbitrary clock readings.

Not modelled: the bn128 Miller loop and final exponentiation (bn128_pairing.cpp passes them
to the external ate-pairing library);
`inverse` and `pow` of `Double` (C library), the NaN recovery of complex multiplication;
the layout and rounding of the profiler's output;
exception safety of allocation; that the compiler respects
the inline-assembly operand constraints; `NDEBUG` builds of functions that are not in NdebugModel.v, NdebugMultiModel.v or NdebugParseModel.v.

## Trusted base

* Coq's kernel, including `vm_compute` and primitive 63-bit integers.
* What `Print Assumptions` lists (next section).
* GMP's `mpn_*` functions are represented by the executable reference functions in
  Limbs.v (carry-propagating add, sub, mul, ...); `mpn_gcdext` by its documented
  specification; `mpn_set_str`/`mpz` conversion by digit-list semantics.
* For bn128, the ate-pairing library: bn::Fp, bn::Fp2, bn::Fp12 are the fields of the model,
  ECAdd and ECDouble are arbitrary functions which add different points and double (hypotheses
  `ecadd_ok`, `ecdouble_ok` of the theorems), `mie::power` is exponentiation, the streams of
  bn::Fp are any codec which round trips and whose first bit tells y from -y.
* The x86-64 instruction semantics in FpAsmModel.v and the PCLMULQDQ/SSE intrinsics
  in BinaryModel.v, written from the manuals.
* IEEE 754 binary64 is the standard library's `SpecFloat` (round to nearest even, no fused
  multiply-add, 64-bit `size_t`).
* `randombytes_buf`, `std::random_device` and SHA-512 are arbitrary functions.
* The transcription from C++ to Gallina, done by hand, with citations.
* I/O streams are byte lists; `std::ostream` formatting of integers is decimal.

## Assumptions

No axiom is declared in this development. 544 property theorems and
examples are "Closed under the global context". The other 106 use facts about
concrete constants (primes, towers, generators) that were checked with the
standard library's primitive integers, and list exactly the following
declarations of `Coq.Numbers.Cyclic.Int63` (types and operations of PrimInt63,
and their specification axioms in Uint63):

`PrimInt63.add`, `PrimInt63.eqb`, `PrimInt63.int`, `PrimInt63.land`, `PrimInt63.leb`, `PrimInt63.lor`, `PrimInt63.lsl`, `PrimInt63.lsr`, `PrimInt63.ltb`, `PrimInt63.mul`, `PrimInt63.sub`;
`Uint63.add_spec`, `Uint63.eqb_correct`, `Uint63.eqb_refl`, `Uint63.land_spec`, `Uint63.leb_spec`, `Uint63.lor_spec`, `Uint63.lsl_spec`, `Uint63.lsr_spec`, `Uint63.ltb_spec`, `Uint63.mul_spec`, `Uint63.of_to_Z`, `Uint63.sub_spec`.

They are:
`C10_hypotheses_met`, `C10_shipped_fields`, `C10_shipped_four`,
`C10_shipped_six`, `C10_shipped_twelve`, `C11_hypotheses_met`,
`C11_shipped_fields`, `C27_shipped_four`, `C27_shipped_six`,
`C27_shipped_twelve`, `C38_bn128_g1`, `C38_bn128_g1_vector`, `C38_bn128_g2`,
`C38_bn128_g2_ambiguous`, `C38_bn128_off_curve`, `C38_hypotheses_met`,
`C40_shipped`, `C41_alt_bn128`, `C41_bls12_381`, `C41_mnt4`,
`C41_mnt6_edwards`, `C42_alt_bn128_left`, `C42_alt_bn128_left_partial`,
`C42_alt_bn128_refuted`, `C42_alt_bn128_right`, `C42_bls12_381_left`,
`C42_bls12_381_partial`, `C42_bls12_381_refuted`, `C42_bls12_381_right`,
`C42_edwards_left`, `C42_edwards_left_partial`, `C42_edwards_refuted`,
`C42_edwards_right`, `C42_edwards_tate_left`, `C42_edwards_tate_refuted`,
`C42_edwards_tate_right`, `C42_mnt4_refuted`, `C42_mnt6_left_refuted`,
`C42_mnt6_refuted`, `C42_mnt6_right`, `C42_mnt6_right_partial`,
`C42_mnt6_right_refuted`, `C44_alt_bn128_bls12_381`, `C44_base_fields`,
`C44_bn128_curve`, `C44_bn128_fields`, `C44_edwards_curve`, `C44_mnt4`,
`C44_mnt6_curve`, `C44_mnt6_edwards`, `C44_moduli_prime`,
`C44_shipped_fields`, `C47_example`, `C47_order`, `C49_alt_bn128`,
`C49_alt_bn128_generators`, `C49_alt_bn128_nondegenerate`, `C49_bls12_381`,
`C49_bls12_381_generators`, `C49_bls12_381_nondegenerate`, `C49_edwards`,
`C49_edwards_example`, `C49_edwards_nondegenerate`, `C49_edwards_tate`,
`C49_edwards_tate_nondegenerate`, `C49_example`, `C49_mnt4`,
`C49_mnt4_example`, `C49_mnt4_nondegenerate`, `C49_mnt6`,
`C49_mnt6_nondegenerate`, `C50_mnt4`, `C50_mnt6_refuted`, `C51_alt_bn128`,
`C51_at_generators`, `C51_bls12_381`, `C51_edwards`, `C51_edwards_tate`,
`C51_mnt4`, `C51_mnt6`, `C52_bn128_generators`, `C52_edwards_generators`,
`C52_edwards_mul_by_q`, `C52_generators`, `C52_mnt4_generators`,
`C52_mnt4_mul_by_q`, `C52_mnt6_generators`, `C52_mnt6_mul_by_q`,
`C52_mul_by_q`, `C53_hypotheses_met`, `C54_hypotheses_met`, `C55_example`,
`C55_shipped`, `C55_zero_refuted`, `C57_coset_shift_tight`, `C58_bn128`,
`C58_bn128_hypotheses_met`, `C58_edwards`, `C58_mnt4`, `C58_mnt6`,
`C58_shipped`, `C60_example`, `C60_mnt4`, `C60_mnt4_groups`, `C60_mnt6`,
`C60_mnt6_groups`.
