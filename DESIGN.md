# Design

Target: CryptoLabInc/EvalRound (`/repo`, C++ headers).  Tool: Coq 8.16.1, sources in `rocq/theories`.

## Modelling conventions

* `res A := Ok a | Undef | Abort | Diverge`.  `Undef` is undefined behaviour (out-of-bounds access,
  read of an uninitialised cell, bad shift count, signed overflow, division by zero, out-of-range
  float-to-integer conversion), `Abort` a failed `assert`, `Diverge` exhausted fuel.
* Machine words are `Z` in `[0,2^64)`; every C operation that wraps has an explicit `mod 2^64`.
* Arrays are lists of cells; a cell is `option Z`, `None` meaning uninitialised.  Indices are `Z`; an
  index outside the list is `Undef`.
* `for` loops are the combinators of `Base.v`; loops without an a priori bound carry fuel and the
  theorems prove that the stated fuel suffices (or that no fuel does).
* `rand()` is an arbitrary stream `nat -> Z` with a read position.
* Doubles, first model: `double` is the type of real numbers (or of the elements of an arbitrary commutative ring)
  and arithmetic is exact; `PI` is pi, `cos`, `sin`, `pow` are the real functions.  C47-C80 are about this model, except
  that EvalMod (C71-C79) uses the decimal value of the macro `PI`.
* Doubles, second model (`Float.v`, `FloatLin.v`, `FloatMod.v`): every operation of DFT.h, endecode.h, of the set-up of the linear transforms, of poly.h and of EvalMod rounds.  The rounding function, the constant
  PI and the library functions cos and sin are parameters (`fpu`); the theorems C81-C86 and C107-C114 hold for all parameters that
  meet the record `arithmetic` of SpecFloat.v, and C87 shows that IEEE double precision (round to nearest, ties to even,
  subnormal numbers; cos and sin correctly rounded) meets it.  Infinities and NaN are not values of the model; the
  theorems' hypotheses bound all intermediate results below 2^1023.  `f_fft exact_fpu = fft` etc. hold by reflexivity.
* `abs(m[i])` in endecode.h:15 is taken to be the overload for `double` (declared by `<cmath>`; with `int abs(int)` the
  program would truncate).

## Layout

`Base.v` (result monad, loops, arrays) -> models (see the table) -> `*Facts.v`, `*Slots.v`, `Noise.v`, ... (proofs) ->
`Spec*.v` (specifications that do not mention the model's functions) -> `Properties_*.v` (the theorems `Cnn_...`, each
followed by an `Example` that meets its hypotheses).  `MANIFEST.json` lists the theorems of every property.

| code | model | theorems |
|---|---|---|
| include/util/util.h 1-60 (log, bitReverse, rand_uint64) | Util.v | Properties_Mod.v |
| include/HEAAN/arith/Z_Q.h | ZQ.v | Properties_ZQ.v |
| include/HEAAN/arith/R_Q.h, R_Q_square.h | RQ.v, Core.v | Properties_Core.v |
| include/HEAAN/arith/conv/mod.h, assembly/*.asm, ntt.h, crt.h, conv.h | Mod.v, NTT.v, CRT.v, Conv.v | Properties_Mod.v, Properties_NTT.v, Properties_Conv.v |
| include/HEAAN/arith/conv.h | Conv.v; Par.v (OpenMP loops) | Properties_Conv.v, Properties_Par.v |
| include/HEAAN/core.h | Core.v | Properties_Core.v |
| include/HEAAN/linear_transform.h 6-84; 118-262 | Rot.v; LinTrans.v (exact), FloatLin.v (rounded) | Properties_Rot.v; Properties_Lin.v, Properties_FloatLin.v |
| include/HEAAN/matrix/matrix.h, include/impl/message.h | Matrix.v (any operations: exact, rounded), FloatMsg.v | Properties_Mat.v, Properties_MatAssert.v, Properties_MatAssert2.v, Properties_MatAssert3.v, Properties_Msg.v, Properties_FloatMsg.v, Properties_FloatMsg2.v |
| include/HEAAN/matrix/DFT.h | DFT.v (exact), Float.v (rounded), FloatMsg.v (rounded quadratic dft/idft) | Properties_DFT.v, Properties_Float.v, Properties_FloatDFT.v, Properties_FloatDFT2.v |
| include/HEAAN/endecode.h | Encode.v (exact), Float.v (rounded) | Properties_Enc.v, Properties_Float.v |
| include/impl/plaintext.h, simple_plaintext.h | Plain.v (exact), FloatSimple.v (rounded) | Properties_Plain.v, Properties_FloatSimple.v |
| include/HEAAN/poly.h | Poly.v (exact), FloatMod.v, FloatCheb.v (rounded) | Properties_Poly.v, Properties_FloatMod.v, Properties_FloatCheb.v |
| include/HEAAN/bootstrap.h 14-90; 92-228 | Bootstrap.v (exact), FloatLin.v (rounded); EvalMod.v (exact), FloatMod.v (rounded) | Properties_Boot.v, Properties_FloatLin.v; Properties_EvalMod.v, Properties_FloatMod.v |
| src/experiment/section4/proposal.cpp, include/experiment/rns.h | Pipeline.v (exact), FloatMod.v (rounded) | Properties_Pipe.v, Properties_FloatPipe.v, Properties_Tail.v, Properties_FloatTail.v |
| src/experiment/section3/lemma_*.cpp, theorem_single_matmul_error.cpp, theorem_serial_matmul_error.cpp | Section3.v, FloatStat.v (lemma_*.cpp, rounded), FloatPlain.v (theorem_single_matmul_error.cpp, rounded) | Properties_FloatPlain.v, Properties_FloatPlain2.v, Properties_FloatStat.v, Properties_FloatStat2.v, Properties_Stat.v, Properties_MatErr.v, Properties_Serial.v, StatExamples.v |
| src/experiment/section4/measure_b_evalmod.cpp, example_sup_norm.cpp (check_sup_norm_bound), design_delta_tilde*.cpp, constants of theorem_cts_error.cpp, src/test/evalMod_test.cpp, setup.h, sup_norm of message.h | Section4.v, FloatMeasure.v (rounded) | WideCos.v, WideMod.v, FloatWide.v, Properties_FloatMeasure.v, SupFacts.v, Messages.v, MeasFacts.v, Measure.v, EmTest.v, Constants.v, Properties_ExpAssert.v, SupRatio.v, Design.v |
| measure_cts_error of src/experiment/section3/theorem_cts_error.cpp, measure_sup_norm of section4/example_sup_norm.cpp | CtsMeasure.v | CtsProps.v, CtsProg.v, CtsNum.v |
| src/test/mod_test.cpp, mul_test.cpp, crt_test.cpp, ntt_test.cpp, dft_test.cpp, conv_test.cpp, ctxt_conv_test.cpp | TestProg.v, FloatTests.v (rounded) | TestArith.v, TestLayers.v, Properties_FloatTests.v, Properties_FloatTests2.v |
| src/test/matmul_test.cpp, coeffToSlot_test.cpp | TestLin.v, FloatTests.v, FloatTestMat.v (rounded) | TestMat.v, TestLinT.v, TestCts.v, Properties_FloatTests3.v, Properties_FloatTests4.v |
| src/test/bootstrap_test.cpp, evalqI_test.cpp, end_to_end_test.cpp, section4/proposal.cpp | TestBoot.v, FloatTestBoot.v, FloatTestE2E.v (rounded) | TestBootP.v, TestE2E.v, Properties_FloatTestBoot.v, Properties_FloatE2E.v |
| include/experiment/setup.h 23-31, 51-58, 68-78 (rounded) | FloatSetup.v | Properties_FloatSetup.v |
| aliased calls of Z_Q.h, R_Q.h, R_Q_square.h, conv.h, linear_transform.h, core.h | ZQ.v, RQ.v, Conv.v, Alias.v | Properties_Alias.v |
| function-static tables, uses of rand() across all functions | the same models | Properties_Static.v, Properties_Draws.v |

## Plan per property

* **C01 Z_Q addition is addition modulo 2^LOGQ** — Model `operator+=` word by word (cells may be uninitialised). Loop invariant on (digit-prefix, carry).
* **C02 Z_Q negation and subtraction are exact modulo 2^LOGQ** — Model negate/-= on words; canonical representation lemma.
* **C03 64x64->128 multiplication never loses a carry** — Model both multipliers on words; nonlinear Z arithmetic.
* **C04 Z_Q multiplication by a word and by a Z_Q is exact modulo 2^LOGQ** — Model both `*=`; invariant: partial sums modulo 2^(64 len).
* **C05 Z_Q addition is safe under self-aliasing** — Expected false: `c_next` compares a word with itself. Prove `_refuted`, and the part that holds (no word has its top bit set).
* **C06 shift_left multiplies exactly by a power of two and initialises every word** — Model with word/bit offsets; digit-level specification.
* **C07 shift_right divides by a power of two rounding to nearest** — As C06, with the rounding carry.
* **C08 Sign test and resize preserve the signed value** — Model sign test and resize; centered remainder specification.
* **C09 Decimal printing and parsing round-trip** — Model both string functions over byte lists; invariant on big-endian decimal value. Over-wide strings: fr_str does not reduce, stated as precondition.
* **C10 Conversion of Z_Q to double** — Model the 64-bit result before the last conversion (value in Z). Expected false for |v|>=2^64: `_refuted` + `_partial` for |v|<2^63.
* **C11 max_valid_digit finds the top significant word** — Expected false for negatives (constant 0xFFFFFFFF): `_refuted` + `_partial` for nonnegative.
* **C12 cmpge decides >= on multi-word integers** — Loop invariant.
* **C13 128-by-64 modular reduction is exact, in C and in assembly** — C model and a small x86-64 `div` model (with #DE as Undef).
* **C14 add_mod, sub_mod, mul_mod are exact for unreduced operands** — Direct.
* **C15 pow_mod computes modular powers for all exponents** — Fuelled recursion on n; 64-bit fuel shown sufficient.
* **C16 inv_mod is the modular inverse for every prime modulus** — Fermat's little theorem (NumFermat.v).
* **C17 findPrimeFactors returns exactly the prime divisors** — While loops with fuel; trial division invariant.
* **C18 findPrimitiveRoot returns the least primitive root of an odd prime** — Existence of primitive roots by counting roots of polynomials (NumFermat.v); order argument.
* **C19 bitReverse reverses the low digits and is an involution** — Bit-level proof by testbit for 32-bit words.
* **C20 log returns the exact ceiling logarithm** — Loop invariant; UB case refuted.
* **C21 NTT evaluates at the odd powers of the root, in bit-reversed order** — Stage invariant on block polynomials.
* **C22 intt inverts ntt** — Inverse stage is inverse up to 2; N^-1 at the end.
* **C23 Pointwise product in the NTT domain is the negacyclic product** — From C21/C22 and multiplicativity of evaluation.
* **C24 icrt returns residues congruent to the signed value** — Expected false for one-word widths 61..64: `_refuted`; proved for len>=2 and LOGQ<=60.
* **C25 crt reconstructs the centered integer** — CRT with centered lift; while loop bounded by number of moduli.
* **C26 The built-in modulus table is adequate** — Pocklington certificates checked by computation in the kernel.
* **C27 conv is the exact negacyclic product modulo 2^LOGQ** — Composition of C21-C26 with a magnitude bound.
* **C28 conv is exact for one-word moduli of 61 to 64 bits** — Expected false: `_refuted`.
* **C29 conv tolerates an output aliasing an input** — The model of conv takes a memory of named polynomials.
* **C30 Parallel loops are schedule independent** — Iterations as independent transformations of disjoint components; theorem over arbitrary permutations and interleavings of per-component steps.
* **C31 conv with a ternary key is the exact negacyclic product** — Model the int-key conv; negacyclic sum spec.
* **C32 conv with an integer polynomial of arbitrary entries** — Expected false: `_refuted`.
* **C33 Integer negacyclic convolution is exact and does not overflow on keys** — Model with int overflow as Undef.
* **C34 keygen yields exactly h signed units** — Random stream nat->Z; fuelled loop.
* **C35 Decryption recovers the plaintext up to the fresh noise** — Composition of C31 with uniform a; noise bound.
* **C36 Ciphertext arithmetic is homomorphic** — Ring algebra on decryptions.
* **C37 Rescaling divides the decryption with bounded error** — Rounding error times ternary key.
* **C38 Key switching preserves the decryption up to bounded noise** — Model swkgen/ks; bound.
* **C39 Homomorphic multiplication is correct up to bounded noise** — As C38.
* **C40 Rotation is the ring automorphism X -> X^(5^r)** — Index map i*5^r mod 2N; automorphism via 2N-periodic extension.
* **C41 Conjugation is the ring automorphism X -> X^-1** — Same.
* **C42 Encrypted rotation and conjugation** — C38+C40.
* **C43 ModRaise adds a small multiple of the base modulus** — Integer lift, triangle inequality.
* **C44 EvalRound output error is exactly the qI-evaluation error** — Ring algebra on the code of proposed_bootstrap_test's last step.
* **C45 Linear transform with given rotation keys** — Expected false (offset 0 leaves ct_rot uninitialised): `_refuted` + `_partial`.
* **C46 Linear transform with the secret key evaluates sum_s pt_s*rot(ct,off_s)** — C42 summed.
* **C47 SparseDiagonal set/get/transpose/negate/scale** — Model over an arbitrary commutative ring of entries (doubles abstracted).
* **C48 MatMul is the matrix product** — Model and prove over a commutative ring.
* **C49 SparseDiagonal += keeps matrix-vector products linear** — Expected false: `_refuted`.
* **C50 Matrix-vector product agrees with the dense definition** — Same.
* **C51 The factorised transform equals the DFT at the 5^i-th odd roots** — Real-number model; twiddle factor algebra.
* **C52 ifft and fft are mutually inverse, and idft inverts dft** — Same.
* **C53 Calling order does not change fft/ifft/conv/CoeffToSlot results** — State machine with Option table.
* **C54 encode/decode round-trip error** — Real-number model of encode/decode.
* **C55 decode turns ring operations into slot operations** — Composition.
* **C56 decode_log equals decode at Delta=2^LOGDELTA** — Real-number model; uses C11.
* **C57 SimplePlaintext agrees with R_Q plaintexts** — Composition.
* **C58 Matrix-vector product on plaintexts** — Composition.
* **C59 aggregate concatenates two messages** — Expected false: `_refuted`.
* **C60 Chebyshev-to-product basis conversion** — Polynomial identity over R.
* **C61 Polynomial evaluation accepts every coefficient sign** — Expected false: `_refuted`.
* **C62 Homomorphic polynomial evaluation** — Composition of C37/C39 for each degree.
* **C63 rand_uint64 covers all words** — Counting.
* **C64 CoeffToSlot moves coefficients to slots** — C51/C52 with the matrices of the code.
* **C65 RemoveClutter, C66 dense product, C67 mat_to_vecs, C68 messages** — Exact-arithmetic models over any commutative ring.
* **C69 Negative offsets, C70 mul in place** — Expected false: `_refuted`.
* **C71-C73 EvalMod** — Evaluation of the polynomial by C62, doubling and the cubic; distance of the polynomial from cos(3 pi t) by
  integer Chebyshev arithmetic checked in the kernel; the whole is within a stated bound of the reduction modulo 1 for K = 24;
  for other K `_refuted`.
* **C74-C79 Bootstrapping** — Composition of C43, C64, C71/C72 and the final subtraction; numbers for the parameters of rns.h.
* **C80 Randomness** — Number of results of rand() taken by every function, and dependence on no others.
* **C81-C87 Floating point** — Error recurrences per butterfly layer against the exact stages of DFTTheory.v.
* **C107-C110 Floating point, linear transforms** — Rounding errors of products of matrices row by row (FloatMM.v, FloatGroup.v), of the
  tables (FloatBoot.v), then the slot arguments of C46 and C64 with a larger error per row (FloatSerial.v, FloatGrouped.v, FloatBootSlots.v).
* **C111-C112 Floating point, EvalMod** — The rounded coefficients are replaced by exact nearby ones and C62 is applied to these
  (FloatModFacts.v); the errors are propagated as in C72 (FloatModBound.v).
* **C113-C115 Floating point, bootstrapping** — The proofs of C74-C77 with C109, C110 and C112 for the parts (FloatPipeFacts.v, FloatPipe.v).
* **C116-C117 Almost all ciphertexts** — `almost_all` counts second components (SpecTail.v). The sum of independent bounded terms is
  bounded by its exponential moment, cosh x <= exp(x^2/2) and Markov's inequality (TailFacts.v, TailNum.v).
* **C118-C120 Floating point, messages and quadratic transforms** — Every accumulation loop is a sequence of steps that add an error
  proportional to the bound on the partial sums (FloatDot.v); roots by sqrt(x+d) <= sqrt x + sqrt d and division by sqrt x (FloatMsgFacts.v);
  the tables' errors as in C81 (FloatDirect.v).  Agreement and inversion by the triangle inequality from C51, C52, C81, C82.
* **C121-C124 Floating point: dense keys, poly.h conversion, setup.h, bootstrapping programs** — C121 combines C113/C114's error with C116's
  tail bound.  C122: induction over the levels of the recursion with error 2*2^k per level (Properties_FloatCheb.v).  C123: Lipschitz bounds
  for cosine and sine.  C124: start, procedure and finish separately (as C105), maxima of rounded quotients by an invariant over the loop.
* **C125 Floating point: simple_plaintext.h** — the error of a sum of rounded products by induction on the length (as C118), encode and decode
  as C83 and C85 without the transform (FloatSimple.v, Properties_FloatSimple.v).
* **C126 Floating point: dft_test, conv_test, ctxt_conv_test, evalMod_test, coeffToSlot_test, matmul_test** — the proofs of C102, C103, C104 and C96 with C83, C85, C112, C118, C120
  for the parts; encode with separate bounds for slots and coefficients (FloatEnc2.v, Properties_FloatTests.v to Properties_FloatTests4.v).
* **C127 One object in two places** — loop invariants with the object as it is part-way through (Alias.v, Properties_Alias.v).
* **C128 end_to_end_test in double precision** — the proof of C106 with the stages of C112 and C121 and the rounded measurements (FloatTestE2E.v, FloatE2EFacts.v, Properties_FloatE2E.v).
* **C129 measure_b_evalmod in double precision** — EvalMod on the widened interval of WideMod.v with the rounded operations (FloatWide.v), the messages, encode, decode and sup_norm rounded (FloatMeasure.v, Properties_FloatMeasure.v).
* **C130, C131 lemma_conv_error and lemma_conv_sum_error in double precision** — the plaintexts of C125 with the rounded operations; Parseval's identity and the Cauchy-Schwarz inequality for the sums of squares (FloatStat.v, Properties_FloatStat.v, Properties_FloatStat2.v).
* **C132 matrix-vector products of plaintexts and theorem_single_matmul_error in double precision** — the loop of C58 with C83 for encode and C85 for decode_log, then C119, C118 for the messages (FloatPlain.v, Properties_FloatPlain.v, Properties_FloatPlain2.v).
* **Properties_Exact.v** — What the code does where the partial properties C11, C24, C49, C69, C70, C73 and C79 fail.

* **C88-C91 Measurements of section 3** — Exact reals.  The expectation is a positive normalised linear functional over the rounding
  errors; the theorems give the mean of the square of what is printed, and bounds for every run.
* **C92-C99 Programs of section 4** — Exact reals, pow is the real power, log2 the exact logarithm.  C92 repeats C72 on the wider interval that
  measure_b_evalmod.cpp uses.  The parameters of rns.h are fixed in C93 and C96, everything else is general.
* **C100 Measured error of CoeffToSlot** — Exact reals.  The measured arrays are proved exactly (including the truncation of the coefficients to their
  low words), then the call of aggregate is shown to be undefined.
* **C101, C102 Test programs** — C101 is about machine words and needs no reals.  C102 is in exact reals; the bounds are for every run.

## Trusted base

* Coq's kernel (8.16.1), including `vm_compute` (used for the certificates of PrimeTable.v, the integer polynomials of
  CosApprox.v and for examples; `coqchk` rechecks all of them without the virtual machine).
* That the models translate the C++ correctly, as described above and in the comment of every definition.
* No axioms are added.  What `Print Assumptions` lists (all from Coq's standard library):

  The axioms are `ClassicalDedekindReals.sig_forall_dec`, `ClassicalDedekindReals.sig_not_dec`,
  `FunctionalExtensionality.functional_extensionality_dep` and `Classical_Prop.classic`.

* Closed under the global context (167 theorems):
  C01_add, C02_negate, C02_sub, C03_mul, C03_mul_u128, C04_mul, C04_mul_word, C05_self_add_partial,
  C05_self_add_refuted, C06_shift_left, C07_shift_right, C07_shift_right_nearest, C07_shift_right_same,
  C08_resize, C08_resize_narrower, C08_resize_roundtrip, C08_resize_wider, C08_sign, C09_fr_str,
  C09_roundtrip, C09_to_str, C09_to_str_wide, C101_crt_test, C101_mod_test, C101_mul_test, C101_ntt_test,
  C101_programs, C10_to_double_partial, C10_to_double_refuted, C11_max_valid_digit_negative,
  C11_max_valid_digit_partial, C11_max_valid_digit_refuted, C127_Mul_first, C127_Mul_first_refuted,
  C127_add_self, C127_conj_int_self, C127_conj_self, C127_conv_ternary_self, C127_conv_ternary_self_refuted,
  C127_mul_component, C127_resize_poly_self, C127_resize_self, C127_resize_self_refuted, C12_cmpge, C13_mod,
  C13_mod_zero, C14_add_sub_mul_mod, C15_pow_mod, C15_pow_mod_one, C16_inv_mod, C17_findPrimeFactors,
  C17_findPrimeFactors_zero, C18_findPrimitiveRoot, C19_bitReverse, C19_bitReverse_undef, C20_log,
  C20_log_undef, C21_ntt_evaluates, C22_intt_inverts, C23_ntt_product, C24_icrt_exact, C24_icrt_partial,
  C24_icrt_refuted, C25_crt, C25_round_trip, C26_table, C26_table_limit, C27_conv, C27_conv_history,
  C28_conv_word_between, C28_conv_word_outside, C28_conv_word_partial, C28_conv_word_refuted,
  C29_conv_aliasing, C30_CONV_conv_schedule, C30_conv_rows_schedule, C30_conv_s_schedule,
  C30_crt_polynomial_schedule, C30_icrt_polynomial_schedule, C31_conv_ternary, C32_conv_integer_partial,
  C32_conv_integer_refuted, C33_conv_int, C33_conv_int_ternary, C34_keygen, C34_keygen_never,
  C34_keygen_returns, C35_dec, C35_enc_dec, C35_enc_randomness, C36_add, C36_mul_plain, C36_mul_word, C36_sub,
  C37_RS, C38_ks, C38_ks_key, C38_swkgen, C39_Mul, C39_Mul_key, C40_rot, C40_rot_add, C40_rot_compose,
  C40_rot_int, C40_rot_mul, C40_rot_negative, C40_rot_period, C40_rot_zero, C40_substituted_unique, C41_conj,
  C41_conj_add, C41_conj_int, C41_conj_mul, C42_conj_ct, C42_conj_ct_key, C42_rot_ct, C42_rot_ct_key,
  C43_mod_raise, C44_evalround, C44_evalround_error, C47_add, C47_add_mismatch, C47_copy, C47_get_element,
  C47_negate, C47_scale, C47_set_element, C47_set_element_outside, C47_setzero, C47_sub, C47_sub_mismatch,
  C47_transpose, C48_matmul, C48_matmul2_mismatch, C48_matmul2_offsets, C48_matmul_complex, C49_add_exact,
  C49_add_partial, C49_add_refuted, C50_msg_mvp, C50_msg_mvp_dense, C50_mvp3, C59_aggregate_refuted,
  C59_aggregate_undefined, C63_rand_uint64_uniform, C65_remove_clutter, C65_remove_clutter_assert,
  C65_remove_clutter_sizes, C66_matrix_product, C67_mat_to_vecs, C68_add, C68_mul, C68_new, C68_square_sum,
  C68_sub, C69_matmul_negative_refuted, C69_matmul_negative_undefined, C69_transpose_exact,
  C69_transpose_negative_refuted, C70_mul_in_place_exact, C70_mul_in_place_refuted, C78_mod_raise_sharp,
  C79_beyond_K, C79_within_K_partial, C79_within_K_refuted, C80_enc, C80_swkgen

* {sig_forall_dec} (2 theorems):
  C122_small, C60_small

* {sig_forall_dec, functional_extensionality_dep} (14 theorems):
  C103_isEqual, C107_offsets, C108_group_assert, C57_add, C57_conv, C57_rotate, C57_sub, C60_convert,
  C61_defined_refuted, C61_undefined, C80_EvalMod, C93_small, C94_max_error, C95_evalmod_message

* {sig_forall_dec, sig_not_dec, functional_extensionality_dep} (112 theorems):
  C100_cts_input, C100_pt_norms, C102_conv_test, C102_conv_test_parameters, C102_ctxt_conv_test,
  C102_ctxt_conv_test_parameters, C102_ifft_test, C102_run_test, C103_element_test,
  C103_linear_transform_parameters, C103_linear_transform_test, C103_product, C103_vector_test, C111_deg127,
  C111_deg15, C111_deg3, C111_deg31, C111_deg63, C111_deg7, C118_add, C118_max_error, C118_mul, C118_norm,
  C118_norm_double, C118_square_sum, C118_sub, C118_sup_norm, C118_sup_norm_double, C119_matrix_product,
  C119_matrix_product_double, C119_mvp, C119_mvp_dense, C119_mvp_double, C123_evalmod_message,
  C123_evalmod_message_double, C125_add, C125_conv, C125_conv_double, C125_norm, C125_norm_double,
  C125_square_sum, C125_sub, C45_linear_transform_keys_partial, C45_linear_transform_keys_refuted,
  C45_offset_zero, C46_decoded, C46_linear_transform, C46_offsets_differ, C46_serial, C46_slots, C51_dft,
  C51_fft, C52_calls, C52_fft_ifft, C52_idft_dft, C52_ifft_fft, C52_ifft_idft, C53_transforms, C54_encode,
  C54_encode_clutter, C54_encode_undefined, C54_roundtrip, C55_add, C55_conj, C55_decode, C55_mul, C55_rot,
  C56_decode_log, C56_decode_log_decode, C57_decode, C57_encode, C57_norm, C57_norm_root, C57_raw_mul,
  C57_raw_rotate, C57_raw_roundtrip, C58_mvp, C58_mvp3, C58_mvp3_mismatch, C62_chebyshev, C62_deg127,
  C62_deg15, C62_deg3, C62_deg31, C62_deg63, C62_deg7, C64_SlotToCoeff, C64_SlotToCoeff_matrices,
  C64_group_assert, C64_grouped, C71_unique, C80_SlotToCoeff, C80_grouped, C80_linear_transform, C80_serial,
  C87_exact, C88_conv_error_max, C88_conv_error_mean, C89_conv_sum_error_mean, C89_rotated_mean,
  C90_single_matmul_max, C90_single_matmul_mean, C91_serial_matmul_max, C91_serial_matmul_parameters,
  C94_norms, C94_sup_norm, C95_test_matrix, C95_test_matrix_refuted, C95_test_message, C97_C2_refuted,
  C97_ratio, C98_z_amb_refuted

* {sig_forall_dec, sig_not_dec, classic, functional_extensionality_dep} (155 theorems):
  C100_cts_errors, C100_measurement, C100_parameters, C100_programs_undefined, C100_words_refuted,
  C104_CoeffToSlot_SlotToCoeff_parameters, C104_CoeffToSlot_SlotToCoeff_test, C104_CoeffToSlot_parameters,
  C104_CoeffToSlot_test, C105_bootstrap_test, C105_conventional, C105_evalqI_test, C105_light_key,
  C105_proposed, C106_end_to_end_test, C106_light_key, C106_parameters, C107_linear_transform,
  C107_linear_transform_double, C108_grouped, C108_grouped_double, C109_CoeffToSlot, C109_CoeffToSlot_double,
  C110_SlotToCoeff, C110_SlotToCoeff_double, C110_round_trip_double, C112_EvalMod, C112_EvalMod_double,
  C112_EvalMod_keys, C112_nearest, C113_conventional, C113_conventional_double, C113_conventional_key,
  C114_proposed, C114_proposed_double, C114_proposed_key, C115_conventional_512, C115_conventional_experiment,
  C115_proposed_512, C115_proposed_experiment, C116_128, C116_mod_raise, C117_conventional_512,
  C117_conventional_8192, C117_proposed_512, C117_proposed_8192, C118_sign_binary64, C120_dft,
  C120_dft_double, C120_dft_fft, C120_dft_fft_double, C120_fft_ifft, C120_fft_ifft_double, C120_idft,
  C120_idft_double, C120_idft_ifft, C120_idft_ifft_double, C120_roundtrip, C120_roundtrip_double,
  C121_conventional_512, C121_conventional_double, C121_proposed_512, C121_proposed_double, C122_convert,
  C122_convert_double, C123_test_matrix, C123_test_matrix_double, C123_test_message, C123_test_message_double,
  C124_bootstrap_test, C124_conventional, C124_evalqI_test, C124_light_key, C124_proposed, C125_decode,
  C125_encode, C125_encode_raw, C125_test_rounded_message, C126_CoeffToSlot_SlotToCoeff_parameters,
  C126_CoeffToSlot_SlotToCoeff_test, C126_CoeffToSlot_parameters, C126_CoeffToSlot_test, C126_EvalMod_test,
  C126_conv_test, C126_conv_test_parameters, C126_ctxt_conv_test, C126_ctxt_conv_test_parameters,
  C126_ifft_test, C126_linear_transform_parameters, C126_linear_transform_test, C126_run_test,
  C128_end_to_end_test, C128_light_key, C128_parameters, C129_EvalMod_double, C129_EvalMod_keys_wide,
  C129_EvalMod_wide, C129_measure_b_evalmod, C129_nearest, C130_conv_error, C131_conv_sum_error, C132_mvp,
  C132_single_matmul, C53_programs, C62_real_slots, C64_CoeffToSlot, C64_CoeffToSlot_matrices,
  C64_CoeffToSlot_real, C64_round_trip, C71_EvalMod, C71_EvalMod_keys, C72_EvalMod, C72_numeric, C72_value,
  C73_only_24, C73_other_K, C73_other_K_refuted, C73_other_values, C74_conventional, C74_conventional_key,
  C75_proposed, C75_proposed_key, C76_conventional_experiment, C76_proposed_experiment, C77_conventional_512,
  C77_proposed_512, C80_CoeffToSlot, C80_conventional, C80_proposed, C81_fft, C81_fft_double, C82_ifft,
  C82_ifft_double, C83_encode, C83_encode_double, C83_encode_mean_double, C83_encode_nearest_refuted,
  C84_decode, C84_decode_double, C85_decode_log, C85_decode_log_double, C86_roundtrip, C86_roundtrip_double,
  C87_binary64, C92_EvalMod, C92_EvalMod_keys_wide, C92_EvalMod_wide, C92_numeric, C93_measure_b_evalmod,
  C96_EvalMod_test, C98_divides, C98_sanity, C99_design, C99_lattigo, C99_small

## Not modelled

* linear_transform.h 94-116 (dense `linear_transform`): it calls `rot_ct` with three arguments and does not compile when used.
* Timing, printing and file output: class `Timer` and `print` of util.h, the calls of `print` in poly.h.
* the random generator of include/experiment/setup.h (random messages are parameters).
* Floating-point rounding outside DFT.h, endecode.h, message.h, matrix.h, linear_transform.h 147-262, poly.h and bootstrap.h 14-228: the
  error measures of the tests other than norm, sup_norm, print_max_error and e_per_Delta_sup_norm.
* Data races: C30 proves that iterations touch disjoint components and that every interleaving gives the same result; the
  C++ memory model itself is not formalised.
* Stack size: large local arrays are assumed to fit.
* Aliasing of arguments except where stated (C05, C29, C70 ...); the comments of the models say which objects are distinct.
