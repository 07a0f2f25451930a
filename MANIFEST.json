{
 "claims": [
  {
   "property": "C01",
   "status": "proved",
   "theorems": [
    "C01_add"
   ],
   "note": ""
  },
  {
   "property": "C02",
   "status": "proved",
   "theorems": [
    "C02_negate",
    "C02_sub"
   ],
   "note": ""
  },
  {
   "property": "C03",
   "status": "proved",
   "theorems": [
    "C03_mul",
    "C03_mul_u128"
   ],
   "note": ""
  },
  {
   "property": "C04",
   "status": "proved",
   "theorems": [
    "C04_mul",
    "C04_mul_word"
   ],
   "note": ""
  },
  {
   "property": "C05",
   "status": "partial",
   "theorems": [
    "C05_self_add_partial",
    "C05_self_add_refuted"
   ],
   "note": "The claim is false of the code: A += A loses the carry when a word wraps (C05_self_add_refuted gives a value). C05_self_add_partial says exactly for which values it is right."
  },
  {
   "property": "C06",
   "status": "proved",
   "theorems": [
    "C06_shift_left"
   ],
   "note": ""
  },
  {
   "property": "C07",
   "status": "proved",
   "theorems": [
    "C07_shift_right",
    "C07_shift_right_nearest",
    "C07_shift_right_same"
   ],
   "note": ""
  },
  {
   "property": "C08",
   "status": "proved",
   "theorems": [
    "C08_resize",
    "C08_resize_narrower",
    "C08_resize_roundtrip",
    "C08_resize_wider",
    "C08_sign"
   ],
   "note": ""
  },
  {
   "property": "C09",
   "status": "proved",
   "theorems": [
    "C09_fr_str",
    "C09_roundtrip",
    "C09_to_str",
    "C09_to_str_wide"
   ],
   "note": ""
  },
  {
   "property": "C10",
   "status": "partial",
   "theorems": [
    "C10_to_double_partial",
    "C10_to_double_refuted"
   ],
   "note": "False in general: the code drops words above the low ones, C10_to_double_refuted has the witness. The partial theorem gives the range where the exact value is returned (before the rounding of the final conversion)."
  },
  {
   "property": "C11",
   "status": "partial",
   "theorems": [
    "C11_max_valid_digit_negative",
    "C11_max_valid_digit_partial",
    "C11_max_valid_digit_refuted"
   ],
   "note": "False for negative values (C11_max_valid_digit_refuted); C11_max_valid_digit_partial covers the nonnegative ones; C11_max_valid_digit_negative says what is returned for the negative ones."
  },
  {
   "property": "C12",
   "status": "proved",
   "theorems": [
    "C12_cmpge"
   ],
   "note": ""
  },
  {
   "property": "C13",
   "status": "proved",
   "theorems": [
    "C13_mod",
    "C13_mod_zero"
   ],
   "note": ""
  },
  {
   "property": "C14",
   "status": "proved",
   "theorems": [
    "C14_add_sub_mul_mod"
   ],
   "note": ""
  },
  {
   "property": "C15",
   "status": "proved",
   "theorems": [
    "C15_pow_mod",
    "C15_pow_mod_one"
   ],
   "note": ""
  },
  {
   "property": "C16",
   "status": "proved",
   "theorems": [
    "C16_inv_mod"
   ],
   "note": ""
  },
  {
   "property": "C17",
   "status": "proved",
   "theorems": [
    "C17_findPrimeFactors",
    "C17_findPrimeFactors_zero"
   ],
   "note": ""
  },
  {
   "property": "C18",
   "status": "proved",
   "theorems": [
    "C18_findPrimitiveRoot"
   ],
   "note": ""
  },
  {
   "property": "C19",
   "status": "proved",
   "theorems": [
    "C19_bitReverse",
    "C19_bitReverse_undef"
   ],
   "note": ""
  },
  {
   "property": "C20",
   "status": "proved",
   "theorems": [
    "C20_log",
    "C20_log_undef"
   ],
   "note": ""
  },
  {
   "property": "C21",
   "status": "proved",
   "theorems": [
    "C21_ntt_evaluates"
   ],
   "note": ""
  },
  {
   "property": "C22",
   "status": "proved",
   "theorems": [
    "C22_intt_inverts"
   ],
   "note": ""
  },
  {
   "property": "C23",
   "status": "proved",
   "theorems": [
    "C23_ntt_product"
   ],
   "note": ""
  },
  {
   "property": "C24",
   "status": "partial",
   "theorems": [
    "C24_icrt_exact",
    "C24_icrt_partial",
    "C24_icrt_refuted"
   ],
   "note": "False for one-word widths: the value is not reduced and q - ah wraps when |A| > q (C24_icrt_refuted). C24_icrt_partial proves it for LOGQ > 64 and, below, for signed values >= -q; C24_icrt_exact: it is false for all others except q = 2, and the word returned is 2^64 + q + s."
  },
  {
   "property": "C25",
   "status": "proved",
   "theorems": [
    "C25_crt",
    "C25_round_trip"
   ],
   "note": ""
  },
  {
   "property": "C26",
   "status": "proved",
   "theorems": [
    "C26_table",
    "C26_table_limit"
   ],
   "note": ""
  },
  {
   "property": "C27",
   "status": "proved",
   "theorems": [
    "C27_conv",
    "C27_conv_history"
   ],
   "note": ""
  },
  {
   "property": "C28",
   "status": "partial",
   "theorems": [
    "C28_conv_word_between",
    "C28_conv_word_outside",
    "C28_conv_word_partial",
    "C28_conv_word_refuted"
   ],
   "note": "False for every LOGQ in 61..64 (C28_conv_word_refuted: -2^60 times 1). C28_conv_word_partial: exact when all signed coefficients are >= minus the smallest prime used. C28_conv_word_outside: exact whenever no signed coefficient lies between minus the largest and minus the smallest of the three primes; C28_conv_word_between: every coefficient in that band comes out wrong in the product with 1."
  },
  {
   "property": "C29",
   "status": "proved",
   "theorems": [
    "C29_conv_aliasing"
   ],
   "note": ""
  },
  {
   "property": "C30",
   "status": "proved",
   "theorems": [
    "C30_CONV_conv_schedule",
    "C30_conv_rows_schedule",
    "C30_conv_s_schedule",
    "C30_crt_polynomial_schedule",
    "C30_icrt_polynomial_schedule"
   ],
   "note": "Interleavings of atomic actions of the iterations, for every way of cutting the iterations into actions; the iterations touch disjoint components, which is proved from the model of each loop."
  },
  {
   "property": "C31",
   "status": "proved",
   "theorems": [
    "C31_conv_ternary"
   ],
   "note": ""
  },
  {
   "property": "C32",
   "status": "partial",
   "theorems": [
    "C32_conv_integer_partial",
    "C32_conv_integer_refuted"
   ],
   "note": "False: entries other than 0 and 1 count as -1 (C32_conv_integer_refuted). C32_conv_integer_partial says what is computed for every integer polynomial."
  },
  {
   "property": "C33",
   "status": "proved",
   "theorems": [
    "C33_conv_int",
    "C33_conv_int_ternary"
   ],
   "note": ""
  },
  {
   "property": "C34",
   "status": "proved",
   "theorems": [
    "C34_keygen",
    "C34_keygen_never",
    "C34_keygen_returns"
   ],
   "note": ""
  },
  {
   "property": "C35",
   "status": "proved",
   "theorems": [
    "C35_dec",
    "C35_enc_dec",
    "C35_enc_randomness"
   ],
   "note": ""
  },
  {
   "property": "C36",
   "status": "proved",
   "theorems": [
    "C36_add",
    "C36_mul_plain",
    "C36_mul_word",
    "C36_sub"
   ],
   "note": ""
  },
  {
   "property": "C37",
   "status": "proved",
   "theorems": [
    "C37_RS"
   ],
   "note": ""
  },
  {
   "property": "C38",
   "status": "proved",
   "theorems": [
    "C38_ks",
    "C38_ks_key",
    "C38_swkgen"
   ],
   "note": ""
  },
  {
   "property": "C39",
   "status": "proved",
   "theorems": [
    "C39_Mul",
    "C39_Mul_key"
   ],
   "note": ""
  },
  {
   "property": "C40",
   "status": "proved",
   "theorems": [
    "C40_rot",
    "C40_rot_add",
    "C40_rot_compose",
    "C40_rot_int",
    "C40_rot_mul",
    "C40_rot_negative",
    "C40_rot_period",
    "C40_rot_zero",
    "C40_substituted_unique"
   ],
   "note": ""
  },
  {
   "property": "C41",
   "status": "proved",
   "theorems": [
    "C41_conj",
    "C41_conj_add",
    "C41_conj_int",
    "C41_conj_mul"
   ],
   "note": ""
  },
  {
   "property": "C42",
   "status": "proved",
   "theorems": [
    "C42_conj_ct",
    "C42_conj_ct_key",
    "C42_rot_ct",
    "C42_rot_ct_key"
   ],
   "note": ""
  },
  {
   "property": "C43",
   "status": "proved",
   "theorems": [
    "C43_mod_raise"
   ],
   "note": ""
  },
  {
   "property": "C44",
   "status": "proved",
   "theorems": [
    "C44_evalround",
    "C44_evalround_error"
   ],
   "note": ""
  },
  {
   "property": "C45",
   "status": "partial",
   "theorems": [
    "C45_linear_transform_keys_partial",
    "C45_linear_transform_keys_refuted",
    "C45_offset_zero"
   ],
   "note": "False: with offset 0 the ciphertext ct_rot is multiplied without having been given a value (C45_offset_zero: for every matrix whose first diagonal in use has offset 0; C45_linear_transform_keys_refuted has the identity matrix). C45_linear_transform_keys_partial: right for offsets different from 0 and the right keys."
  },
  {
   "property": "C46",
   "status": "proved",
   "theorems": [
    "C46_decoded",
    "C46_linear_transform",
    "C46_offsets_differ",
    "C46_serial",
    "C46_slots"
   ],
   "note": "double is the type of reals. Coefficients of the sum with its error, slots of the result, decryption and decoding, several transforms in a row, and the assert for different offsets. serial_linear_transform included."
  },
  {
   "property": "C47",
   "status": "proved",
   "theorems": [
    "C47_add",
    "C47_add_mismatch",
    "C47_copy",
    "C47_get_element",
    "C47_negate",
    "C47_scale",
    "C47_set_element",
    "C47_set_element_outside",
    "C47_setzero",
    "C47_sub",
    "C47_sub_mismatch",
    "C47_transpose"
   ],
   "note": ""
  },
  {
   "property": "C48",
   "status": "proved",
   "theorems": [
    "C48_matmul",
    "C48_matmul2_mismatch",
    "C48_matmul2_offsets",
    "C48_matmul_complex"
   ],
   "note": ""
  },
  {
   "property": "C49",
   "status": "partial",
   "theorems": [
    "C49_add_exact",
    "C49_add_partial",
    "C49_add_refuted"
   ],
   "note": "False: += leaves the flags of the left operand, so adding to a zero matrix still acts as zero (C49_add_refuted). C49_add_partial: linear when a set flag of A is also set in B. C49_add_exact: in general the diagonals flagged in both parts of A are skipped and all others are the sums."
  },
  {
   "property": "C50",
   "status": "proved",
   "theorems": [
    "C50_msg_mvp",
    "C50_msg_mvp_dense",
    "C50_mvp3"
   ],
   "note": ""
  },
  {
   "property": "C51",
   "status": "proved",
   "theorems": [
    "C51_dft",
    "C51_fft"
   ],
   "note": "double is the type of reals, PI is pi. LOGN <= 27: beyond, fivei*5 overflows int."
  },
  {
   "property": "C52",
   "status": "proved",
   "theorems": [
    "C52_calls",
    "C52_fft_ifft",
    "C52_idft_dft",
    "C52_ifft_fft",
    "C52_ifft_idft"
   ],
   "note": "double is the type of reals, PI is pi. LOGN <= 27."
  },
  {
   "property": "C53",
   "status": "proved",
   "theorems": [
    "C53_programs",
    "C53_transforms"
   ],
   "note": "C53_transforms: every sequence of calls of fft, fftNR, ifft, ifftNR with arbitrary arrays. C53_programs: every sequence of calls of these, encode, decode, the linear transforms, CoeffToSlot and SlotToCoeff, with arbitrary arguments and template parameters (2 <= LOGN <= 27). The tables of conv are covered by C27."
  },
  {
   "property": "C54",
   "status": "proved",
   "theorems": [
    "C54_encode",
    "C54_encode_clutter",
    "C54_encode_undefined",
    "C54_roundtrip"
   ],
   "note": "double is the type of reals. C54_encode_undefined and C54_encode_clutter give what happens outside the range: undefined behaviour, or coefficients that are not reduced."
  },
  {
   "property": "C55",
   "status": "proved",
   "theorems": [
    "C55_add",
    "C55_conj",
    "C55_decode",
    "C55_mul",
    "C55_rot"
   ],
   "note": "double is the type of reals; LOGN <= 27."
  },
  {
   "property": "C56",
   "status": "proved",
   "theorems": [
    "C56_decode_log",
    "C56_decode_log_decode"
   ],
   "note": "double is the type of reals."
  },
  {
   "property": "C57",
   "status": "proved",
   "theorems": [
    "C57_add",
    "C57_conv",
    "C57_decode",
    "C57_encode",
    "C57_norm",
    "C57_norm_root",
    "C57_raw_mul",
    "C57_raw_rotate",
    "C57_raw_roundtrip",
    "C57_rotate",
    "C57_sub"
   ],
   "note": "double is the type of reals. Operations on SimplePlaintext against those on R_Q, decoding of raw encodings, Parseval for norm."
  },
  {
   "property": "C58",
   "status": "proved",
   "theorems": [
    "C58_mvp",
    "C58_mvp3",
    "C58_mvp3_mismatch"
   ],
   "note": "Both overloads, error at most the sum over the diagonals of N/(2 Delta) times the modulus of the slot it multiplies; different offsets of real and imaginary part end in the assert."
  },
  {
   "property": "C59",
   "status": "partial",
   "theorems": [
    "C59_aggregate_refuted",
    "C59_aggregate_undefined"
   ],
   "note": "False: the second half reads z2.r[i] for i >= N/2, outside the array (C59_aggregate_undefined: for every input; C59_aggregate_refuted)."
  },
  {
   "property": "C60",
   "status": "proved",
   "theorems": [
    "C60_convert",
    "C60_small"
   ],
   "note": "Exact arithmetic. Every size 2^k >= 4; C60_small: below four coefficients the recursion never ends."
  },
  {
   "property": "C61",
   "status": "partial",
   "theorems": [
    "C61_defined_refuted",
    "C61_undefined"
   ],
   "note": "False: a negative coefficient is converted to uint64_t, which is undefined (C61_defined_refuted: the coefficients of T_3). C61_undefined: every coefficient outside the range, for all six functions. C62 has the calls that are defined."
  },
  {
   "property": "C62",
   "status": "proved",
   "theorems": [
    "C62_chebyshev",
    "C62_deg127",
    "C62_deg15",
    "C62_deg3",
    "C62_deg31",
    "C62_deg63",
    "C62_deg7",
    "C62_real_slots"
   ],
   "note": "double is the type of reals. All six degrees, arbitrary complex slots with a bound on T_(2^b), the error as a recursion over the levels; no condition that rules out wrap-around is needed because the statement is about residues."
  },
  {
   "property": "C63",
   "status": "proved",
   "theorems": [
    "C63_rand_uint64_uniform"
   ],
   "note": ""
  },
  {
   "property": "C64",
   "status": "proved",
   "theorems": [
    "C64_CoeffToSlot",
    "C64_CoeffToSlot_matrices",
    "C64_CoeffToSlot_real",
    "C64_SlotToCoeff",
    "C64_SlotToCoeff_matrices",
    "C64_group_assert",
    "C64_grouped",
    "C64_round_trip"
   ],
   "note": "double is the type of reals, pow is the real power. The tables in exact arithmetic, CoeffToSlot and SlotToCoeff on ciphertexts with the error in every slot or coefficient (C64_CoeffToSlot_real: split into a real part, from the rounding of the matrices, and the noise of the last key switch), the round trip, products of groups of G = 1..4 arbitrary matrices, and the asserts for other G."
  },
  {
   "property": "C65",
   "status": "proved",
   "theorems": [
    "C65_remove_clutter",
    "C65_remove_clutter_assert",
    "C65_remove_clutter_sizes"
   ],
   "note": ""
  },
  {
   "property": "C66",
   "status": "proved",
   "theorems": [
    "C66_matrix_product"
   ],
   "note": ""
  },
  {
   "property": "C67",
   "status": "proved",
   "theorems": [
    "C67_mat_to_vecs"
   ],
   "note": ""
  },
  {
   "property": "C68",
   "status": "proved",
   "theorems": [
    "C68_add",
    "C68_mul",
    "C68_new",
    "C68_square_sum",
    "C68_sub"
   ],
   "note": ""
  },
  {
   "property": "C69",
   "status": "partial",
   "theorems": [
    "C69_matmul_negative_refuted",
    "C69_matmul_negative_undefined",
    "C69_transpose_exact",
    "C69_transpose_negative_refuted"
   ],
   "note": "False: transpose leaves negative offsets in place (C69_transpose_exact) and MatMul indexes B.vec with a negative index, for all matrices with a negative offset in the left operand (C69_matmul_negative_undefined)."
  },
  {
   "property": "C70",
   "status": "partial",
   "theorems": [
    "C70_mul_in_place_exact",
    "C70_mul_in_place_refuted"
   ],
   "note": "False: the second line reads the product already stored in z1.r. C70_mul_in_place_exact has the result."
  },
  {
   "property": "C71",
   "status": "proved",
   "theorems": [
    "C71_EvalMod",
    "C71_EvalMod_keys",
    "C71_unique"
   ],
   "note": "double is the type of reals, the literals of the polynomial are the decimals written in the code. The distance of the polynomial from cos(3 pi t) on [-1,1] is proved (24e-15). C71_unique: what a ciphertext carries is determined by it."
  },
  {
   "property": "C72",
   "status": "proved",
   "theorems": [
    "C72_EvalMod",
    "C72_numeric",
    "C72_value"
   ],
   "note": "C72_numeric has a number for the error: 340000 delta + 2e-12 + 117 d^5."
  },
  {
   "property": "C73",
   "status": "partial",
   "theorems": [
    "C73_only_24",
    "C73_other_K",
    "C73_other_K_refuted",
    "C73_other_values"
   ],
   "note": "False: with K = 12 a ciphertext that carries 1 in all slots gives -7/(12 pi), not 0. C73_only_24: among all K only 24 has an error of at most 1/1000 on messages up to 1/16; C73_other_K: for every other K the output does not carry the message."
  },
  {
   "property": "C74",
   "status": "proved",
   "theorems": [
    "C74_conventional",
    "C74_conventional_key"
   ],
   "note": "double is the type of reals. C74_conventional: any bound B on the multiples of q; C74_conventional_key: every ciphertext, from the number of nonzero coefficients of the key."
  },
  {
   "property": "C75",
   "status": "proved",
   "theorems": [
    "C75_proposed",
    "C75_proposed_key"
   ],
   "note": "As C74. The noise of CoeffToSlot and the error of EvalMod remain; the rounding of the matrices of CoeffToSlot cancels (proposed_error in SpecPipe.v)."
  },
  {
   "property": "C76",
   "status": "proved",
   "theorems": [
    "C76_conventional_experiment",
    "C76_proposed_experiment"
   ],
   "note": "As C74; boot_experiment includes the encryption, the decryption and e = pt - pt_out."
  },
  {
   "property": "C77",
   "status": "proved",
   "theorems": [
    "C77_conventional_512",
    "C77_proposed_512"
   ],
   "note": "Worst-case bounds; keys with up to 44 nonzero coefficients."
  },
  {
   "property": "C78",
   "status": "proved",
   "theorems": [
    "C78_mod_raise_sharp"
   ],
   "note": ""
  },
  {
   "property": "C79",
   "status": "partial",
   "theorems": [
    "C79_beyond_K",
    "C79_within_K_partial",
    "C79_within_K_refuted"
   ],
   "note": "False: C79_within_K_refuted has a key with 128 nonzero coefficients and a ciphertext of 0 with a multiple of at least 63. C79_within_K_partial: true for keys with at most 47 nonzero coefficients; C79_beyond_K: false for all keys with 52 or more. C116: true for almost all ciphertexts with 128."
  },
  {
   "property": "C80",
   "status": "proved",
   "theorems": [
    "C80_CoeffToSlot",
    "C80_EvalMod",
    "C80_SlotToCoeff",
    "C80_conventional",
    "C80_enc",
    "C80_grouped",
    "C80_linear_transform",
    "C80_proposed",
    "C80_serial",
    "C80_swkgen"
   ],
   "note": "Exact number for enc, swkgen, linear_transform (one key per rotated diagonal) and EvalMod; at most the stated number for CoeffToSlot, SlotToCoeff and the bootstrapping procedures (diagonals marked as zero need no key)."
  },
  {
   "property": "C81",
   "status": "proved",
   "theorems": [
    "C81_fft",
    "C81_fft_double"
   ],
   "note": "For every arithmetic that meets the record arithmetic (SpecFloat.v); infinities and NaN are excluded by the hypotheses on sizes, not modelled. C81_fft_double: numbers for double precision and N <= 2^17."
  },
  {
   "property": "C82",
   "status": "proved",
   "theorems": [
    "C82_ifft",
    "C82_ifft_double"
   ],
   "note": "As C81."
  },
  {
   "property": "C83",
   "status": "proved",
   "theorems": [
    "C83_encode",
    "C83_encode_double",
    "C83_encode_mean_double",
    "C83_encode_nearest_refuted"
   ],
   "note": "C83_encode and C83_encode_double bound the error. C83_encode_nearest_refuted: with IEEE double precision, N = 4, slots (1, 2^-54), Delta = 2^60 the first coefficient stored is 32 off."
  },
  {
   "property": "C84",
   "status": "proved",
   "theorems": [
    "C84_decode",
    "C84_decode_double"
   ],
   "note": "As C81; assumes coefficients below the largest double (their powers of 2^64 are computed as doubles)."
  },
  {
   "property": "C85",
   "status": "proved",
   "theorems": [
    "C85_decode_log",
    "C85_decode_log_double"
   ],
   "note": "As C81; only the quotients by 2^LOGDELTA need to be below the largest double."
  },
  {
   "property": "C86",
   "status": "proved",
   "theorems": [
    "C86_roundtrip",
    "C86_roundtrip_double"
   ],
   "note": "As C81."
  },
  {
   "property": "C87",
   "status": "proved",
   "theorems": [
    "C87_binary64",
    "C87_exact"
   ],
   "note": ""
  },
  {
   "property": "C88",
   "status": "proved",
   "theorems": [
    "C88_conv_error_max",
    "C88_conv_error_mean"
   ],
   "note": "double is the type of reals. The uncorrelated errors are an assumption on the distribution of the message; StatExamples.v constructs distributions that meet it. C88_conv_error_max: every message."
  },
  {
   "property": "C89",
   "status": "proved",
   "theorems": [
    "C89_conv_sum_error_mean",
    "C89_rotated_mean"
   ],
   "note": "As C88. C89_rotated_mean: the sum with the rotations of pt, as in the lemma, has the same mean."
  },
  {
   "property": "C90",
   "status": "proved",
   "theorems": [
    "C90_single_matmul_max",
    "C90_single_matmul_mean"
   ],
   "note": "As C88. C90_single_matmul_max: every matrix with entries up to 1."
  },
  {
   "property": "C91",
   "status": "proved",
   "theorems": [
    "C91_serial_matmul_max",
    "C91_serial_matmul_parameters"
   ],
   "note": "A bound for every message; that the errors of the stages are typically a factor sqrt N smaller is not claimed. C91_serial_matmul_parameters: LOGN = 15, 16, LOGDELTA = 50, LOGQ = 1450."
  },
  {
   "property": "C92",
   "status": "proved",
   "theorems": [
    "C92_EvalMod",
    "C92_EvalMod_keys_wide",
    "C92_EvalMod_wide",
    "C92_numeric"
   ],
   "note": "double is the type of reals. The polynomial of degree 63 is compared with cos(3 pi t) on |t| <= 1.0105 (WideCos.v)."
  },
  {
   "property": "C93",
   "status": "proved",
   "theorems": [
    "C93_measure_b_evalmod",
    "C93_small"
   ],
   "note": "double is the type of reals; the parameters of rns.h. C93_small: LOGN <= 8, where the program divides by 0."
  },
  {
   "property": "C94",
   "status": "proved",
   "theorems": [
    "C94_max_error",
    "C94_norms",
    "C94_sup_norm"
   ],
   "note": "double is the type of reals."
  },
  {
   "property": "C95",
   "status": "proved",
   "theorems": [
    "C95_evalmod_message",
    "C95_test_matrix",
    "C95_test_matrix_refuted",
    "C95_test_message"
   ],
   "note": "C95_test_matrix_refuted: an entry of set_test_matrix that is 0. The other theorems say what is written."
  },
  {
   "property": "C96",
   "status": "proved",
   "theorems": [
    "C96_EvalMod_test"
   ],
   "note": "double is the type of reals; the parameters of rns.h."
  },
  {
   "property": "C97",
   "status": "proved",
   "theorems": [
    "C97_C2_refuted",
    "C97_ratio"
   ],
   "note": "double is the type of reals. C97_C2_refuted: the ratio sqrt(512) > 22 for a message that set_random_message can draw."
  },
  {
   "property": "C98",
   "status": "proved",
   "theorems": [
    "C98_divides",
    "C98_sanity",
    "C98_z_amb_refuted"
   ],
   "note": "double is the type of reals, pow the real power. C98_z_amb_refuted: the printed number is less than 97 % of that of the sanity check."
  },
  {
   "property": "C99",
   "status": "proved",
   "theorems": [
    "C99_design",
    "C99_lattigo",
    "C99_small"
   ],
   "note": "double is the type of reals, pow the real power and log2 the exact logarithm. C99_case has the numbers main prints."
  },
  {
   "property": "C100",
   "status": "proved",
   "theorems": [
    "C100_cts_errors",
    "C100_cts_input",
    "C100_measurement",
    "C100_parameters",
    "C100_programs_undefined",
    "C100_pt_norms",
    "C100_words_refuted"
   ],
   "note": "double is the type of reals; the random message is a parameter. C100_parameters has the three calls of main: the differences are below 0.0006, 0.5 and 350 for LOGN = 9, 13, 17 where the coefficient fits into a word. C100_words_refuted: for LOGN = 9 and every key of weight 128 there is a ciphertext of 0 with a measured difference of more than 16000 although CoeffToSlot errs by less than 1."
  },
  {
   "property": "C101",
   "status": "proved",
   "theorems": [
    "C101_crt_test",
    "C101_mod_test",
    "C101_mul_test",
    "C101_ntt_test",
    "C101_programs"
   ],
   "note": "The certificates of the primes of crt_test and ntt_test are checked by the kernel. The number of crt_test needs 2v < 2^LOGQ and 2v < product of the primes because crt reconstructs centred numbers."
  },
  {
   "property": "C102",
   "status": "proved",
   "theorems": [
    "C102_conv_test",
    "C102_conv_test_parameters",
    "C102_ctxt_conv_test",
    "C102_ctxt_conv_test_parameters",
    "C102_ifft_test",
    "C102_run_test"
   ],
   "note": "double is the type of reals; random messages are parameters."
  },
  {
   "property": "C103",
   "status": "proved",
   "theorems": [
    "C103_element_test",
    "C103_isEqual",
    "C103_linear_transform_parameters",
    "C103_linear_transform_test",
    "C103_product",
    "C103_vector_test"
   ],
   "note": "double is the type of reals; random messages are parameters. C103_linear_transform_parameters has the parameters of test.h."
  },
  {
   "property": "C104",
   "status": "proved",
   "theorems": [
    "C104_CoeffToSlot_SlotToCoeff_parameters",
    "C104_CoeffToSlot_SlotToCoeff_test",
    "C104_CoeffToSlot_parameters",
    "C104_CoeffToSlot_test"
   ],
   "note": "double is the type of reals; random messages are parameters. The _parameters theorems have the parameters of test.h."
  },
  {
   "property": "C105",
   "status": "proved",
   "theorems": [
    "C105_bootstrap_test",
    "C105_conventional",
    "C105_evalqI_test",
    "C105_light_key",
    "C105_proposed"
   ],
   "note": "double is the type of reals. C105_bootstrap_test and C105_evalqI_test have the parameters of test.h; their condition |I| <= 23 on the multiples of q holds for all keys of weight at most 44 (C105_light_key) and can fail for weight 128 (C79)."
  },
  {
   "property": "C106",
   "status": "proved",
   "theorems": [
    "C106_end_to_end_test",
    "C106_light_key",
    "C106_parameters"
   ],
   "note": "double is the type of reals. C106_parameters has the constants of rns.h; its condition |I| <= 23 on the multiples of q holds for all keys of weight at most 28 together with |I| <= 15 (C106_light_key)."
  },
  {
   "property": "C107",
   "status": "proved",
   "theorems": [
    "C107_linear_transform",
    "C107_linear_transform_double",
    "C107_offsets"
   ],
   "note": "Infinities and NaN are excluded by the hypotheses (all intermediate results below top). Tables are given as doubles; they need not be representable."
  },
  {
   "property": "C108",
   "status": "proved",
   "theorems": [
    "C108_group_assert",
    "C108_grouped",
    "C108_grouped_double"
   ],
   "note": "The rounding errors of the products depend on the rows of the matrices, not only on their largest entries."
  },
  {
   "property": "C109",
   "status": "proved",
   "theorems": [
    "C109_CoeffToSlot",
    "C109_CoeffToSlot_double"
   ],
   "note": "pow is a parameter: any function with relative error p on 1 <= x <= 2^27, 0 <= y <= 2. Division by the power and scaling round."
  },
  {
   "property": "C110",
   "status": "proved",
   "theorems": [
    "C110_SlotToCoeff",
    "C110_SlotToCoeff_double",
    "C110_round_trip_double"
   ],
   "note": "C110_round_trip_double: SlotToCoeff after CoeffToSlot in double precision."
  },
  {
   "property": "C111",
   "status": "proved",
   "theorems": [
    "C111_deg127",
    "C111_deg15",
    "C111_deg3",
    "C111_deg31",
    "C111_deg63",
    "C111_deg7"
   ],
   "note": "f_coefficients: the coefficients are at most U with U*Delta below the largest number, and not negative for the functions without sign handling."
  },
  {
   "property": "C112",
   "status": "proved",
   "theorems": [
    "C112_EvalMod",
    "C112_EvalMod_double",
    "C112_EvalMod_keys",
    "C112_nearest"
   ],
   "note": "Literals are rounded as by a compiler. The bound 340000*delta is that of C72 with the rounding errors added."
  },
  {
   "property": "C113",
   "status": "proved",
   "theorems": [
    "C113_conventional",
    "C113_conventional_double",
    "C113_conventional_key"
   ],
   "note": "Any arithmetic under the hypotheses of C109, C110 and C112; C113_conventional_double for IEEE double precision."
  },
  {
   "property": "C114",
   "status": "proved",
   "theorems": [
    "C114_proposed",
    "C114_proposed_double",
    "C114_proposed_key"
   ],
   "note": "Any arithmetic under the hypotheses of C109, C110 and C112; C114_proposed_double for IEEE double precision."
  },
  {
   "property": "C115",
   "status": "proved",
   "theorems": [
    "C115_conventional_512",
    "C115_conventional_experiment",
    "C115_proposed_512",
    "C115_proposed_experiment"
   ],
   "note": "The worst-case bounds of the rounding errors of the tables (2^-40 and 2^-37 per row) dominate the bounds for dimension 512."
  },
  {
   "property": "C116",
   "status": "proved",
   "theorems": [
    "C116_128",
    "C116_mod_raise"
   ],
   "note": "The fraction is counted in the finite set of second components (almost_all in SpecTail.v); tail_bound is the minimum over t of an exponential-moment bound."
  },
  {
   "property": "C117",
   "status": "proved",
   "theorems": [
    "C117_conventional_512",
    "C117_conventional_8192",
    "C117_proposed_512",
    "C117_proposed_8192"
   ],
   "note": "Scales 2^60 for CoeffToSlot and 2^60 (proposed) or 2^50 (conventional) for SlotToCoeff; exact table entries. For dimension 2^17 the worst-case bound of the other errors exceeds the message, so no such theorem is stated."
  },
  {
   "property": "C118",
   "status": "proved",
   "theorems": [
    "C118_add",
    "C118_max_error",
    "C118_mul",
    "C118_norm",
    "C118_norm_double",
    "C118_sign_binary64",
    "C118_square_sum",
    "C118_sub",
    "C118_sup_norm",
    "C118_sup_norm_double"
   ],
   "note": "sqrt is the correctly rounded root. For norm and sup_norm rounding must keep the sign (C118_sign_binary64: IEEE rounding does)."
  },
  {
   "property": "C119",
   "status": "proved",
   "theorems": [
    "C119_matrix_product",
    "C119_matrix_product_double",
    "C119_mvp",
    "C119_mvp_dense",
    "C119_mvp_double"
   ],
   "note": "First-order worst-case bounds; S*2^-53 at most 1/1024."
  },
  {
   "property": "C120",
   "status": "proved",
   "theorems": [
    "C120_dft",
    "C120_dft_double",
    "C120_dft_fft",
    "C120_dft_fft_double",
    "C120_fft_ifft",
    "C120_fft_ifft_double",
    "C120_idft",
    "C120_idft_double",
    "C120_idft_ifft",
    "C120_idft_ifft_double",
    "C120_roundtrip",
    "C120_roundtrip_double"
   ],
   "note": "For dft the bound is in terms of the sum of the moduli of the coefficients, for idft of the slots."
  },
  {
   "property": "C121",
   "status": "proved",
   "theorems": [
    "C121_conventional_512",
    "C121_conventional_double",
    "C121_proposed_512",
    "C121_proposed_double"
   ],
   "note": "As C117 with C113-C115's arithmetic. pow is within pw <= 2^-52 of the exact power."
  },
  {
   "property": "C122",
   "status": "proved",
   "theorems": [
    "C122_convert",
    "C122_convert_double",
    "C122_small"
   ],
   "note": "First-order worst-case bound; the theorem for general arithmetics has a closed formula (convert_error)."
  },
  {
   "property": "C123",
   "status": "proved",
   "theorems": [
    "C123_evalmod_message",
    "C123_evalmod_message_double",
    "C123_test_matrix",
    "C123_test_matrix_double",
    "C123_test_message",
    "C123_test_message_double"
   ],
   "note": "cos and sin are those of the arithmetic (within ar_cos, ar_sin); the C++ constant M_PI is dpi."
  },
  {
   "property": "C124",
   "status": "proved",
   "theorems": [
    "C124_bootstrap_test",
    "C124_conventional",
    "C124_evalqI_test",
    "C124_light_key",
    "C124_proposed"
   ],
   "note": "Compare C105 (exact arithmetic). The conventional bound of 1 on the sup norm is a worst-case bound: it shows completion and size of output, not closeness of the slots."
  },
  {
   "property": "C125",
   "status": "proved",
   "theorems": [
    "C125_add",
    "C125_conv",
    "C125_conv_double",
    "C125_decode",
    "C125_encode",
    "C125_encode_raw",
    "C125_norm",
    "C125_norm_double",
    "C125_square_sum",
    "C125_sub",
    "C125_test_rounded_message"
   ],
   "note": "Compare C68 (exact arithmetic)."
  },
  {
   "property": "C126",
   "status": "proved",
   "theorems": [
    "C126_CoeffToSlot_SlotToCoeff_parameters",
    "C126_CoeffToSlot_SlotToCoeff_test",
    "C126_CoeffToSlot_parameters",
    "C126_CoeffToSlot_test",
    "C126_EvalMod_test",
    "C126_conv_test",
    "C126_conv_test_parameters",
    "C126_ctxt_conv_test",
    "C126_ctxt_conv_test_parameters",
    "C126_ifft_test",
    "C126_linear_transform_parameters",
    "C126_linear_transform_test",
    "C126_run_test"
   ],
   "note": "Compare C102 and C96 (exact arithmetic). evalMod_test encodes slots up to 23 at scale 2^60, beyond one word, so encode is proved for coefficients of one word (C83_encode_mean_double)."
  },
  {
   "property": "C127",
   "status": "proved",
   "theorems": [
    "C127_Mul_first",
    "C127_Mul_first_refuted",
    "C127_add_self",
    "C127_conj_int_self",
    "C127_conj_self",
    "C127_conv_ternary_self",
    "C127_conv_ternary_self_refuted",
    "C127_mul_component",
    "C127_resize_poly_self",
    "C127_resize_self",
    "C127_resize_self_refuted"
   ],
   "note": "Exact description of the aliased calls; the _refuted theorems show that the functions do not do in place what they do on distinct objects. The repository itself makes no such call. rot in place and calls with partly overlapping arrays are not covered."
  },
  {
   "property": "C128",
   "status": "proved",
   "theorems": [
    "C128_end_to_end_test",
    "C128_light_key",
    "C128_parameters"
   ],
   "note": "In the model of floating-point arithmetic of Float.v; compare C106 (exact arithmetic)."
  },
  {
   "property": "C129",
   "status": "proved",
   "theorems": [
    "C129_EvalMod_double",
    "C129_EvalMod_keys_wide",
    "C129_EvalMod_wide",
    "C129_measure_b_evalmod",
    "C129_nearest"
   ],
   "note": "In the model of floating-point arithmetic of Float.v; compare C93 (exact arithmetic). The bound N/1700 says something about the messages (which are in [-1,1]) only for small N, that is for the first of the three calls of main; the third call (LOGN = 17) is not covered."
  },
  {
   "property": "C130",
   "status": "proved",
   "theorems": [
    "C130_conv_error"
   ],
   "note": "In the model of floating-point arithmetic of Float.v; compare C88 (exact arithmetic). The mean value over random messages (C88_conv_error_mean) is about exact arithmetic only."
  },
  {
   "property": "C131",
   "status": "proved",
   "theorems": [
    "C131_conv_sum_error"
   ],
   "note": "In the model of floating-point arithmetic of Float.v; compare C89 (exact arithmetic)."
  },
  {
   "property": "C132",
   "status": "proved",
   "theorems": [
    "C132_mvp",
    "C132_single_matmul"
   ],
   "note": "In the model of floating-point arithmetic of Float.v; compare C58 and C90 (exact arithmetic). The message z is the one after set_test_rounded_message, which is C125's. The bound on the number measured is a worst case: it contains the error of fft and is not relative to the number expected."
  }
 ]
}