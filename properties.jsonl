{"id": "C01", "title": "Z_Q addition is addition modulo 2^LOGQ", "statement": "For every width LOGQ>=1 and every pair of distinct Z_Q<LOGQ> objects, A += B leaves in A the canonical representation of (A+B) mod 2^LOGQ, touches no memory outside A, and leaves B unchanged, whatever clutter the operands carry above bit LOGQ.", "quantifier": "all LOGQ>=1, all word contents of both operands", "why_tests_cant": "carry chains depend on all words; widths are unbounded template parameters", "anchors": ["include/HEAAN/arith/Z_Q.h: Z_Q::operator+=, remove_clutter"]}
{"id": "C02", "title": "Z_Q negation and subtraction are exact modulo 2^LOGQ", "statement": "For every LOGQ>=1 and every canonical A, B: A.negate() yields (-A) mod 2^LOGQ and A -= B yields (A-B) mod 2^LOGQ (also when B is A itself, giving 0), with a canonical result.", "quantifier": "all LOGQ, all canonical values", "why_tests_cant": "carry propagation over all words", "anchors": ["include/HEAAN/arith/Z_Q.h: negate, operator-="]}
{"id": "C03", "title": "64x64->128 multiplication never loses a carry", "statement": "For every two 64-bit words a,b the two output words satisfy hi*2^64+lo = a*b, in both mul (32-bit halves) and mul_ (u128), even when an output reference aliases an input variable's storage.", "quantifier": "all 2^128 input pairs", "why_tests_cant": "2^128 inputs", "anchors": ["include/HEAAN/arith/Z_Q.h: mul", "include/HEAAN/arith/conv/mod.h: mul_", "include/HEAAN/arith/conv/assembly/mul_hi.asm", "include/HEAAN/arith/conv/assembly/mul_lo.asm"]}
{"id": "C04", "title": "Z_Q multiplication by a word and by a Z_Q is exact modulo 2^LOGQ", "statement": "For every LOGQ>=1, every A, B and 64-bit a: A *= a yields A*a mod 2^LOGQ and A *= B yields A*B mod 2^LOGQ (also for A *= A), canonical, without reading uninitialised words.", "quantifier": "all LOGQ, all word contents, all a", "why_tests_cant": "unbounded number of words; quadratically many partial products", "anchors": ["include/HEAAN/arith/Z_Q.h: operator*=(uint64_t), operator*=(const Z_Q&)"]}
{"id": "C05", "title": "Z_Q addition is safe under self-aliasing", "statement": "A += A doubles A modulo 2^LOGQ.", "quantifier": "all LOGQ and all A", "why_tests_cant": "the carry out of a word is lost only for particular high bits; a test on small values passes", "anchors": ["include/HEAAN/arith/Z_Q.h: operator+="]}
{"id": "C06", "title": "shift_left multiplies exactly by a power of two and initialises every word", "statement": "For every 0<LOGQfr<=LOGQto, shift_left<LOGQfr,LOGQto>(A,B) stores A*2^(LOGQto-LOGQfr) in B for every canonical A, and every word of B is written, no word outside.", "quantifier": "all width pairs, all A, all previous contents of B", "why_tests_cant": "word/bit offset arithmetic has many residue classes of (LOGQfr, LOGQto) mod 64", "anchors": ["include/HEAAN/arith/Z_Q.h: shift_left"]}
{"id": "C07", "title": "shift_right divides by a power of two rounding to nearest", "statement": "For every 0<LOGQto<=LOGQfr and canonical A, shift_right stores floor((A + 2^(d-1))/2^d) mod 2^LOGQto (d=LOGQfr-LOGQto; the identity for d=0), canonical, independent of the previous contents of B, and consistent with the signed reading: the signed result is within 1/2 of signedA/2^d modulo 2^LOGQto.", "quantifier": "all width pairs, all A, all previous contents of B", "why_tests_cant": "boundary conditions of word offset, carry of rounding bit", "anchors": ["include/HEAAN/arith/Z_Q.h: shift_right"]}
{"id": "C08", "title": "Sign test and resize preserve the signed value", "statement": "is_bigger_than_halfQ() is true exactly for canonical values >= 2^(LOGQ-1). resize to a wider modulus preserves the signed (centered) value; resize to a narrower modulus is reduction modulo 2^LOGQto; resize to wider and back is the identity.", "quantifier": "all width pairs and values", "why_tests_cant": "sign-extension bugs show only at word boundaries and extreme values", "anchors": ["include/HEAAN/arith/Z_Q.h: is_bigger_than_halfQ, resize"]}
{"id": "C09", "title": "Decimal printing and parsing round-trip", "statement": "For LOGQ<=1300, to_str writes exactly the decimal representation (no leading zero, NUL terminated, within 520 characters) of the word contents; fr_str of any decimal string (length <=520) whose value fits in the words yields that value; hence fr_str(to_str(A)) = A. For LOGQ>1300 to_str aborts by assertion.", "quantifier": "all LOGQ, all values, all digit strings", "why_tests_cant": "unbounded inputs; buffer bounds", "anchors": ["include/HEAAN/arith/Z_Q.h: fr_str, to_str"]}
{"id": "C10", "title": "Conversion of Z_Q to double", "statement": "(double)A equals the signed value of A (up to the one rounding of the 64-bit to double conversion).", "quantifier": "all LOGQ, all values", "why_tests_cant": "only values beyond 64 bits expose the truncation", "anchors": ["include/HEAAN/arith/Z_Q.h: operator double"]}
{"id": "C11", "title": "max_valid_digit finds the top significant word", "statement": "For every nonnegative A, max_valid_digit() is the index of the highest nonzero word (-1 for zero); for negative A it is the highest word that is not a pure sign word.", "quantifier": "all LOGQ, all values", "why_tests_cant": "sign handling depends on every word", "anchors": ["include/HEAAN/arith/Z_Q.h: max_valid_digit"]}
{"id": "C12", "title": "cmpge decides >= on multi-word integers", "statement": "cmpge(A,B) is true exactly when the integer in A is >= the integer in B.", "quantifier": "all LOGQ and word contents", "why_tests_cant": "lexicographic comparison over all words", "anchors": ["include/HEAAN/arith/conv/crt.h: cmpge"]}
{"id": "C13", "title": "128-by-64 modular reduction is exact, in C and in assembly", "statement": "For q>0 and all 64-bit al, ah: mod(al,ah,q) = (ah*2^64+al) mod q; the assembly variant never raises a division overflow and returns the same value as the u128 variant. For q=0 the behaviour is undefined.", "quantifier": "all 2^192 inputs", "why_tests_cant": "2^192 inputs", "anchors": ["include/HEAAN/arith/conv/mod.h: mod", "include/HEAAN/arith/conv/assembly/mod.asm: mod_asm"]}
{"id": "C14", "title": "add_mod, sub_mod, mul_mod are exact for unreduced operands", "statement": "For every q>0 and all 64-bit a,b (not only reduced ones) the results are the canonical residues of a+b, a-b and a*b modulo q.", "quantifier": "all 64-bit a,b,q", "why_tests_cant": "2^192 inputs; wrap-around only near 2^64", "anchors": ["include/HEAAN/arith/conv/mod.h: add_mod, sub_mod, mul_mod"]}
{"id": "C15", "title": "pow_mod computes modular powers for all exponents", "statement": "For every q>=2, a and n (64-bit), pow_mod(a,n,q) terminates and equals a^n mod q.", "quantifier": "all 64-bit a,n,q", "why_tests_cant": "recursion over exponent bits", "anchors": ["include/HEAAN/arith/conv/mod.h: pow_mod"]}
{"id": "C16", "title": "inv_mod is the modular inverse for every prime modulus", "statement": "If q is prime and does not divide a then inv_mod(a,q)*a = 1 mod q with 0<inv_mod(a,q)<q.", "quantifier": "all primes q<2^64 and all a", "why_tests_cant": "Fermat's theorem over all primes", "anchors": ["include/HEAAN/arith/conv/mod.h: inv_mod"]}
{"id": "C17", "title": "findPrimeFactors returns exactly the prime divisors", "statement": "For every 1<=n<2^63 findPrimeFactors terminates and fills the set with exactly the prime divisors of n (previous contents discarded).", "quantifier": "all n", "why_tests_cant": "unbounded search; square loop bound", "anchors": ["include/HEAAN/arith/conv/ntt.h: findPrimeFactors"]}
{"id": "C18", "title": "findPrimitiveRoot returns the least primitive root of an odd prime", "statement": "For every odd prime q<2^63 the result is a generator of the multiplicative group modulo q and no smaller r>=2 is one; it never returns the failure value 0.", "quantifier": "all odd primes", "why_tests_cant": "existence of a generator is a theorem about all primes", "anchors": ["include/HEAAN/arith/conv/ntt.h: findPrimitiveRoot"]}
{"id": "C19", "title": "bitReverse reverses the low digits and is an involution", "statement": "For 1<=d<=32 and x<2^d, bitReverse(x,d) is the d-bit reversal of x, lies below 2^d, and applying it twice gives x. For d=0 the shift count is 32, undefined behaviour.", "quantifier": "all x, all d", "why_tests_cant": "2^32 inputs per width", "anchors": ["include/util/util.h: bitReverse32, bitReverse"]}
{"id": "C20", "title": "log returns the exact ceiling logarithm", "statement": "For every N<=2^30 log(N) is the least i>=0 with 2^i>=N; for N>2^30 the doubling overflows int (undefined behaviour).", "quantifier": "all int N", "why_tests_cant": "boundary at the int range", "anchors": ["include/util/util.h: log"]}
{"id": "C21", "title": "NTT evaluates at the odd powers of the root, in bit-reversed order", "statement": "For every power of two N=2^k (2<=N<=2^31) and prime q=1 mod 2N below 2^63, ntt(a)[j] = sum_i a[i]*psi^((2*rev(j)+1)*i) mod q with psi a fixed 2N-th root with psi^N=-1, canonical, for every 64-bit input vector.", "quantifier": "all N, q, input vectors", "why_tests_cant": "N-dimensional input; loop nest indices", "anchors": ["include/HEAAN/arith/conv/ntt.h: NTT::NTT, NTT::ntt"]}
{"id": "C22", "title": "intt inverts ntt", "statement": "intt(ntt(a)) = a mod q componentwise for every input vector, N and prime q as above, and ntt(intt(b)) = b mod q.", "quantifier": "all N, q, vectors", "why_tests_cant": "infinite family of transforms", "anchors": ["include/HEAAN/arith/conv/ntt.h: NTT::ntt, NTT::intt"]}
{"id": "C23", "title": "Pointwise product in the NTT domain is the negacyclic product", "statement": "intt(ntt(a).ntt(b)) = a*b in Z_q[X]/(X^N+1), for all vectors a,b.", "quantifier": "all N, q, a, b", "why_tests_cant": "bilinear identity over all vectors", "anchors": ["include/HEAAN/arith/conv/ntt.h: NTT", "include/HEAAN/arith/conv/conv.h: CONV::conv"]}
{"id": "C24", "title": "icrt returns residues congruent to the signed value", "statement": "For every A, each a_rns[i] is congruent modulo q[i] to the signed value of A.", "quantifier": "all LOGQ, all moduli, all A", "why_tests_cant": "word-boundary widths and extreme negative values only", "anchors": ["include/HEAAN/arith/conv/crt.h: CRT::icrt"]}
{"id": "C25", "title": "crt reconstructs the centered integer", "statement": "If the moduli are pairwise distinct odd primes below 2^61 and c is any integer with 2|c|<prod q with residues a_rns (any representatives), crt terminates and stores c mod 2^LOGQ; hence crt(icrt(A)) = A.", "quantifier": "all L, all prime tuples, all residues", "why_tests_cant": "termination and uniqueness over all residue vectors", "anchors": ["include/HEAAN/arith/conv/crt.h: CRT::CRT, CRT::crt"]}
{"id": "C26", "title": "The built-in modulus table is adequate", "statement": "All 102 table entries are distinct primes congruent to 1 modulo 2^18, and for every LOGQ<=3051 and N<=2^17 the product of the first L=(2*LOGQ+76)/60 of them exceeds N*2^(2*LOGQ-1); L never exceeds 102 for those LOGQ.", "quantifier": "all supported LOGQ and N", "why_tests_cant": "primality of 60-bit numbers and all widths", "anchors": ["include/HEAAN/arith/conv.h: Q_primes, conv"]}
{"id": "C27", "title": "conv is the exact negacyclic product modulo 2^LOGQ", "statement": "For every N=2^k, 1<=k<=17, and every LOGQ in [1,60] or [65,3051], conv(A,B,C) stores in C the product A*B in Z_{2^LOGQ}[X]/(X^N+1), for all canonical A, B; A and B are unchanged.", "quantifier": "all N, LOGQ, A, B", "why_tests_cant": "input space is astronomically large; needs CRT/NTT bounds", "anchors": ["include/HEAAN/arith/conv.h: conv(R_Q,R_Q,R_Q)", "include/HEAAN/arith/conv/conv.h: CONV::conv, icrt_polynomial, crt_polynomial"]}
{"id": "C28", "title": "conv is exact for one-word moduli of 61 to 64 bits", "statement": "conv(A,B,C) is the exact product also for LOGQ in {61,62,63,64}.", "quantifier": "LOGQ in 61..64, all A,B", "why_tests_cant": "only coefficients with absolute value above the CRT primes expose it", "anchors": ["include/HEAAN/arith/conv/crt.h: CRT::icrt", "include/HEAAN/arith/conv.h: conv"]}
{"id": "C29", "title": "conv tolerates an output aliasing an input", "statement": "conv(A,B,A), conv(A,B,B) and conv(A,A,A) store the same product as with a separate output.", "quantifier": "all N, LOGQ, operands", "why_tests_cant": "aliasing interacts with loop order", "anchors": ["include/HEAAN/arith/conv/conv.h: CONV::conv"]}
{"id": "C30", "title": "Parallel loops are schedule independent", "statement": "The results of CONV::conv, icrt_polynomial, crt_polynomial and conv(s,A,C) do not depend on the order or interleaving in which OpenMP executes the iterations of their parallel loops.", "quantifier": "all schedules", "why_tests_cant": "exponentially many interleavings", "anchors": ["include/HEAAN/arith/conv/conv.h: omp parallel for", "include/HEAAN/arith/conv.h: omp parallel for"]}
{"id": "C31", "title": "conv with a ternary key is the exact negacyclic product", "statement": "For every key with entries in {-1,0,1}, conv(s,A,C) stores s*A in Z_{2^LOGQ}[X]/(X^N+1), any N>=1, LOGQ>=1.", "quantifier": "all N, LOGQ, s, A", "why_tests_cant": "N^2 signed terms", "anchors": ["include/HEAAN/arith/conv.h: conv(const int*, R_Q, R_Q)"]}
{"id": "C32", "title": "conv with an integer polynomial of arbitrary entries", "statement": "conv(s,A,C) is the exact negacyclic product for every integer polynomial s.", "quantifier": "all s", "why_tests_cant": "only non-ternary entries expose it", "anchors": ["include/HEAAN/arith/conv.h: conv(const int*, R_Q, R_Q)"]}
{"id": "C33", "title": "Integer negacyclic convolution is exact and does not overflow on keys", "statement": "conv<N>(s1,s2,s3) computes the negacyclic product of integer vectors; for ternary inputs and N<=2^30 no signed overflow occurs and |s3[i]|<=N.", "quantifier": "all N, s1, s2", "why_tests_cant": "overflow only for large N", "anchors": ["include/HEAAN/arith/conv.h: conv(const int*, const int*, int*)"]}
{"id": "C34", "title": "keygen yields exactly h signed units", "statement": "Whenever keygen(h,s) returns with 0<=h<=N, exactly h entries of s are +-1 and all others 0; for h>N it never returns.", "quantifier": "all N, h, all rand() streams", "why_tests_cant": "depends on the whole random history", "anchors": ["include/HEAAN/core.h: HEAAN::keygen"]}
{"id": "C35", "title": "Decryption recovers the plaintext up to the fresh noise", "statement": "For every ternary s, plaintext pt and random stream, dec(enc(pt,s),s) = pt + e with every |e_i|<=8 (signed, mod 2^LOGQ).", "quantifier": "all N, LOGQ, s, pt, rand() streams", "why_tests_cant": "all random histories", "anchors": ["include/HEAAN/core.h: HEAAN::enc, HEAAN::dec"]}
{"id": "C36", "title": "Ciphertext arithmetic is homomorphic", "statement": "dec(ct1+ct2), dec(ct1-ct2), dec(ct*a) and dec(ct*pt) equal the sum, difference, word multiple and negacyclic product of the decryptions, exactly.", "quantifier": "all N, LOGQ, s, ciphertexts", "why_tests_cant": "ring identities over all ciphertexts", "anchors": ["include/HEAAN/arith/R_Q_square.h: operator+=, -=, *=", "include/HEAAN/core.h: dec"]}
{"id": "C37", "title": "Rescaling divides the decryption with bounded error", "statement": "2^d * dec(RS(ct)) = dec(ct) + e modulo 2^LOGQfr with |e_i| <= 2^(d-1)*(1+h), h the number of nonzero key entries.", "quantifier": "all N, width pairs, ternary s, ciphertexts", "why_tests_cant": "worst case rounding over all ciphertexts", "anchors": ["include/HEAAN/core.h: RS"]}
{"id": "C38", "title": "Key switching preserves the decryption up to bounded noise", "statement": "dec(ks(swkgen(s_fr,s_to), ct), s_to) = dec(ct, s_fr) + e with |e_i| bounded by 8N+(1+h)/2+1, for every stream.", "quantifier": "all N, LOGQ, keys, ciphertexts, streams", "why_tests_cant": "worst-case over all ciphertexts and noise", "anchors": ["include/HEAAN/core.h: swkgen, ks"]}
{"id": "C39", "title": "Homomorphic multiplication is correct up to bounded noise", "statement": "dec(Mul(ct1,ct2,evk),s) = dec(ct1)*dec(ct2) + e with |e_i| <= 4N+(1+h)/2+1, evk any output of swkgen(s*s, s).", "quantifier": "all N, LOGQ, s, ciphertexts, streams", "why_tests_cant": "worst case over all ciphertexts and noise", "anchors": ["include/HEAAN/core.h: Mul"]}
{"id": "C40", "title": "Rotation is the ring automorphism X -> X^(5^r)", "statement": "For N a power of two, rot(pt,pt_rot,r) writes every coefficient of pt(X^(5^r)) mod X^N+1; rotations compose additively, r and r+N/2 agree, rot by 0 is the identity, rot is a ring homomorphism; the three implementations (int, int with r, R_Q) and SimplePlaintext::rotate agree.", "quantifier": "all N, r, pt", "why_tests_cant": "index permutation modulo 2N", "anchors": ["include/HEAAN/linear_transform.h: rot", "include/impl/simple_plaintext.h: rotate, rotate_once"]}
{"id": "C41", "title": "Conjugation is the ring automorphism X -> X^-1", "statement": "conj(pt) = pt(X^-1) mod X^N+1, an involution and ring homomorphism, for R_Q and for keys.", "quantifier": "all N, pt", "why_tests_cant": "index permutation", "anchors": ["include/HEAAN/linear_transform.h: conj"]}
{"id": "C42", "title": "Encrypted rotation and conjugation", "statement": "dec(rot_ct(ct,off,rkey),s) = rot(dec(ct,s),off) + e and dec(conj(ct,ckey),s) = conj(dec(ct,s)) + e with the key-switching noise bound, when rkey=swkgen(rot(s,off),s), ckey=swkgen(conj(s),s).", "quantifier": "all N, LOGQ, off, s, ct, streams", "why_tests_cant": "worst case noise", "anchors": ["include/HEAAN/linear_transform.h: rot_ct, conj"]}
{"id": "C43", "title": "ModRaise adds a small multiple of the base modulus", "statement": "dec(mod_raise(ct)) = m + q*I over the integers with m the signed decryption of ct modulo q=2^LOGqfr and |I_i| <= (h+2)/2.", "quantifier": "all N, widths, ternary s, ct", "why_tests_cant": "worst case over all ciphertexts", "anchors": ["include/HEAAN/bootstrap.h: mod_raise"]}
{"id": "C44", "title": "EvalRound output error is exactly the qI-evaluation error", "statement": "For ct_boot = resize(ct_modraise) - ct_qI, dec(ct_boot) - pt = q*I - dec(ct_qI) modulo the final modulus: any error of the bootstrapping result is the error of the evaluated multiple of q.", "quantifier": "all N, widths, s, ciphertexts", "why_tests_cant": "identity over all ciphertexts", "anchors": ["src/experiment/section4/proposal.cpp: proposed_bootstrap_test"]}
{"id": "C45", "title": "Linear transform with given rotation keys", "statement": "linear_transform(Ar,Ai,ct,rkey,Act) initialises every ciphertext it multiplies, for all offsets including 0.", "quantifier": "all matrices", "why_tests_cant": "reading indeterminate memory may accidentally work in a test", "anchors": ["include/HEAAN/linear_transform.h: linear_transform (rkey variant)"]}
{"id": "C46", "title": "Linear transform with the secret key evaluates sum_s pt_s*rot(ct,off_s)", "statement": "dec(linear_transform(Ar,Ai,ct,skey)) = sum over non-skipped diagonals s of pt_s * rot(dec(ct),off_s) plus an error bounded by the sum of pt_s times key-switching noise; asserts hold when offsets of real and imaginary parts agree.", "quantifier": "all S, offsets, diagonals, ct, streams", "why_tests_cant": "worst case", "anchors": ["include/HEAAN/linear_transform.h: linear_transform (skey variant), serial_linear_transform"]}
{"id": "C47", "title": "SparseDiagonal set/get/transpose/negate/scale", "statement": "get_element after set_element returns the stored value and leaves other elements unchanged; transpose swaps indices; negate and *= act elementwise; set_element outside the stored diagonals aborts; += and -= add and subtract elementwise, and abort if the offsets of some diagonal differ.", "quantifier": "all N, S, offsets, indices", "why_tests_cant": "index arithmetic with C remainder", "anchors": ["include/HEAAN/matrix/matrix.h: SparseDiagonal"]}
{"id": "C48", "title": "MatMul is the matrix product", "statement": "For SparseDiagonal inputs with distinct offsets, MatMul (real and complex) produces C with C(i,j) = sum_k A(i,k)B(k,j) in exact arithmetic, never indexing beyond its S1*S2 diagonals. The complex version aborts if the real and imaginary parts have different offsets at some pair of diagonals that is not skipped.", "quantifier": "all N, S1, S2, matrices", "why_tests_cant": "merging of equal offsets, wrap-around", "anchors": ["include/HEAAN/matrix/matrix.h: MatMul"]}
{"id": "C49", "title": "SparseDiagonal += keeps matrix-vector products linear", "statement": "After A += B, matrix_vector_product and linear_transform act as the sum of A and B.", "quantifier": "all A, B", "why_tests_cant": "depends on stale zero flags of A", "anchors": ["include/HEAAN/matrix/matrix.h: operator+=", "include/impl/message.h: matrix_vector_product", "include/HEAAN/linear_transform.h: linear_transform"]}
{"id": "C50", "title": "Matrix-vector product agrees with the dense definition", "statement": "matrix_vector_product(z,Ar,Ai) (DFT, Message sparse and Message dense-diagonal versions) equals sum_j A(i,j) z_j in exact arithmetic, for nonnegative offsets.", "quantifier": "all N, S, matrices, z", "why_tests_cant": "wrap-around indices", "anchors": ["include/HEAAN/matrix/matrix.h: matrix_vector_product", "include/impl/message.h: matrix_vector_product"]}
{"id": "C51", "title": "The factorised transform equals the DFT at the 5^i-th odd roots", "statement": "In exact real arithmetic fft(m) = dft(m) for every LOGN from 2 to 27 (fivei*5 overflows int beyond) and every m, where dft evaluates m at exp(i*pi*5^i/N).", "quantifier": "all LOGN, all m", "why_tests_cant": "factorisation identity for every size", "anchors": ["include/HEAAN/matrix/DFT.h: splitU0NR, fftNR, fft, dft"]}
{"id": "C52", "title": "ifft and fft are mutually inverse, and idft inverts dft", "statement": "In exact arithmetic fft(ifft(z)) = z, ifft(fft(m)) = m and ifft = idft.", "quantifier": "all LOGN from 2 to 27, all vectors", "why_tests_cant": "identity for every size", "anchors": ["include/HEAAN/matrix/DFT.h: ifftNR, ifft, idft"]}
{"id": "C53", "title": "Calling order does not change fft/ifft/conv/CoeffToSlot results", "statement": "The function-static tables are initialised once; the result of every call in every history equals that of a first call.", "quantifier": "all call histories", "why_tests_cant": "all histories", "anchors": ["include/HEAAN/matrix/DFT.h: fftNR, ifftNR statics", "include/HEAAN/arith/conv.h: theConv", "include/HEAAN/bootstrap.h: CoeffToSlot, SlotToCoeff statics"]}
{"id": "C54", "title": "encode/decode round-trip error", "statement": "In exact arithmetic |decode(encode(z))_j - z_j| <= N/(2*Delta) whenever every scaled coefficient is below 2^64 and 2^(LOGQ-1); encode of larger values is undefined behaviour (double to uint64_t out of range) or wraps.", "quantifier": "all LOGN, LOGQ, Delta, z", "why_tests_cant": "worst case over all messages", "anchors": ["include/HEAAN/endecode.h: encode, decode, decode_log"]}
{"id": "C55", "title": "decode turns ring operations into slot operations", "statement": "In exact arithmetic decode(pt1+pt2), decode(conv(pt1,pt2)), decode(rot(pt,r)) and decode(conj(pt)) are slotwise sum, slotwise product, cyclic shift by r and complex conjugation.", "quantifier": "all LOGN, pt, r", "why_tests_cant": "ring homomorphism over all plaintexts", "anchors": ["include/HEAAN/endecode.h: decode", "include/HEAAN/linear_transform.h: rot, conj", "include/HEAAN/arith/conv.h: conv"]}
{"id": "C56", "title": "decode_log equals decode at Delta=2^LOGDELTA", "statement": "In exact arithmetic decode_log(pt,LOGDELTA) and decode(pt,2^LOGDELTA) both equal the transform of the signed coefficients divided by 2^LOGDELTA.", "quantifier": "all LOGQ, LOGN, pt", "why_tests_cant": "multi-word values, digit skipping", "anchors": ["include/HEAAN/endecode.h: decode, decode_log", "include/HEAAN/arith/Z_Q.h: max_valid_digit"]}
{"id": "C57", "title": "SimplePlaintext agrees with R_Q plaintexts", "statement": "SimplePlaintext conv/add/sub/rotate/encode/decode compute the same integers as the R_Q versions (exact arithmetic).", "quantifier": "all LOGN, inputs", "why_tests_cant": "identity over all inputs", "anchors": ["include/impl/simple_plaintext.h"]}
{"id": "C58", "title": "Matrix-vector product on plaintexts", "statement": "matrix_vector_product(pt,A,Delta,pt_Az) decodes to A.z within the encoding error bound (exact arithmetic).", "quantifier": "all LOGN, K, A, pt", "why_tests_cant": "worst case", "anchors": ["include/impl/plaintext.h: matrix_vector_product"]}
{"id": "C59", "title": "aggregate concatenates two messages", "statement": "aggregate(z1,z2,z3) stores z1 followed by z2 and reads only inside its arguments.", "quantifier": "all LOGN, z1, z2", "why_tests_cant": "out-of-bounds reads often go unnoticed in a test", "anchors": ["include/impl/message.h: aggregate"]}
{"id": "C60", "title": "Chebyshev-to-product basis conversion", "statement": "For every N=2^k>=4 and all coefficients c, convert_frc_tou yields u with sum_n c_n T_n(x) = sum_n u_n prod_{bits b of n} T_{2^b}(x) for all x (exact arithmetic).", "quantifier": "all N, c, x", "why_tests_cant": "recursive identity for every size", "anchors": ["include/HEAAN/poly.h: convert_frc_tou"]}
{"id": "C61", "title": "Polynomial evaluation accepts every coefficient sign", "statement": "eval_poly_deg3, eval_poly_deg7 and eval_poly_deg15 are defined for all real coefficient vectors.", "quantifier": "all coefficient vectors u", "why_tests_cant": "undefined conversions often produce plausible results on one platform", "anchors": ["include/HEAAN/poly.h: eval_poly_deg3, eval_poly_deg7, eval_poly_deg15"]}
{"id": "C62", "title": "Homomorphic polynomial evaluation", "statement": "eval_poly_deg3..127 with evaluation keys for s*s decrypt to the product-basis polynomial of dec(ct) up to a bounded error, consuming exactly one LOGDELTA per level.", "quantifier": "all N, LOGQ, LOGDELTA, u, ct, keys, streams", "why_tests_cant": "worst case noise growth", "anchors": ["include/HEAAN/poly.h: eval_poly_deg31 etc."]}
{"id": "C63", "title": "rand_uint64 covers all words", "statement": "When RAND_MAX+1 is a power of two >= 2^15, every 64-bit value is produced by some outputs of rand(), each by the same number of outcomes.", "quantifier": "all 64-bit values", "why_tests_cant": "2^64 values", "anchors": ["include/util/util.h: rand_uint64"]}
{"id": "C64", "title": "CoeffToSlot moves coefficients to slots", "statement": "In exact arithmetic the matrices of CoeffToSlot map the slot vector of m to slot vectors holding m_i (bit-reversed order) and m_{i+N/2}, and SlotToCoeff's matrices invert it; grouping by G=1,2,3,4 does not change the product.", "quantifier": "all LOGN, G | LOGN-1, m", "why_tests_cant": "identity for all sizes", "anchors": ["include/HEAAN/bootstrap.h: CoeffToSlot, SlotToCoeff", "include/HEAAN/linear_transform.h: grouped_serial_linear_transform"]}
{"id": "C65", "title": "RemoveClutter keeps the matrix", "statement": "RemoveClutter copies the first S2 diagonals, clears their flags and, if the dropped diagonals are flagged and zero, leaves the matrix unchanged; an unflagged dropped diagonal fails the assertion, and so does S1 <= S2.", "quantifier": "all N, S2<S1, A", "why_tests_cant": "all shapes", "anchors": ["include/HEAAN/matrix/matrix.h: RemoveClutter"]}
{"id": "C66", "title": "Dense complex matrix product", "statement": "matrix_product computes C = A*B over the complex numbers (exact arithmetic) for any previous content of C.", "quantifier": "all N, A, B", "why_tests_cant": "all sizes", "anchors": ["include/HEAAN/matrix/matrix.h: matrix_product"]}
{"id": "C67", "title": "mat_to_vecs extracts the cyclic diagonals", "statement": "mat_to_vecs stores V[k][j] = A[j][(j+k) mod N], and these diagonals with offsets 0..N-1 represent A.", "quantifier": "all N, A", "why_tests_cant": "all sizes", "anchors": ["include/HEAAN/linear_transform.h: mat_to_vecs"]}
{"id": "C68", "title": "Message arithmetic is slotwise", "statement": "Message add, sub, mul act slotwise on complex numbers for any previous content of the output, the constructor gives zero, and square_sum is the sum of |z_i|^2.", "quantifier": "all LOGN, z1, z2", "why_tests_cant": "all inputs", "anchors": ["include/impl/message.h: add, sub, mul, square_sum"]}
{"id": "C69", "title": "Negative diagonal offsets", "statement": "transpose and MatMul treat an offset o and o mod N alike, as get_element does.", "quantifier": "all N, S, offsets", "why_tests_cant": "offsets in the shipped code are non-negative", "anchors": ["include/HEAAN/matrix/matrix.h: transpose, MatMul, get_element"]}
{"id": "C70", "title": "Message mul in place", "statement": "mul(z1,z2,z1) gives the same result as mul(z1,z2,z3).", "quantifier": "all LOGN, z1, z2", "why_tests_cant": "aliasing is not exercised", "anchors": ["include/impl/message.h: mul"]}
{"id": "C71", "title": "EvalMod evaluates its trigonometric polynomial homomorphically", "statement": "EvalMod<LOGQ,N,LOGDELTA,K> applied to a ciphertext whose slots are real numbers x with |x-1/4| <= K gives, with keys made from the secret key, a ciphertext modulo 2^(LOGQ-12 LOGDELTA) whose slots are (y^3+6y)/(12 pi) with y = cos(48 pi (x-1/4)/K), up to an explicit error that contains the distance of the polynomial from the cosine, the rounding of all constants and the noise of all products and rescalings.", "quantifier": "all N, LOGQ, LOGDELTA <= 61, K, keys, ciphertexts, random streams", "why_tests_cant": "the error bound is over all ciphertexts, keys and random streams", "anchors": ["include/HEAAN/bootstrap.h: EvalMod (both overloads)"]}
{"id": "C72", "title": "EvalMod with K=24 subtracts the integer part", "statement": "With K = 24 and slots I + d, I an integer, |I+d-1/4| <= 24, EvalMod gives slots d up to the error of the evaluation and 117 d^5.", "quantifier": "all N, LOGQ, LOGDELTA, keys, ciphertexts, I, d", "why_tests_cant": "real-valued inputs and all random streams", "anchors": ["include/HEAAN/bootstrap.h: EvalMod"]}
{"id": "C73", "title": "EvalMod for other template arguments K", "statement": "EvalMod<LOGQ,N,LOGDELTA,K> subtracts the integer part for every K, as its template parameter suggests.", "quantifier": "all K", "why_tests_cant": "the tests only use K = 24", "anchors": ["include/HEAAN/bootstrap.h: EvalMod"]}
{"id": "C74", "title": "The conventional bootstrapping returns the message", "statement": "mod_raise, CoeffToSlot, RS, EvalMod (K = 24), SlotToCoeff and RS of a ciphertext of m, with all keys made from the secret key, run without undefined behaviour and give a ciphertext that decrypts to m up to an explicit error, if the multiples of q that mod_raise adds stay within 24 minus the size of the message and the rounding error of CoeffToSlot.", "quantifier": "all N, moduli, scales, group sizes, keys, ciphertexts, random streams, states of the static tables", "why_tests_cant": "the composition of six approximate steps on all ciphertexts", "anchors": ["src/experiment/section4/proposal.cpp:5-70"]}
{"id": "C75", "title": "The proposed bootstrapping returns the message, without the rounding error of CoeffToSlot", "statement": "The EvalRound procedure (EvalMod subtracted from its own argument, SlotToCoeff, subtraction from the raised ciphertext) gives a ciphertext that decrypts to m up to an error in which the rounding error of CoeffToSlot does not occur linearly: it only enters through the fifth power in the error of EvalMod.", "quantifier": "all N, moduli, scales, group sizes, keys, ciphertexts, random streams, states of the static tables", "why_tests_cant": "the claim of the paper, over all ciphertexts", "anchors": ["src/experiment/section4/proposal.cpp:72-148"]}
{"id": "C76", "title": "What the bootstrapping experiments measure", "statement": "For a message pt encrypted with fresh randomness, e = pt - pt_out in either experiment is bounded by the error of the bootstrapping and 8 for the encryption.", "quantifier": "all keys with h nonzero coefficients, messages, random streams", "why_tests_cant": "all random streams", "anchors": ["src/experiment/section4/proposal.cpp:25-60, 92-138"]}
{"id": "C77", "title": "Numbers for dimension 512", "statement": "With the parameters of test.h (N = 512, q = 2^60, Q = 2^1450, SlotToCoeff with 2^50) and a key with at most 44 nonzero coefficients the proposed bootstrapping of a message of 48 bits has an error of at most 2^36 for every LOGDELTA_cts between 40 and 60, the conventional one with LOGDELTA_cts = 60 of at most 2^34.", "quantifier": "all keys, ciphertexts, random streams", "why_tests_cant": "worst case over all ciphertexts", "anchors": ["src/experiment/section4/proposal.cpp", "include/experiment/rns.h:10-22"]}
{"id": "C78", "title": "The multiples of q that mod_raise adds reach h/2 - 1", "statement": "For every key with h nonzero coefficients there is a ciphertext of 0 such that mod_raise adds a multiple I of q with 2|I| >= h - 2 in one coefficient; so the bound (h+2)/2 is sharp up to 2.", "quantifier": "all N, keys", "why_tests_cant": "needs one ciphertext among 2^(60 N)", "anchors": ["include/HEAAN/bootstrap.h: mod_raise"]}
{"id": "C79", "title": "The multiples of q stay within K = 24 for the keys of the experiments", "statement": "With keys of 128 nonzero coefficients mod_raise adds multiples of q of at most K = 24 in every coefficient, so that EvalMod is applied where it is meant to be.", "quantifier": "all keys with 128 nonzero coefficients, all ciphertexts", "why_tests_cant": "random tests meet it with high probability", "anchors": ["include/experiment/rns.h:10-22", "include/HEAAN/bootstrap.h: mod_raise, EvalMod"]}
{"id": "C80", "title": "No result of rand() is used twice", "statement": "Encryption, switching-key generation, linear transforms, CoeffToSlot, SlotToCoeff, EvalMod and both bootstrapping procedures take consecutive results of rand(): each returns the place after the last one it took, their number is the stated one (an encryption: five per word of the uniform polynomial and two per coefficient; a transform: one key per rotated diagonal), and the outcome depends on no other results. So errors and masks of different ciphertexts and keys never share a random number.", "quantifier": "all N, moduli, matrices, keys, ciphertexts, random streams", "why_tests_cant": "two runs on the same stream would both look random; a reused number is invisible in the outcome", "anchors": ["include/HEAAN/core.h: enc, swkgen", "include/HEAAN/linear_transform.h: linear_transform", "include/HEAAN/bootstrap.h", "src/experiment/section4/proposal.cpp"]}
{"id": "C81", "title": "fft in floating-point arithmetic", "statement": "If every operation rounds with relative error u and absolute error eta, and cos and sin of the library err by t, then fft is within fft_error of the exact slots (in double precision and N <= 2^17: 2^-42 (N/2) B + 2^-1000 for coefficients of size B), whatever earlier calls left in the static tables.", "quantifier": "all roundings with these errors, N up to 2^27, polynomials, states of the static tables", "why_tests_cant": "real-valued inputs; the tests compare single random polynomials", "anchors": ["include/HEAAN/matrix/DFT.h:44-93, 133-146"]}
{"id": "C82", "title": "ifft in floating-point arithmetic", "statement": "Likewise every coefficient computed by ifft is within ifft_error of the exact one (in double precision 2^-42 B + 2^-1000 for slots of size B).", "quantifier": "all roundings with these errors, N up to 2^27, slots, states of the static tables", "why_tests_cant": "real-valued inputs", "anchors": ["include/HEAAN/matrix/DFT.h:96-131, 148-159"]}
{"id": "C83", "title": "encode in floating-point arithmetic", "statement": "encode stores integers within 1/2 + encode_error of Delta times the exact coefficients (in double precision 1/2 + 2^-41 B Delta + 2^-900); it does not always store the nearest integers.", "quantifier": "all roundings with these errors, N, moduli, Delta, slots, states of the static tables", "why_tests_cant": "real-valued inputs; the effect of rounding only shows for large Delta", "anchors": ["include/HEAAN/endecode.h:8-19"]}
{"id": "C84", "title": "decode in floating-point arithmetic", "statement": "decode is within N coeff_error + fft_error of the exact slots (in double precision 2^-42 N A + 2^-1000 for coefficients of size A Delta).", "quantifier": "all roundings with these errors, N, moduli, Delta, polynomials, states of the static tables", "why_tests_cant": "all polynomials", "anchors": ["include/HEAAN/endecode.h:21-40"]}
{"id": "C85", "title": "decode_log in floating-point arithmetic", "statement": "decode_log is within N coeff_log_error + fft_error of the exact slots, with an error that does not grow with the number of words of the modulus.", "quantifier": "all roundings with these errors, N, moduli, LOGDELTA, polynomials, states of the static tables", "why_tests_cant": "all polynomials", "anchors": ["include/HEAAN/endecode.h:42-62"]}
{"id": "C86", "title": "Encoding and decoding in floating-point arithmetic gives the slots back", "statement": "decode(encode(z)) is within N/(2 Delta) and the errors of both functions of z (in double precision N/(2 Delta) + 2^-41 N (B+1)).", "quantifier": "all roundings with these errors, N, moduli, Delta, slots, states of the static tables", "why_tests_cant": "real-valued inputs", "anchors": ["include/HEAAN/endecode.h:8-40"]}
{"id": "C87", "title": "IEEE double precision meets the assumptions on the arithmetic", "statement": "Rounding to 53 bits, halves to even, with subnormal numbers, together with the constant PI of util.h and correctly rounded cos and sin, has the errors u = 2^-53, eta = 2^-1075, t = 2^-52 that C81-C86 assume; exact arithmetic has the errors 0.", "quantifier": "all reals", "why_tests_cant": "all doubles", "anchors": ["include/util/util.h:11", "include/HEAAN/matrix/DFT.h:58-61"]}
{"id": "C88", "title": "The rounding error of a convolution has the expected size", "statement": "lemma_conv_error.cpp: if the rounding errors of the coefficients of the random message are uncorrelated with mean square 1/12, the mean of the number measured is exactly the number expected, for every message z; and no message gives more than 3N times it.", "quantifier": "all N, Delta, messages, distributions with these errors", "why_tests_cant": "the program prints 100 samples of a random number", "anchors": ["src/experiment/section3/lemma_conv_error.cpp:13-32", "include/impl/simple_plaintext.h"]}
{"id": "C89", "title": "The rounding error of a sum of convolutions has the expected size", "statement": "lemma_conv_sum_error.cpp: likewise with Diag messages whose errors are uncorrelated. The program convolves with pt where the lemma has its rotations; the mean is the same.", "quantifier": "all N, Diag, Delta, messages, distributions with these errors", "why_tests_cant": "the program prints 100 samples of a random number", "anchors": ["src/experiment/section3/lemma_conv_sum_error.cpp:13-36"]}
{"id": "C90", "title": "The rounding error of a matrix-vector product has the expected size", "statement": "theorem_single_matmul_error.cpp: the mean of the square of the number measured is exactly the square of the number expected, and its mean is at most that number; no matrix with entries up to 1 gives more than sqrt(3 N Diag) times it.", "quantifier": "all N, moduli, Diag, Delta, messages, matrices, distributions with these errors", "why_tests_cant": "the program prints 100 samples of a random number", "anchors": ["src/experiment/section3/theorem_single_matmul_error.cpp:14-43", "include/impl/plaintext.h"]}
{"id": "C91", "title": "The error of a sequence of products is of the order of the bound", "statement": "theorem_serial_matmul_error.cpp: expected and bound have the stated values, and for every message with entries up to 1 the number measured is at most 3 sqrt(N) (1 + 3N/(2 sqrt 2 Delta))^(LOGN-2) times the bound; with the parameters of the program at most 6 sqrt(N) times it.", "quantifier": "all N, moduli, Delta, messages", "why_tests_cant": "the program prints one sample; real-valued inputs", "anchors": ["src/experiment/section3/theorem_serial_matmul_error.cpp:14-51", "include/experiment/setup.h:60-66, 86-97"]}
{"id": "C92", "title": "EvalMod on the widened interval", "statement": "EvalMod with K = 24 is right on inputs that leave the interval [-24+1/4, 24+1/4] the polynomial was designed for by up to 1.05 %: if |I + d - 1/4| <= 24.252 in every slot, the result carries d with error at most wide_error + 117 |d|^5; with delta the error of the scaled input, 1150000 delta + 6e-11 + 117 |d|^5.", "quantifier": "all N up to 2^17, moduli, keys, ciphertexts, random streams, integers I and d", "why_tests_cant": "real-valued inputs; the behaviour outside of the design interval is only met at the extreme points", "anchors": ["include/HEAAN/bootstrap.h: EvalMod", "include/HEAAN/poly.h"]}
{"id": "C93", "title": "The error of EvalMod that measure_b_evalmod.cpp measures", "statement": "For LOGN = 9..17 the program either never finishes drawing the key or prints a number b that is the largest of the differences of the real parts of the slots from the true remainders, and b <= N/15000000 + 1/16000000; for LOGN <= 8 it divides by the number 0.", "quantifier": "all LOGN, random streams, states of the static tables", "why_tests_cant": "depends on a random key and random errors", "anchors": ["src/experiment/section4/measure_b_evalmod.cpp:1-60", "include/experiment/rns.h"]}
{"id": "C94", "title": "sup_norm and print_max_error", "statement": "sup_norm returns the largest of the moduli of the slots, print_max_error the largest differences of real and imaginary parts; sup_norm <= norm <= sqrt(N/2) sup_norm.", "quantifier": "all numbers of slots, messages", "why_tests_cant": "all messages", "anchors": ["include/impl/message.h:54-76", "include/experiment/setup.h:33-42"]}
{"id": "C95", "title": "The test messages", "statement": "set_test_message writes every slot, with numbers of modulus 1/sqrt 2; set_evalmod_message writes numbers I + 1/10000 with integers 0 <= I <= 23; set_test_matrix writes the real parts only (each twice) and leaves the imaginary parts as they were, so that its entries do not have modulus 1/sqrt 2.", "quantifier": "all numbers of slots and diagonals, previous contents", "why_tests_cant": "nothing in the programs looks at the entries", "anchors": ["include/experiment/setup.h:23-31, 51-58, 68-78"]}
{"id": "C96", "title": "evalMod_test.cpp prints the remainder", "statement": "For LOGN = 2..17 the program either never finishes drawing the key or ends with every slot within N/40000000000 + 1/400000000000 of 0.0001, for every result of rand().", "quantifier": "all LOGN, random streams, states of the static tables", "why_tests_cant": "one run of the program is one random stream", "anchors": ["src/test/evalMod_test.cpp:6-28"]}
{"id": "C97", "title": "The ratio of largest and average coefficient", "statement": "For every message that does not round to 0, check_sup_norm_bound computes the largest absolute value of the rounded coefficients divided by the root of their mean square, a number between 1 and sqrt N; the constant 5 it is compared with is no bound: the message with 1/2 in every slot gives sqrt N.", "quantifier": "all N, moduli of at least 66 bits, Delta, messages with coefficients of one word, states of the static tables", "why_tests_cant": "the program tries 100 random messages", "anchors": ["src/experiment/section4/example_sup_norm.cpp:8-42"]}
{"id": "C98", "title": "The expected error of CoeffToSlot and its sanity check agree", "statement": "The number e_norm_expected and the number of the sanity check of theorem_cts_error.cpp are both D sqrt((H+1) 3^G)/12 (2N)^(1/2D) N q/(Delta Delta~) whenever G divides LOGN-1, and the experiments abort when it does not; the expected norm of z_amb printed in line 47 is not the one of the sanity check since it divides the int H+1 by 12.", "quantifier": "all LOGN, G, H, q, Delta, Delta~ without overflow of the ints", "why_tests_cant": "the two printed numbers are not compared", "anchors": ["src/experiment/section3/theorem_cts_error.cpp:16-21, 44-48, 79-92"]}
{"id": "C99", "title": "design_delta_tilde finds the least scale factors", "statement": "The printed exponents are the least ones for which the expected error of CoeffToSlot is at most 1, and for which 5/sqrt N times one plus that error is at most 1 (up to 2^-t, since the bound is truncated to an int): 24, 22 for LOGN = 9; 30, 25 for 13; 35, 29 for 17. For LOGN <= 4 the conversion to int is undefined. With the parameters of lattigo.h the expected error of design_delta_tilde_lattigo is between 0.0128 and 0.0131, below the wanted 0.015625, and 34 is the least exponent with this property.", "quantifier": "all LOGN, G, H, q, Delta without overflow of the ints", "why_tests_cant": "the program prints numbers, the claim is about all smaller ones", "anchors": ["src/experiment/section4/design_delta_tilde.cpp:6-46", "src/experiment/section4/design_delta_tilde_lattigo.cpp:6-37", "include/experiment/lattigo.h"]}
{"id": "C100", "title": "The measurement of the error of CoeffToSlot", "statement": "In measure_cts_error and measure_sup_norm z_amb are the slots of the raised polynomial m (norm sqrt(N/2) times the norm of m/Delta) and e[0], e[1] the differences of the slots after CoeffToSlot and the low words of the coefficients of m: at most the error bound of CoeffToSlot where |m_i| < 2^64, at least 2^64/Delta minus that bound elsewhere, which happens for every key of weight 128. Both programs then read e[1] outside of the array (aggregate), that is have undefined behaviour for every message.", "quantifier": "all messages with coefficients below q/2, random streams, states of the static tables, LOGN <= 17, G, D with G*D = LOGN-1, moduli with enough room", "why_tests_cant": "the programs try one message with one random stream; what the out of bounds access returns is up to the compiler", "anchors": ["src/experiment/section3/theorem_cts_error.cpp:24-77", "src/experiment/section4/example_sup_norm.cpp:44-129", "include/impl/message.h:129"]}
{"id": "C101", "title": "The tests of the arithmetic layers print zeros", "statement": "mod_test and mul_test print 0 exactly when the expected words are the remainder and the product, for both variants of the functions; crt_test prints zeros for every nonnegative number below half the product of the primes and half the modulus given with its residues, ntt_test prints 0, 1, 2, ... for every prime it works with; with the constants of the programs all four print what they should.", "quantifier": "all words, lists of primes, sizes of the numbers, degrees", "why_tests_cant": "each program has one hard coded input", "anchors": ["src/test/mod_test.cpp:5-12", "src/test/mul_test.cpp:5-15", "src/test/crt_test.cpp:5-39", "src/test/ntt_test.cpp:5-16", "include/HEAAN/arith/conv/mod.h", "include/HEAAN/arith/conv/crt.h", "include/HEAAN/arith/conv/ntt.h"]}
{"id": "C102", "title": "The tests of the transforms and products", "statement": "In dft_test the fast and the slow inverse transform are the same rounded coefficients, and the inverse transform followed by the transform returns the message; in conv_test the decoded product of two encoded messages differs from the product of the messages by at most 2Xe+e^2, e = N/2Delta; in ctxt_conv_test the decoded square differs by at most the sum of the errors of encryption, product and key switch (4.6e-13 and 7.8e-12 with the parameters of test.h), unless the key is never found.", "quantifier": "all messages bounded by X, LOGN <= 17, scale factors, moduli with enough room, random streams, states of the static tables", "why_tests_cant": "the programs try one message and leave the comparison to the reader", "anchors": ["src/test/dft_test.cpp:4-23", "src/test/conv_test.cpp:6-21", "src/test/ctxt_conv_test.cpp:5-26", "include/experiment/test.h"]}
{"id": "C103", "title": "The tests of products of sparse matrices", "statement": "element_test prints nothing: the product of the first two matrices of the inverse transform has the entries of the matrix product; vector_test prints the same vector twice; in linear_transform_test the matrices one by one, in groups of two and in groups of four give N/2 times the coefficients of the message in bit-reversed order, up to the error of the roundings and key switches (10^-6 with the parameters of test.h), unless the key is never found.", "quantifier": "all LOGN from 3 to 17 (for linear_transform_test with LOGN-1 a multiple of 4), messages bounded by X, scale factors, moduli with enough room, random streams, states of the static tables", "why_tests_cant": "the programs try one message and leave the comparison to the reader", "anchors": ["src/test/matmul_test.cpp:5-90", "include/experiment/setup.h:86-97", "include/HEAAN/linear_transform.h", "include/experiment/test.h"]}
{"id": "C104", "title": "The tests of CoeffToSlot and SlotToCoeff", "statement": "CoeffToSlot_test prints two lines that differ by at most the error bound of CoeffToSlot plus the noise of encryption, the second being the coefficients of the message in bit-reversed order rounded to multiples of 1/Delta; in CoeffToSlot_SlotToCoeff_test z_out differs from z by at most N times the sum of the error bounds (5*10^-9 and 5*10^-6 with the parameters of test.h), unless the key is never found.", "quantifier": "all LOGN from 2 to 17, G and D with G*D = LOGN-1, messages bounded by X, scale factors, moduli with enough room, random streams, states of the static tables", "why_tests_cant": "the programs try one message and leave the comparison to the reader", "anchors": ["src/test/coeffToSlot_test.cpp:6-75", "include/HEAAN/bootstrap.h", "include/experiment/test.h"]}
{"id": "C105", "title": "The tests of bootstrapping print a message close to the input", "statement": "bootstrap_test, evalqI_test and the two functions of proposal.cpp print for the test message z a message z_out that differs from it by at most N times the error bound of the bootstrapping, the largest differences of real and imaginary parts, and the largest difference of the coefficients divided by Delta, whenever the multiples of q that ModRaise adds are small enough for EvalMod; with the constants of test.h the slots differ by at most 1/60 and the coefficients by at most 1/32000 (for keys with at most 44 nonzero coefficients without any condition), unless the key is never found.", "quantifier": "all LOGN from 2 to 17, G and D with G*D = LOGN-1, weights of the key, scale factors, moduli with enough room, random streams, states of the static tables", "why_tests_cant": "each program is run with one key and one message and leaves the comparison to the reader", "anchors": ["src/test/bootstrap_test.cpp:6-66", "src/test/evalqI_test.cpp:7-83", "src/experiment/section4/proposal.cpp:8-149", "include/experiment/test.h", "include/experiment/rns.h"]}
{"id": "C106", "title": "The stage errors printed by end_to_end_test", "statement": "end_to_end_test prints, unless the key is never found, the largest errors of the ciphertexts after CoeffToSlot, EvalMod, EvalqI and SlotToCoeff against the expected coefficients, the sup norm and the differences of message and output; each is at most the proved error bound of its stage whenever the multiples I of q that ModRaise adds are at most 23 (EvalMod, output) and at most 15 (the other three); but since the expected coefficients are taken from the lowest word, the first, third and fourth number are at least 16383 as soon as one |I| is 17 or more, however small the true errors are.", "quantifier": "all LOGN from 2 to 17, G and D with G*D = LOGN-1, weights of the key, scale factors, moduli with enough room, random streams, states of the static tables", "why_tests_cant": "the program is run with one key; a large printed error does not show whether the stage or the comparison is wrong", "anchors": ["src/test/end_to_end_test.cpp:6-191", "include/experiment/rns.h", "include/HEAAN/bootstrap.h"]}
{"id": "C107", "title": "Linear transform in floating-point arithmetic", "statement": "linear_transform with a table of double diagonals, in an arithmetic whose every operation has relative error u and absolute error eta, terminates and decrypts to the product of matrix and slots up to the encoding error of the diagonals (1/2 plus the rounding errors of the inverse transform) times the slots, plus the noise of the key switches times the entries; for IEEE double precision the encoding error is 1/2 + 2^-41 B Delta + 2^-900 with B the largest entry. It returns only if the real and imaginary parts of every diagonal have the same offset.", "quantifier": "all arithmetics of that kind, rings 4 <= N <= 2^17, moduli, scales below 2^64, numbers of diagonals, entries, offsets, flags, keys, ciphertexts, random streams, static tables", "why_tests_cant": "tests compare with the rounded result of one matrix on one machine", "anchors": ["include/HEAAN/linear_transform.h:147-173", "include/HEAAN/endecode.h:6-20"]}
{"id": "C108", "title": "Products of matrices at set-up in floating-point arithmetic", "statement": "grouped_serial_linear_transform computes the products of G consecutive matrices with rounded operations (MatMul of matrix.h) and applies them: the slots are those of the product of the exact matrices up to an error that adds, per group, the rounding errors of the products (at most S1*S2*(9u(2X+1)+6eta) per product of matrices with S1 and S2 diagonals and rows X) and the encoding errors. It aborts if the number of matrices is no multiple of G or G is not 1 to 4.", "quantifier": "all G from 1 to 4, numbers of groups, of diagonals, entries with bounded rows, arithmetics, rings, keys, ciphertexts", "why_tests_cant": "rounding errors of the products are far below the tolerance of a test", "anchors": ["include/HEAAN/linear_transform.h:189-262", "include/HEAAN/matrix/matrix.h"]}
{"id": "C109", "title": "CoeffToSlot in floating-point arithmetic", "statement": "CoeffToSlot with tables built by splitU0NR, pow, division, scaling and MatMul in rounded arithmetic puts the coefficients of the message in bit-reversed order into the slots of two ciphertexts up to the stated error; in double precision with pow accurate to 2^-52 the rows of the groups err by at most 2^-40 before encoding.", "quantifier": "all LOGN from 2 to 17 with G*D = LOGN-1, G from 1 to 4, scales, moduli, keys, ciphertexts, random streams, states of the static tables, all roundings and library functions within the stated accuracy", "why_tests_cant": "a test sees one set of tables and one libm", "anchors": ["include/HEAAN/bootstrap.h:14-49", "include/HEAAN/matrix/DFT.h", "include/HEAAN/matrix/matrix.h"]}
{"id": "C110", "title": "SlotToCoeff in floating-point arithmetic", "statement": "SlotToCoeff with tables computed in rounded arithmetic returns the polynomial whose coefficients are the real parts of the slots of the two ciphertexts in bit-reversed order up to the stated error; in double precision the rows of the groups err by at most 2^-37 before encoding; after CoeffToSlot it gives back the message.", "quantifier": "all LOGN from 2 to 17 with G*D = LOGN-1, G from 1 to 4, scales, moduli, keys, ciphertexts, random streams, states of the static tables, all roundings and library functions within the stated accuracy", "why_tests_cant": "a test sees one set of tables and one libm", "anchors": ["include/HEAAN/bootstrap.h:51-90", "include/HEAAN/matrix/DFT.h", "include/HEAAN/matrix/matrix.h"]}
{"id": "C111", "title": "Evaluation of polynomials in floating-point arithmetic", "statement": "The functions of poly.h that evaluate polynomials of degree 3 to 127, with the products of the double coefficients and the scale rounded before they are converted to 64-bit words, terminate and decrypt to the values of the polynomial at the slots up to the error of exact arithmetic plus the rounding errors u*U + eta/Delta of each coefficient.", "quantifier": "all arithmetics of the stated accuracy, rings, scales, moduli, coefficients bounded by U, evaluation keys, ciphertexts with slots of bounded size", "why_tests_cant": "the rounding of a coefficient is far below the noise of one run", "anchors": ["include/HEAAN/poly.h:5-545"]}
{"id": "C112", "title": "EvalMod in floating-point arithmetic", "statement": "EvalMod, with the literals, 1/K, 1/(4K), the products of the coefficients and 1/(12 pi) rounded, terminates and decrypts to the distance of the argument from the nearest integer up to the stated error; in double precision at most 340000*delta + 3/10^12 + 117*dmax^5, with delta the error of the argument plus 2/10^16.", "quantifier": "all arithmetics of the stated accuracy, rings, scales up to 2^62, moduli of at least 13 levels, keys, ciphertexts, random streams", "why_tests_cant": "a test sees one compiler, one libm and one message", "anchors": ["include/HEAAN/bootstrap.h:92-228", "include/HEAAN/poly.h:184-282"]}
{"id": "C113", "title": "Conventional bootstrapping in floating-point arithmetic", "statement": "The bootstrapping CoeffToSlot, EvalMod, SlotToCoeff of the experiment, with all tables, coefficients and constants computed by rounded operations, terminates and decrypts to the message up to the stated error, in which the errors of the matrices of CoeffToSlot count in full.", "quantifier": "all arithmetics and pow of the stated accuracy, rings up to 2^17, G from 1 to 4 with G*D = LOGN-1, scales, moduli, ternary keys, ciphertexts, random streams, states of static tables", "why_tests_cant": "one run on one machine shows one set of tables", "anchors": ["src/experiment/section4/proposal.cpp", "include/HEAAN/bootstrap.h"]}
{"id": "C114", "title": "Proposed bootstrapping in floating-point arithmetic", "statement": "The bootstrapping that subtracts EvalqI, with all tables, coefficients and constants computed by rounded operations, terminates and decrypts to the message up to the stated error, in which the errors of the matrices of CoeffToSlot, including their rounding errors, cancel up to their fifth power.", "quantifier": "all arithmetics and pow of the stated accuracy, rings up to 2^17, G from 1 to 4 with G*D = LOGN-1, scales, moduli, ternary keys, ciphertexts, random streams, states of static tables", "why_tests_cant": "one run on one machine shows one set of tables", "anchors": ["src/experiment/section4/proposal.cpp", "include/HEAAN/bootstrap.h"]}
{"id": "C115", "title": "The bootstrapping experiments in double precision", "statement": "In double precision with a pow accurate to 2^-52 both experiments print the decryption of the bootstrapped ciphertext minus the message, bounded by the errors of C113 and C114; for dimension 512, modulus 2^1450 and scale 2^60 the coefficients of a message up to 2^52 come back up to 2^47 (proposed) and 2^51 (conventional) for every scale of CoeffToSlot from 2^40 to 2^60.", "quantifier": "all roundings and library functions within the accuracy of IEEE double precision, keys with at most 44 nonzero coefficients, messages, random streams, static tables", "why_tests_cant": "the bound is for the worst case over keys, messages, random numbers and libm", "anchors": ["src/experiment/section4/proposal.cpp", "include/HEAAN/bootstrap.h"]}
{"id": "C116", "title": "Raising the modulus for almost all ciphertexts", "statement": "For a ternary key with h nonzero coefficients and all but a fraction of 2*N*tail_bound of the second components of ciphertexts, mod_raise adds multiples of q of at most B in every coefficient; for h up to 128 and B = 23 the fraction is at most 14*N/10^12.", "quantifier": "all keys, dimensions, moduli, first components and messages up to q/4; the fraction is taken over all second components modulo q", "why_tests_cant": "a test would have to try 10^9 ciphertexts for one key to see an exception", "anchors": ["include/HEAAN/bootstrap.h:5-12", "include/experiment/rns.h:14"]}
{"id": "C117", "title": "Bootstrapping with keys of 128 nonzero coefficients", "statement": "For keys with at most 128 nonzero coefficients, as in the experiments, both bootstrapping procedures succeed for all but 8 in 10^9 (dimension 512) and 12 in 10^8 (dimension 8192) of the second components of the ciphertext, and return the message up to 2^35 and 2^43 for messages up to 2^51.", "quantifier": "all keys with at most 128 nonzero coefficients, first components, messages, random streams and states of the static tables", "why_tests_cant": "failures are too rare to be met in a test and depend on key and ciphertext", "anchors": ["src/experiment/section4/proposal.cpp", "include/HEAAN/bootstrap.h", "include/experiment/rns.h:14"]}
{"id": "C118", "title": "Messages and error measures in floating point", "statement": "add, sub and mul of messages err per slot by a few units in the last place of the exact result (of the product of the moduli for mul); square_sum, norm and sup_norm never take the root of a negative number and err by a relative 8n*2^-53 plus underflow; print_max_error's maxima err by one unit in the last place.", "quantifier": "all lengths, messages and arithmetics that meet the error model, IEEE double precision among them", "why_tests_cant": "rounding errors depend on every operand; a test sees only a few", "anchors": ["include/impl/message.h:30-76", "include/experiment/setup.h:33-42"]}
{"id": "C119", "title": "Products of matrices and of matrix and message in floating point", "statement": "matrix_vector_product (diagonal and dense) and the dense matrix_product err per entry by at most S*(8*2^-53*X + underflow), where S is the number of terms and X bounds the sum of the moduli of the exact products.", "quantifier": "all dimensions, numbers of diagonals, offsets, entries and arithmetics that meet the error model", "why_tests_cant": "worst-case accumulation of rounding errors cannot be sampled", "anchors": ["include/impl/message.h:88-125", "include/HEAAN/matrix/matrix.h:7-22"]}
{"id": "C120", "title": "The quadratic transforms in floating point, and agreement with the fast ones", "statement": "dft and idft in floating point err by at most N*(5*2^-53*X + underflow) plus the error of the cosines; hence they agree with fft and ifft, idft inverts dft and fft inverts ifft, up to stated bounds (which is what dft_test.cpp looks at).", "quantifier": "all LOGN (2 to 27, numeric bounds for 2 to 17), all coefficients and slots up to the overflow threshold, all states of the static tables", "why_tests_cant": "a test compares the two on one random input and leaves the judgement to the reader of the output", "anchors": ["include/HEAAN/matrix/DFT.h:10-36", "include/HEAAN/matrix/DFT.h:44-159", "src/test/dft_test.cpp"]}
{"id": "C121", "title": "Bootstrapping in double precision with keys of test weight, for almost all ciphertexts", "statement": "In double precision both bootstrapping procedures (the experiments' parameters at N = 512, keys with up to 128 nonzero coefficients) return a ciphertext whose decryption is within 2^50 (conventional) or 2^47 (proposed) of the message for all but a fraction of 8*10^-9 of the uniform second components of the input ciphertext; in general the error is at most the stated formula whenever the multiples of q after mod_raise are bounded.", "quantifier": "all keys of the given weight, all messages up to 2^51, all states of static tables and generator, all arithmetics of double precision; all but the stated fraction of ciphertexts", "why_tests_cant": "a failure probability of 10^-9 and worst-case rounding errors are out of reach of sampling", "anchors": ["include/HEAAN/bootstrap.h", "src/experiment/section4/proposal.cpp:8-149"]}
{"id": "C122", "title": "Conversion of Chebyshev coefficients in floating point", "statement": "convert_frc_tou in floating point returns coefficients whose product-form value differs from the Chebyshev value of the input by at most k*2^(2k-1)*2^-53 times the sum of the coefficients' moduli (N = 2^k, 2 <= k <= 7); it never returns for N < 4.", "quantifier": "all coefficient arrays, all points of [-1,1], all arithmetics that meet the error model", "why_tests_cant": "the recursion doubles errors at each level; tests see typical ones only", "anchors": ["include/HEAAN/poly.h:548-562"]}
{"id": "C123", "title": "Test messages and test matrices in floating point", "statement": "set_test_message, set_evalmod_message and set_test_matrix compute, per entry, the intended point up to 2^-48 (2^-47 for matrices) in double precision.", "quantifier": "all lengths and numbers of diagonals within the int range, all arithmetics that meet the error model", "why_tests_cant": "inputs of all other tests; an error here silently changes what is tested", "anchors": ["include/experiment/setup.h:23-78"]}
{"id": "C124", "title": "The bootstrapping programs in double precision", "statement": "bootstrap_test.cpp, evalqI_test.cpp and the two functions of proposal.cpp, from keygen to the last line printed, in double precision: they either sample keys forever or encode the message up to 1/2+2^-41*Delta per coefficient, and when the multiples of q are at most the bound, run to the end, print the maxima up to one unit in the last place and the sup norm up to three, the sup norm being at most the bootstrapping error over Delta; with the parameters of test.h the sup norm printed is at most 1.00001 (conventional) and 0.12501 (proposed), without further assumptions for keys of weight at most 44.", "quantifier": "all random streams, key weights up to 128 (numeric) or any (formula), states of the static tables, arithmetics of double precision", "why_tests_cant": "the programs print one sample; the claim is about all", "anchors": ["src/test/bootstrap_test.cpp", "src/test/evalqI_test.cpp", "src/experiment/section4/proposal.cpp:8-149"]}
{"id": "C125", "title": "Coefficient-encoded plaintexts and set_test_rounded_message in floating point", "statement": "add, sub, conv, square_sum and norm of simple_plaintext.h return in double precision the exact results up to the stated error of a sum of N rounded products; encode writes the nearest integer of every scaled coefficient, decode returns the signed coefficient divided by the scale up to one rounding each; set_test_rounded_message returns the test message encoded and decoded, within the stated error of it.", "quantifier": "all lengths, all coefficients within the stated ranges, all arithmetics that meet the error model", "why_tests_cant": "the worst case of accumulated rounding over N products is not met by random inputs", "anchors": ["include/impl/simple_plaintext.h:18-86", "include/experiment/setup.h:60-66"]}
{"id": "C126", "title": "The tests of transforms, products, linear transforms and EvalMod in floating point", "statement": "In double precision: ifft_test prints two arrays that differ by at most the stated multiple of 2^-53; run_test prints a message and its transform back, which differ by at most 5000 n B 2^-53; in conv_test and ctxt_conv_test both printed messages are the product (square), the first up to one product's rounding, the second up to the errors of encode, encryption, product, key switch and decode (10^-14 and 10^-9 with the constants of test.h); evalMod_test prints in every slot 0.0001 up to N/6000000 + 2*10^-10 for LOGN <= 14; CoeffToSlot_test prints two pairs of messages, each pair equal up to 5*10^-8, CoeffToSlot_SlotToCoeff_test two messages equal up to 0.003 and linear_transform_test three messages equal up to 6*10^-5 with the constants of the files; unless the key is never found.", "quantifier": "all messages bounded by X, LOGN <= 17 (evalMod_test: 14), scale factors, moduli with enough room, random streams, states of the static tables, all arithmetics that meet the error model", "why_tests_cant": "the programs try one message and leave the comparison to the reader", "anchors": ["src/test/dft_test.cpp:4-23", "src/test/conv_test.cpp:6-20", "src/test/ctxt_conv_test.cpp:5-25", "src/test/evalMod_test.cpp:6-28", "src/test/coeffToSlot_test.cpp:6-75", "src/test/matmul_test.cpp:56-86", "include/HEAAN/endecode.h"]}
{"id": "C127", "title": "One object in two places", "statement": "resize of an object into itself keeps negative numbers and turns all others into 0; R_Q += itself doubles exactly when no word below the topmost of any coefficient has its top bit set; conv with an integer polynomial in place computes the recurrence d_i = sum of s_(i-j) d_j over j<i minus sum of s_(N+i-j) a_j over j>i instead of the product; conj in place leaves the upper half of the coefficients as they are; ct *= ct[0] multiplies the second component by the square of the first; Mul into its first argument uses the key-switched product of the second components in place of the first factor. (conv with aliased arguments: C29; Z_Q += itself: C05.)", "quantifier": "all widths, degrees, operands; conv with iterations in order (one thread)", "why_tests_cant": "tests call these functions with distinct objects only", "anchors": ["include/HEAAN/arith/Z_Q.h:292-309", "include/HEAAN/arith/R_Q.h:33-37", "include/HEAAN/arith/R_Q.h:82-87", "include/HEAAN/arith/conv.h:15-32", "include/HEAAN/arith/R_Q_square.h:49-54", "include/HEAAN/linear_transform.h:61-75", "include/HEAAN/core.h:108-125"]}
{"id": "C128", "title": "end_to_end_test in double precision", "statement": "end_to_end_test with every operation on doubles rounded: for any arithmetic with the accuracy of double precision and sign-symmetric rounding, either keygen does not return or the program ends and prints, for CoeffToSlot, EvalMod, EvalqI and SlotToCoeff, a number within an explicit bound of the exact distance when the coefficients compared fit into 64-bit words, and a number near 2^64 / Delta when a coefficient does not; the last numbers are those of the final errors up to rounding. For end_to_end_test<9,60,LDs,2> with 50 <= LDs <= 60: the errors are at most 0.44, 0.44, 1.8e-5 and 0.126 when all multiples of q are at most 15, and at least 16383 (except the second) when one is 17 or more; keys with at most 28 nonzero coefficients are always in the first case.", "quantifier": "all arithmetics with the accuracy of double precision, all parameters satisfying the stated inequalities, all keys and random streams", "why_tests_cant": "one run with one key and one random stream shows neither the accuracy for other keys nor the wrap-around of the comparison", "anchors": ["src/test/end_to_end_test.cpp:6-191"]}
{"id": "C129", "title": "measure_b_evalmod in double precision", "statement": "measure_b_evalmod with every operation on doubles rounded, for 9 <= LOGN <= 14 and the parameters of rns.h: for any arithmetic with the accuracy of double precision and sign-symmetric rounding, and any pow with pow(2,10) = 1024, either keygen does not return or the program ends, its z_evalmod differs from the messages without the multiples of q/Delta by at most N/1700 + 1e-6 in the real parts, and the number printed is the largest of these differences up to 1e-13. EvalMod in this arithmetic is accurate on all the slots of the program, the multiples -24..24 included, which lie outside the interval |x - 1/4| <= 24 of C112.", "quantifier": "all arithmetics with the accuracy of double precision, all 9 <= LOGN <= 14, all keys and random streams", "why_tests_cant": "one run with one key and one random stream shows the error of that run only", "anchors": ["src/experiment/section4/measure_b_evalmod.cpp:6-53"]}
{"id": "C130", "title": "lemma_conv_error in double precision", "statement": "measure_conv_error of lemma_conv_error.cpp with every operation on doubles rounded, for 2 <= LOGN <= 17, any 0 < Delta < 2^64 and messages of modulus at most 2^100: the run ends; with c the integer coefficients of pt (within 1/2 and the error of encode of those of z times Delta) and e the rounding error of the encoding of V (at most 1/2 + 1e-12 in modulus, and within the error of encode of the coefficients of V times Delta minus integers), expected is N/12 times the sum of the squares of c up to a relative error 1e-9, measured is the sum of the squares of e*c up to 1e-8 of N^2/4 times the sum of the squares of c, and measured is at most 3 N expected up to a relative error 1e-8.", "quantifier": "all arithmetics with the accuracy of double precision that keep signs, all 2 <= LOGN <= 17, all Delta below 2^64, all messages of bounded modulus", "why_tests_cant": "a run prints numbers for 100 random messages only", "anchors": ["src/experiment/section3/lemma_conv_error.cpp:5-35"]}
{"id": "C131", "title": "lemma_conv_sum_error in double precision", "statement": "measure_conv_sum_error of lemma_conv_sum_error.cpp with every operation on doubles rounded, for 2 <= LOGN <= 17, 1 <= Diag <= 1024 and Delta, messages as in C130: the run ends; expected is Diag N/12 times the sum of the squares of the coefficients c of pt up to a relative error 1e-9, measured is the sum of the squares of the coefficients of sum_k e_k*c, with the rounding errors e_k of the encodings of the messages V_k, up to 1e-8 of (Diag N)^2/4 times the sum of the squares of c (the rotated plaintext pt_rot is not used), and measured is at most 3 Diag N expected up to a relative error 1e-8.", "quantifier": "all arithmetics with the accuracy of double precision that keep signs, all 2 <= LOGN <= 17, all 1 <= Diag <= 1024, all Delta below 2^64, all messages of bounded modulus", "why_tests_cant": "a run prints numbers for 100 tuples of random messages only", "anchors": ["src/experiment/section3/lemma_conv_sum_error.cpp:5-39"]}
{"id": "C132", "title": "Matrix-vector products of plaintexts and theorem_single_matmul_error in double precision", "statement": "matrix_vector_product of plaintext.h (the one for K diagonals) with every operation on doubles rounded, for 2 <= LOGN <= 17, at most 2^17 diagonals of modulus at most 1 encoded with scale 2^d, d <= 63, and a plaintext of scale 2^e with slots of modulus at most Z: after decode_log with d + e every slot j is within eta sum_k |z_(j+k)| + 2^-42 N K (1 + eta) Z + 2^-1000 of the exact product, where eta = N (1/2 + 2^-41 2^d + 2^-900) / 2^d. The run of theorem_single_matmul_error.cpp from encode on, for 1 <= Diag <= 2^13 and vector and diagonals of modulus at most 1: it ends, expected is sqrt(Diag N/12) |z| / Delta up to a relative error 1e-9, measured is the norm of A z - sum_k c_k rot_k(p)/Delta^2, with p and c_k integer polynomials within 1/2 + 2^-41 Delta + 2^-900 of the coefficients of z and of the diagonals times Delta, up to sqrt(N/2) (2^-42 N Diag (1 + eta)^2 + 2^-50 Diag^2) and 1e-9 of the following bound, and measured is not negative and at most (1 + 1e-9) sqrt(N/2) (Diag (2 eta + eta^2) + 2^-42 N Diag (1 + eta)^2 + 2^-50 Diag^2).", "quantifier": "all arithmetics with the accuracy of double precision that keep signs, all 2 <= LOGN <= 17, all scales, all matrices and vectors of bounded modulus", "why_tests_cant": "a run prints numbers for 100 random matrices only", "anchors": ["include/impl/plaintext.h:24-37", "src/experiment/section3/theorem_single_matmul_error.cpp:17-43"]}
