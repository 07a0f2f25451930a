(** Models of the test programs in src/test that check single layers: mod_test, mul_test, crt_test, ntt_test, dft_test, conv_test,
    ctxt_conv_test.  The constants of the programs are parameters here.  A random message (setup.h:45-49) is a parameter.  Each model returns
    what its program prints, where printing a message or an array (which prints the first few entries) returns the whole of it. *)
From Coq Require Import ZArith List Bool Reals.
From Verif Require Import Base ZQ RQ Util Mod CRT NTT Rot Conv Core GSum Matrix DFT Encode Plain Section3 Section4.
Import ListNotations.
Open Scope Z_scope.

(** mod_test.cpp:5-12; [modulo] is one of the two variants of mod.h *)
Definition mod_test (modulo : Z -> Z -> Z -> res Z) (al ah q expected : Z) : res Z :=
  r <- modulo al ah q ;; Ok (wsub expected r).

(** mul_test.cpp:5-15; [multiply] is one of the two variants of mod.h *)
Definition mul_test (multiply : Z -> Z -> Z * Z) (a b lo_expected hi_expected : Z) : Z * Z :=
  let '(lo, hi) := multiply a b in (wsub lo lo_expected, wsub hi hi_expected).

(** crt_test.cpp:22,31: the differences printed *)
Definition differences (L : Z) (a b : arr) : res (list Z) :=
  for_ 0 L (fun i out => x <- rd a i ;; y <- rd b i ;; Ok (out ++ [wsub x y])) [].
(** crt_test.cpp:5-39.  [L] is the number of primes, the object a has [w] = LOGQ/64 words. *)
Definition crt_test (L w : Z) (q a_data a_rns : arr) : res (list Z * list Z) :=
  let LOGQ := 64 * w in
  crt <- crt_new L q ;;
  a <- for_ 0 w (fun i a => x <- rd a_data i ;; wr a i x) (zq_new LOGQ) ;;
  a_rns_measured <- crt_icrt crt L LOGQ a (repeat (Some 0) (Z.to_nat L)) ;;
  d1 <- differences L a_rns a_rns_measured ;;
  a_measured <- crt_crt crt L LOGQ a_rns (zq_new LOGQ) ;;
  d2 <- differences w a a_measured ;;
  Ok (d1, d2).

(** util.h:47-52 print_array: the numbers printed *)
Definition printed (N : Z) (A : arr) : res (list Z) :=
  for_ 0 (Z.min N 10) (fun i out => x <- rd A i ;; Ok (out ++ [x])) [].
(** ntt_test.cpp:5-16 *)
Definition ntt_test (N q : Z) : res (list Z) :=
  T <- ntt_new N q ;;
  a <- for_ 0 N (fun i a => wr a i i) (fresh N) ;;
  a <- ntt_fwd T N a ;;
  a <- ntt_inv T N a ;;
  printed N a.

(** dft_test.cpp:4-12 ifft_test.  [st] and [st2] are the static tables of ifftNR and fftNR.  Returns m_idft and m_ifft. *)
Definition ifft_test (LOGN Delta : Z) (st st2 : tables) : res (tables * tables * (rarr * rarr)) :=
  let N := 2 ^ LOGN in
  z <- msg_new (K := Rops) (Z.quot N 2) ;;
  z <- set_test_message (Z.quot N 2) z ;;
  '(st, st2, z) <- rounded_message LOGN Delta st st2 z ;;
  m_idft <- idft N (fst z) (snd z) (gfresh R N) ;;
  '(st, m_ifft) <- ifft LOGN st (fst z) (snd z) (gfresh R N) ;;
  Ok (st, st2, (m_idft, m_ifft)).
(** dft_test.cpp:14-23 run_test; returns z_res *)
Definition fft_run_test (LOGN : Z) (st st2 : tables) (z : rarr * rarr) : res (tables * tables * (rarr * rarr)) :=
  let N := 2 ^ LOGN in
  z_res <- msg_new (K := Rops) (Z.quot N 2) ;;
  '(st, m) <- ifft LOGN st (fst z) (snd z) (gfresh R N) ;;
  '(st2, z_res) <- fft LOGN st2 m (fst z_res) (snd z_res) ;;
  Ok (st, st2, z_res).

(** conv_test.cpp:6-21; returns c_orig and c *)
Definition conv_test (LOGQ LOGN LOGDELTA : Z) (st st2 : tables) (a b : rarr * rarr) : res (tables * tables * ((rarr * rarr) * (rarr * rarr))) :=
  let N := 2 ^ LOGN in
  let Delta := 2 ^ LOGDELTA in
  c_orig <- msg_new (K := Rops) (Z.quot N 2) ;;
  c <- msg_new (K := Rops) (Z.quot N 2) ;;
  '(st, pt_a) <- encode LOGQ LOGN st (fst a) (snd a) Delta (rq_new LOGQ N) ;;
  '(st, pt_b) <- encode LOGQ LOGN st (fst b) (snd b) Delta (rq_new LOGQ N) ;;
  c_orig <- msg_mul (K := Rops) (Z.quot N 2) a b c_orig ;;
  pt_c <- conv_poly LOGQ N pt_a pt_b (rq_new LOGQ N) ;;
  LD2 <- int_ (LOGDELTA * 2) ;;
  '(st2, c) <- decode_log LOGQ LOGN st2 pt_c LD2 (fst c) (snd c) ;;
  Ok (st, st2, (c_orig, c)).

(** ctxt_conv_test.cpp:5-26; [fuel] is for keygen.  Returns z_sq_orig and z_sq. *)
Definition ctxt_conv_test (fuel : nat) (LOGQ LOGN LOGDELTA H RM : Z) (rnd : nat -> Z) (st st2 : tables) (pos : nat) (z : rarr * rarr)
  : res (tables * tables * nat * ((rarr * rarr) * (rarr * rarr))) :=
  let N := 2 ^ LOGN in
  let Delta := 2 ^ LOGDELTA in
  z_sq_orig <- msg_new (K := Rops) (Z.quot N 2) ;;
  z_sq <- msg_new (K := Rops) (Z.quot N 2) ;;
  z_sq_orig <- msg_mul (K := Rops) (Z.quot N 2) z z z_sq_orig ;;
  '(s, pos) <- keygen fuel N rnd H (fresh N) pos ;;
  s_sq <- conv_int N s s (fresh N) ;;
  '(evk, pos) <- swkgen LOGQ N RM rnd s_sq s (sq_new (2 * LOGQ) N) pos ;;
  '(st, pt) <- encode LOGQ LOGN st (fst z) (snd z) Delta (rq_new LOGQ N) ;;
  '(ct, pos) <- enc LOGQ N RM rnd pt s (sq_new LOGQ N) pos ;;
  ct_sq <- Mul LOGQ N ct ct evk (sq_new LOGQ N) ;;
  pt_sq <- dec LOGQ N ct_sq s (rq_new LOGQ N) ;;
  LD2 <- int_ (2 * LOGDELTA) ;;
  '(st2, z_sq) <- decode_log LOGQ LOGN st2 pt_sq LD2 (fst z_sq) (snd z_sq) ;;
  Ok (st, st2, pos, (z_sq_orig, z_sq)).
