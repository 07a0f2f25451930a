(** Models in floating-point arithmetic (Float.v) of src/test/dft_test.cpp, conv_test.cpp, ctxt_conv_test.cpp, evalMod_test.cpp and
    coeffToSlot_test.cpp.  They are the models of TestProg.v, Section4.v and TestLin.v with every operation on doubles rounded.  The constants of the programs are
    parameters; a random message (setup.h:45-49) is a parameter.  Each model returns what its program prints, where printing a message
    returns the whole of it.  [st], [st2], [stc], [sts] are the static tables of ifftNR, fftNR, CoeffToSlot, SlotToCoeff and [fuel] is for keygen. *)
From Coq Require Import ZArith List Bool Reals.
From Verif Require Import Base ZQ RQ Util Rot Conv Core GSum Matrix DFT Encode Plain LinTrans Bootstrap EvalMod Section4 Float FloatMsg FloatLin FloatMod FloatSetup FloatTestBoot.
From Verif Require Import FloatSimple.
Import ListNotations.
Open Scope Z_scope.

Section Tests.
Context (F : fpu) (lpow : R -> R -> R).

(** dft_test.cpp:4-12 ifft_test.  Returns m_idft and m_ifft. *)
Definition f_ifft_test (LOGN Delta : Z) (st st2 : tables) : res (tables * tables * (rarr * rarr)) :=
  let N := 2 ^ LOGN in
  z <- msg_new (K := Rops) (Z.quot N 2) ;;
  '(st, st2, z) <- f_set_test_rounded_message F LOGN st st2 Delta z ;;
  m_idft <- f_idft F N (fst z) (snd z) (gfresh R N) ;;
  '(st, m_ifft) <- f_ifft F LOGN st (fst z) (snd z) (gfresh R N) ;;
  Ok (st, st2, (m_idft, m_ifft)).
(** dft_test.cpp:14-23 run_test; returns z_res *)
Definition f_fft_run_test (LOGN : Z) (st st2 : tables) (z : rarr * rarr) : res (tables * tables * (rarr * rarr)) :=
  let N := 2 ^ LOGN in
  z_res <- msg_new (K := Rops) (Z.quot N 2) ;;
  '(st, m) <- f_ifft F LOGN st (fst z) (snd z) (gfresh R N) ;;
  '(st2, z_res) <- f_fft F LOGN st2 m (fst z_res) (snd z_res) ;;
  Ok (st, st2, z_res).

(** conv_test.cpp:6-21; returns c_orig and c *)
Definition f_conv_test (LOGQ LOGN LOGDELTA : Z) (st st2 : tables) (a b : rarr * rarr) : res (tables * tables * ((rarr * rarr) * (rarr * rarr))) :=
  let N := 2 ^ LOGN in
  let Delta := 2 ^ LOGDELTA in
  c_orig <- msg_new (K := Rops) (Z.quot N 2) ;;
  c <- msg_new (K := Rops) (Z.quot N 2) ;;
  '(st, pt_a) <- f_encode F LOGQ LOGN st (fst a) (snd a) Delta (rq_new LOGQ N) ;;
  '(st, pt_b) <- f_encode F LOGQ LOGN st (fst b) (snd b) Delta (rq_new LOGQ N) ;;
  c_orig <- msg_mul (K := Fops F) (Z.quot N 2) a b c_orig ;;
  pt_c <- conv_poly LOGQ N pt_a pt_b (rq_new LOGQ N) ;;
  LD2 <- int_ (LOGDELTA * 2) ;;
  '(st2, c) <- f_decode_log F LOGQ LOGN st2 pt_c LD2 (fst c) (snd c) ;;
  Ok (st, st2, (c_orig, c)).

(** ctxt_conv_test.cpp:5-26.  Returns z_sq_orig and z_sq. *)
Definition f_ctxt_conv_test (fuel : nat) (LOGQ LOGN LOGDELTA H RM : Z) (rng : nat -> Z) (st st2 : tables) (pos : nat) (z : rarr * rarr)
  : res (tables * tables * nat * ((rarr * rarr) * (rarr * rarr))) :=
  let N := 2 ^ LOGN in
  let Delta := 2 ^ LOGDELTA in
  z_sq_orig <- msg_new (K := Rops) (Z.quot N 2) ;;
  z_sq <- msg_new (K := Rops) (Z.quot N 2) ;;
  z_sq_orig <- msg_mul (K := Fops F) (Z.quot N 2) z z z_sq_orig ;;
  '(s, pos) <- keygen fuel N rng H (fresh N) pos ;;
  s_sq <- conv_int N s s (fresh N) ;;
  '(evk, pos) <- swkgen LOGQ N RM rng s_sq s (sq_new (2 * LOGQ) N) pos ;;
  '(st, pt) <- f_encode F LOGQ LOGN st (fst z) (snd z) Delta (rq_new LOGQ N) ;;
  '(ct, pos) <- enc LOGQ N RM rng pt s (sq_new LOGQ N) pos ;;
  ct_sq <- Mul LOGQ N ct ct evk (sq_new LOGQ N) ;;
  pt_sq <- dec LOGQ N ct_sq s (rq_new LOGQ N) ;;
  LD2 <- int_ (2 * LOGDELTA) ;;
  '(st2, z_sq) <- f_decode_log F LOGQ LOGN st2 pt_sq LD2 (fst z_sq) (snd z_sq) ;;
  Ok (st, st2, pos, (z_sq_orig, z_sq)).

(** evalMod_test.cpp:6-28 EvalMod_test; s_sq is not used.  Returns z_out. *)
Definition f_evalmod_test (fuel : nat) (LOGQ LOGN LOGDELTA_boot K H RM : Z) (rng : nat -> Z) (st st2 : tables) (pos : nat) : res (tables * tables * nat * (rarr * rarr)) :=
  let N := 2 ^ LOGN in
  let n := Z.quot N 2 in
  '(s, pos) <- keygen fuel N rng H (fresh N) pos ;;
  z <- msg_new (K := Rops) n ;;
  z_out <- msg_new (K := Rops) n ;;
  z <- f_set_evalmod_message F n z ;;
  '(st, pt) <- f_encode F LOGQ LOGN st (fst z) (snd z) (2 ^ LOGDELTA_boot) (rq_new LOGQ N) ;;
  '(ct, pos) <- enc LOGQ N RM rng pt s (sq_new LOGQ N) pos ;;
  let LOGQ_out := LOGQ - 12 * LOGDELTA_boot in
  '(pos, c) <- f_EvalMod F LOGQ N LOGDELTA_boot K RM rng pos ct s (sq_new LOGQ_out N) ;;
  pt <- dec LOGQ_out N c s (rq_new LOGQ_out N) ;;
  '(st2, z_out) <- f_decode_log F LOGQ_out LOGN st2 pt LOGDELTA_boot (fst z_out) (snd z_out) ;;
  Ok (st, st2, pos, z_out).

(** coeffToSlot_test.cpp:30, 32-38 and 31, 40-46: the copy of a coefficient, its low word with the sign (the multiplication by -1 does not round), divided by Delta *)
Definition f_coeff_double (LOGQ LOGDELTA : Z) (p : arr) : res R :=
  v <- f_zq_double F LOGQ p ;; f_div F v (rnd F (IZR (2 ^ LOGDELTA))).
(** coeffToSlot_test.cpp:6-54; the loop of lines 20-23 is written out.  Returns z_cts_res and z_cts_exact. *)
Definition f_CoeffToSlot_test (fuel : nat) (LOGQ LOGN LOGDELTA LOGDELTA_boot_tilde G H RM : Z) (rng : nat -> Z) (stc st st2 : tables) (pos : nat) (z : rarr * rarr)
    : res (tables * tables * tables * nat * ((rarr * rarr) * (rarr * rarr))) :=
  let N := 2 ^ LOGN in
  let n := Z.quot N 2 in
  '(s, pos) <- keygen fuel N rng H (fresh N) pos ;;
  z0 <- msg_new (K := Rops) n ;; z1 <- msg_new (K := Rops) n ;;
  z_cts_res <- msg_new (K := Rops) n ;; z_cts_exact <- msg_new (K := Rops) n ;;
  '(st, pt) <- f_encode F LOGQ LOGN st (fst z) (snd z) (2 ^ LOGDELTA) (rq_new LOGQ N) ;;
  '(ct, pos) <- enc LOGQ N RM rng pt s (sq_new LOGQ N) pos ;;
  '(stc, st, pos, ct0, ct1) <- f_CoeffToSlot F lpow LOGQ LOGN LOGDELTA_boot_tilde RM rng G stc st pos ct s (sq_new LOGQ N) (sq_new LOGQ N) ;;
  guard (negb (G =? 0)) ;;;
  scale <- int_ (LOGDELTA + Z.quot (LOGN - 1) G * LOGDELTA_boot_tilde) ;;
  pt0 <- dec LOGQ N ct0 s (rq_new LOGQ N) ;;
  '(st2, z0) <- f_decode_log F LOGQ LOGN st2 pt0 scale (fst z0) (snd z0) ;;
  pt1 <- dec LOGQ N ct1 s (rq_new LOGQ N) ;;
  '(st2, z1) <- f_decode_log F LOGQ LOGN st2 pt1 scale (fst z1) (snd z1) ;;
  z_cts_res <- for_ 0 n (fun i '(r, im) =>
      x <- grd (fst z0) i ;; r <- gwr r i x ;; y <- grd (fst z1) i ;; im <- gwr im i y ;; Ok (r, im)) z_cts_res ;;
  z_cts_exact <- for_ 0 n (fun i '(r, im) =>
      b <- bitReverse i (LOGN - 1) ;; p <- lget pt b ;;
      b <- bitReverse i (LOGN - 1) ;; q <- lget pt ((b + n) mod 2 ^ 32) ;;
      valr <- f_coeff_double LOGQ LOGDELTA p ;; vali <- f_coeff_double LOGQ LOGDELTA q ;;
      r <- gwr r i valr ;; im <- gwr im i vali ;; Ok (r, im)) z_cts_exact ;;
  Ok (stc, st, st2, pos, (z_cts_res, z_cts_exact)).

(** coeffToSlot_test.cpp:56-75; returns z_out *)
Definition f_CoeffToSlot_SlotToCoeff_test (fuel : nat) (LOGQ LOGN LOGDELTA LOGDELTA_boot LOGDELTA_boot_tilde G H RM : Z) (rng : nat -> Z) (stc : tables) (sts : stables) (st st2 : tables) (pos : nat)
    (z : rarr * rarr) : res (tables * stables * tables * tables * nat * (rarr * rarr)) :=
  let N := 2 ^ LOGN in
  let n := Z.quot N 2 in
  '(s, pos) <- keygen fuel N rng H (fresh N) pos ;;
  z_out <- msg_new (K := Rops) n ;;
  '(st, pt) <- f_encode F LOGQ LOGN st (fst z) (snd z) (2 ^ LOGDELTA) (rq_new LOGQ N) ;;
  '(ct, pos) <- enc LOGQ N RM rng pt s (sq_new LOGQ N) pos ;;
  '(stc, st, pos, ct0, ct1) <- f_CoeffToSlot F lpow LOGQ LOGN LOGDELTA_boot_tilde RM rng G stc st pos ct s (sq_new LOGQ N) (sq_new LOGQ N) ;;
  '(sts, st, pos, ct_out) <- f_SlotToCoeff F LOGQ LOGN LOGDELTA_boot RM rng G sts st pos ct0 ct1 s (sq_new LOGQ N) ;;
  pt_out <- dec LOGQ N ct_out s (rq_new LOGQ N) ;;
  guard (negb (G =? 0)) ;;;
  scale <- int_ (LOGDELTA + Z.quot (LOGN - 1) G * LOGDELTA_boot_tilde + Z.quot (LOGN - 1) G * LOGDELTA_boot) ;;
  '(st2, z_out) <- f_decode_log F LOGQ LOGN st2 pt_out scale (fst z_out) (snd z_out) ;;
  Ok (stc, sts, st, st2, pos, z_out).
End Tests.
