(** Models of src/test/bootstrap_test.cpp, src/test/evalqI_test.cpp, src/test/end_to_end_test.cpp and of the two functions of
    src/experiment/section4/proposal.cpp from keygen to the last line printed.  The constants of test.h and rns.h are parameters, [double] is the type of
    real numbers and arithmetic is exact.  Timers are left out.  Each model returns what its program prints (before std::log2), where printing a message
    returns the whole of it.  [st], [st2], [stc], [sts] are the static tables of ifftNR, fftNR, CoeffToSlot, SlotToCoeff and [fuel] is for keygen. *)
From Coq Require Import ZArith List Bool Reals.
From Verif Require Import Base ZQ RQ Util Rot Conv Core GSum Matrix DFT Encode Plain LinTrans Bootstrap Poly EvalMod Section3 Section4 CtsMeasure Pipeline.
Import ListNotations.
Open Scope Z_scope.

(** bootstrap_test.cpp:56-64 and evalqI_test.cpp:73-81: e_per_Delta_sup_norm *)
Definition err_sup_word (LOGQ N LOGDELTA : Z) (e : poly) : res R :=
  for_ 0 N (fun i sup =>
    ei <- lget e i ;;
    val <- zq_copy LOGQ (zq_new LOGQ) ei ;;
    big <- zq_is_big LOGQ val ;;
    val <- (if (big : bool) then zq_negate LOGQ val else Ok val) ;;
    w <- rd val 0 ;;
    let val_abs_double := (IZR w / IZR (2 ^ LOGDELTA))%R in
    Ok (if Rlt_dec sup val_abs_double then val_abs_double else sup)) 0%R.
(** proposal.cpp:62-68 and 140-146, end_to_end_test.cpp:179-185: e_per_Delta_sup_norm *)
Definition err_sup_double (LOGQ N LOGDELTA : Z) (e : poly) : res R :=
  for_ 0 N (fun i sup =>
    ei <- lget e i ;;
    val <- zq_double LOGQ ei ;;
    let val_abs_double := (Rabs val / IZR (2 ^ LOGDELTA))%R in
    Ok (if Rlt_dec sup val_abs_double then val_abs_double else sup)) 0%R.

Section Programs.
Context (LOGq LOGQ LOGN LOGDELTA LOGDELTA_cts LOGDELTA_boot LOGDELTA_stc G K H RM : Z) (rnd : nat -> Z).

(** bootstrap_test.cpp:8-17, evalqI_test.cpp:9-18, end_to_end_test.cpp:10-20, proposal.cpp:16-25 and 83-92: keygen, set_test_message, encode and enc.
    Returns z, s, pt and ct. *)
Definition boot_start (fuel : nat) (st : tables) (pos : nat) : res (tables * nat * ((rarr * rarr) * arr * poly * sq)) :=
  let N := 2 ^ LOGN in
  '(s, pos) <- keygen fuel N rnd H (fresh N) pos ;;
  z <- msg_new (K := Rops) (Z.quot N 2) ;;
  z <- set_test_message (Z.quot N 2) z ;;
  '(st, pt) <- encode LOGq LOGN st (fst z) (snd z) (2 ^ LOGDELTA) (rq_new LOGq N) ;;
  '(ct, pos) <- enc LOGq N RM rnd pt s (sq_new LOGq N) pos ;;
  Ok (st, pos, (z, s, pt, ct)).

(** bootstrap_test.cpp:45-65, evalqI_test.cpp:62-82, proposal.cpp:53-69 and 131-147, end_to_end_test.cpp:170-189 (which prints the maxima last): dec, decode_log, print_max_error, e = pt - pt_out
    and its sup norm.  Returns z_out, the two maxima and the sup norm. *)
Definition boot_finish (sup : Z -> Z -> Z -> poly -> res R) (st2 : tables) (z : rarr * rarr) (s : arr) (pt : poly) (ct_boot : sq) : res (tables * ((rarr * rarr) * (R * R) * R)) :=
  let N := 2 ^ LOGN in
  let Q := LOGQ_after_stc LOGQ LOGN LOGDELTA_cts LOGDELTA_boot LOGDELTA_stc G in
  z_out <- msg_new (K := Rops) (Z.quot N 2) ;;
  pt_out <- dec Q N ct_boot s (rq_new Q N) ;;
  '(st2, z_out) <- decode_log Q LOGN st2 pt_out LOGDELTA (fst z_out) (snd z_out) ;;
  err <- max_error (Z.quot N 2) z z_out ;;
  e <- rq_resize LOGq Q N pt (rq_new Q N) ;;
  e <- rq_sub Q N e pt_out ;;
  sp <- sup Q N LOGDELTA e ;;
  Ok (st2, (z_out, err, sp)).

(** The whole programs: [boot] and [sup] are [conventional_boot] and [err_sup_word] in bootstrap_test.cpp, [proposed_boot] and [err_sup_word] in evalqI_test.cpp,
    [conventional_boot] and [proposed_boot] with [err_sup_double] in proposal.cpp:8-71 and 74-149 (without the names and parameters in lines 10-13, 76-79 and the modulus consumed in lines 70, 148).  Returns z, z_out, the two maxima and the sup norm. *)
Definition boot_program (boot : tables -> stables -> tables -> nat -> sq -> arr -> res (tables * stables * tables * nat * sq)) (sup : Z -> Z -> Z -> poly -> res R)
    (fuel : nat) (stc : tables) (sts : stables) (st st2 : tables) (pos : nat)
    : res (tables * stables * tables * tables * nat * ((rarr * rarr) * (rarr * rarr) * (R * R) * R)) :=
  '(st, pos, (z, s, pt, ct)) <- boot_start fuel st pos ;;
  '(stc, sts, st, pos, ct_boot) <- boot stc sts st pos ct s ;;
  '(st2, (z_out, err, sp)) <- boot_finish sup st2 z s pt ct_boot ;;
  Ok (stc, sts, st, st2, pos, (z, z_out, err, sp)).

(** end_to_end_test.cpp:35-60, 69-92, 102-127, 137-163, without the computation of the exact values: the two ciphertexts are decrypted and decoded, the exact values
    [wanted 0] and [wanted (N/2)] subtracted, and the larger of the two sup norms returned. *)
Definition stage_error (Q : Z) (st2 : tables) (c : sq * sq) (s : arr) (wanted : Z -> rarr -> res rarr) : res (tables * R) :=
  let N := 2 ^ LOGN in
  let n := Z.quot N 2 in
  z0 <- msg_new (K := Rops) n ;; z1 <- msg_new (K := Rops) n ;;
  x0 <- msg_new (K := Rops) n ;; x1 <- msg_new (K := Rops) n ;;
  e0 <- msg_new (K := Rops) n ;; e1 <- msg_new (K := Rops) n ;;
  pt0 <- dec Q N (fst c) s (rq_new Q N) ;;
  '(st2, z0) <- decode_log Q LOGN st2 pt0 LOGDELTA (fst z0) (snd z0) ;;
  pt1 <- dec Q N (snd c) s (rq_new Q N) ;;
  '(st2, z1) <- decode_log Q LOGN st2 pt1 LOGDELTA (fst z1) (snd z1) ;;
  xr0 <- wanted 0 (fst x0) ;;
  xr1 <- wanted n (fst x1) ;;
  e0 <- msg_sub (K := Rops) n z0 (xr0, snd x0) e0 ;;
  e1 <- msg_sub (K := Rops) n z1 (xr1, snd x1) e1 ;;
  m0 <- msg_sup_norm n e0 ;;
  m1 <- msg_sup_norm n e1 ;;
  Ok (st2, if Rlt_dec m0 m1 then m1 else m0).

(** end_to_end_test.cpp:113-120: the differences of the coefficients of pt_modraise and pt.  The index is computed in uint32_t. *)
Definition evalqI_wanted (pt_modraise pt : poly) (off : Z) (r : rarr) : res rarr :=
  for_ 0 (Z.quot (2 ^ LOGN) 2) (fun i r =>
    b <- bitReverse i (LOGN - 1) ;;
    p <- lget pt_modraise ((b + off) mod 2 ^ 32) ;;
    v <- zq_double LOGQ p ;;
    b <- bitReverse i (LOGN - 1) ;;
    p <- lget pt ((b + off) mod 2 ^ 32) ;;
    w <- zq_double LOGq p ;;
    let val_double := (v - w)%R in
    gwr r i (val_double / IZR (2 ^ LOGDELTA))%R) r.

(** end_to_end_test.cpp:6-191.  The decryption of ct_modraise in line 112 repeats that of line 45.  Returns the errors after CoeffToSlot, EvalMod, EvalqI and SlotToCoeff,
    the sup norm of the error and the two maxima. *)
Definition end_to_end_test (fuel : nat) (stc : tables) (sts : stables) (st st2 : tables) (pos : nat)
    : res (tables * stables * tables * tables * nat * ((R * R * R * R) * R * (R * R))) :=
  let N := 2 ^ LOGN in
  let Q1 := LOGQ_after_cts LOGQ LOGN LOGDELTA_cts G in
  let Q2 := LOGQ_after_evalmod LOGQ LOGN LOGDELTA_cts LOGDELTA_boot G in
  let Q3 := LOGQ_after_stc LOGQ LOGN LOGDELTA_cts LOGDELTA_boot LOGDELTA_stc G in
  '(st, pos, (z, s, pt, ct)) <- boot_start fuel st pos ;;
  ct_modraise <- mod_raise LOGq LOGQ N ct (sq_new LOGQ N) ;;
  '(stc, st, pos, c0, c1) <- CoeffToSlot LOGQ LOGN LOGDELTA_cts RM rnd G stc st pos ct_modraise s (sq_new LOGQ N) (sq_new LOGQ N) ;;
  r0 <- RS LOGQ Q1 N c0 (sq_new Q1 N) ;;
  r1 <- RS LOGQ Q1 N c1 (sq_new Q1 N) ;;
  pt_modraise <- dec LOGQ N ct_modraise s (rq_new LOGQ N) ;;
  '(st2, cts_err) <- stage_error Q1 st2 (r0, r1) s (fun off => cts_wanted LOGQ LOGN (2 ^ LOGDELTA) off pt_modraise) ;;
  '(pos, e0) <- EvalMod Q1 N LOGDELTA_boot K RM rnd pos r0 s (sq_new Q2 N) ;;
  '(pos, e1) <- EvalMod Q1 N LOGDELTA_boot K RM rnd pos r1 s (sq_new Q2 N) ;;
  '(st2, evalmod_err) <- stage_error Q2 st2 (e0, e1) s (fun off => cts_wanted LOGq LOGN (2 ^ LOGDELTA) off pt) ;;
  q0 <- evalqI LOGQ LOGN LOGDELTA_cts LOGDELTA_boot G r0 e0 ;;
  q1 <- evalqI LOGQ LOGN LOGDELTA_cts LOGDELTA_boot G r1 e1 ;;
  '(st2, evalqI_err) <- stage_error Q2 st2 (q0, q1) s (evalqI_wanted pt_modraise pt) ;;
  '(sts, st, pos, ct_qI) <- boot_back LOGQ LOGN LOGDELTA_cts LOGDELTA_boot LOGDELTA_stc G RM rnd sts st pos q0 q1 s ;;
  pt_qI <- dec Q3 N ct_qI s (rq_new Q3 N) ;;
  '(st2, stc_err) <- stage_error Q2 st2 (q0, q1) s (fun off => cts_wanted Q3 LOGN (2 ^ LOGDELTA) off pt_qI) ;;
  ct_boot <- sq_resize LOGQ Q3 N ct_modraise (sq_new Q3 N) ;;
  ct_boot <- sq_sub Q3 N ct_boot ct_qI ;;
  '(st2, (z_out, err, sp)) <- boot_finish err_sup_double st2 z s pt ct_boot ;;
  Ok (stc, sts, st, st2, pos, ((cts_err, evalmod_err, evalqI_err, stc_err), sp, err)).
End Programs.
