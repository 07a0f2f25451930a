(** Model in floating-point arithmetic (Float.v) of src/test/end_to_end_test.cpp: the model of TestBoot.v with every operation on doubles rounded. *)
From Coq Require Import ZArith List Bool Reals.
From Verif Require Import Base ZQ RQ Util Rot Conv Core GSum Matrix DFT Encode Plain LinTrans Bootstrap Poly EvalMod Section3 Section4 CtsMeasure Pipeline Float FloatMsg.
From Verif Require Import FloatLin FloatBoot FloatMod FloatSetup FloatTestBoot FloatTests.
Import ListNotations.
Open Scope Z_scope.

Section Program.
Context (F : fpu) (lpow : R -> R -> R).
Context (LOGq LOGQ LOGN LOGDELTA LOGDELTA_cts LOGDELTA_boot LOGDELTA_stc G K H RM : Z) (rnd : nat -> Z).

(** end_to_end_test.cpp:46-49 ([off] = 0) and 50-53 ([off] = N/2), 79-86, 149-156: the low word of a coefficient with its sign, divided by Delta; the index is computed in uint32_t *)
Definition f_coeff_wanted (Q off : Z) (pt : poly) (r : rarr) : res rarr :=
  for_ 0 (Z.quot (2 ^ LOGN) 2) (fun i r =>
    b <- bitReverse i (LOGN - 1) ;;
    p <- lget pt ((b + off) mod 2 ^ 32) ;;
    v <- f_coeff_double F Q LOGDELTA p ;;
    gwr r i v) r.

(** end_to_end_test.cpp:113-120: the differences of the coefficients of pt_modraise and pt; the conversions, the difference and the quotient are rounded *)
Definition f_evalqI_wanted (pt_modraise pt : poly) (off : Z) (r : rarr) : res rarr :=
  for_ 0 (Z.quot (2 ^ LOGN) 2) (fun i r =>
    b <- bitReverse i (LOGN - 1) ;;
    p <- lget pt_modraise ((b + off) mod 2 ^ 32) ;;
    v <- f_zq_double F LOGQ p ;;
    b <- bitReverse i (LOGN - 1) ;;
    p <- lget pt ((b + off) mod 2 ^ 32) ;;
    w <- f_zq_double F LOGq p ;;
    let val_double := Float.rnd F (v - w)%R in
    x <- f_div F val_double (Float.rnd F (IZR (2 ^ LOGDELTA))) ;;
    gwr r i x) r.

(** end_to_end_test.cpp:35-60, 69-92, 102-127, 137-163, without the computation of the exact values: the two ciphertexts are decrypted and decoded, the exact values
    [wanted 0] and [wanted (N/2)] subtracted, and the larger of the two sup norms returned.  The imaginary parts of the exact values are the zeros of the constructor. *)
Definition f_stage_error (Q : Z) (st2 : tables) (c : sq * sq) (s : arr) (wanted : Z -> rarr -> res rarr) : res (tables * R) :=
  let N := 2 ^ LOGN in
  let n := Z.quot N 2 in
  z0 <- msg_new (K := Rops) n ;; z1 <- msg_new (K := Rops) n ;;
  x0 <- msg_new (K := Rops) n ;; x1 <- msg_new (K := Rops) n ;;
  e0 <- msg_new (K := Rops) n ;; e1 <- msg_new (K := Rops) n ;;
  pt0 <- dec Q N (fst c) s (rq_new Q N) ;;
  '(st2, z0) <- f_decode_log F Q LOGN st2 pt0 LOGDELTA (fst z0) (snd z0) ;;
  pt1 <- dec Q N (snd c) s (rq_new Q N) ;;
  '(st2, z1) <- f_decode_log F Q LOGN st2 pt1 LOGDELTA (fst z1) (snd z1) ;;
  xr0 <- wanted 0 (fst x0) ;;
  xr1 <- wanted n (fst x1) ;;
  e0 <- msg_sub (K := Fops F) n z0 (xr0, snd x0) e0 ;;
  e1 <- msg_sub (K := Fops F) n z1 (xr1, snd x1) e1 ;;
  m0 <- f_sup_norm F n e0 ;;
  m1 <- f_sup_norm F n e1 ;;
  Ok (st2, if Rlt_dec m0 m1 then m1 else m0).

(** end_to_end_test.cpp:6-191.  The decryption of ct_modraise in line 112 repeats that of line 45.  Returns the errors after CoeffToSlot, EvalMod, EvalqI and SlotToCoeff,
    the sup norm of the error and the two maxima. *)
Definition f_end_to_end_test (fuel : nat) (stc : tables) (sts : stables) (st st2 : tables) (pos : nat)
    : res (tables * stables * tables * tables * nat * ((R * R * R * R) * R * (R * R))) :=
  let N := 2 ^ LOGN in
  let Q1 := LOGQ_after_cts LOGQ LOGN LOGDELTA_cts G in
  let Q2 := LOGQ_after_evalmod LOGQ LOGN LOGDELTA_cts LOGDELTA_boot G in
  let Q3 := LOGQ_after_stc LOGQ LOGN LOGDELTA_cts LOGDELTA_boot LOGDELTA_stc G in
  '(st, pos, (z, s, pt, ct)) <- f_boot_start F LOGq LOGN LOGDELTA H RM rnd fuel st pos ;;
  ct_modraise <- mod_raise LOGq LOGQ N ct (sq_new LOGQ N) ;;
  '(stc, st, pos, c0, c1) <- f_CoeffToSlot F lpow LOGQ LOGN LOGDELTA_cts RM rnd G stc st pos ct_modraise s (sq_new LOGQ N) (sq_new LOGQ N) ;;
  r0 <- RS LOGQ Q1 N c0 (sq_new Q1 N) ;;
  r1 <- RS LOGQ Q1 N c1 (sq_new Q1 N) ;;
  pt_modraise <- dec LOGQ N ct_modraise s (rq_new LOGQ N) ;;
  '(st2, cts_err) <- f_stage_error Q1 st2 (r0, r1) s (fun off => f_coeff_wanted LOGQ off pt_modraise) ;;
  '(pos, e0) <- f_EvalMod F Q1 N LOGDELTA_boot K RM rnd pos r0 s (sq_new Q2 N) ;;
  '(pos, e1) <- f_EvalMod F Q1 N LOGDELTA_boot K RM rnd pos r1 s (sq_new Q2 N) ;;
  '(st2, evalmod_err) <- f_stage_error Q2 st2 (e0, e1) s (fun off => f_coeff_wanted LOGq off pt) ;;
  q0 <- evalqI LOGQ LOGN LOGDELTA_cts LOGDELTA_boot G r0 e0 ;;
  q1 <- evalqI LOGQ LOGN LOGDELTA_cts LOGDELTA_boot G r1 e1 ;;
  '(st2, evalqI_err) <- f_stage_error Q2 st2 (q0, q1) s (f_evalqI_wanted pt_modraise pt) ;;
  '(sts, st, pos, ct_qI) <- f_boot_back F LOGQ LOGN LOGDELTA_cts LOGDELTA_boot LOGDELTA_stc G RM rnd sts st pos q0 q1 s ;;
  pt_qI <- dec Q3 N ct_qI s (rq_new Q3 N) ;;
  '(st2, stc_err) <- f_stage_error Q2 st2 (q0, q1) s (fun off => f_coeff_wanted Q3 off pt_qI) ;;
  ct_boot <- sq_resize LOGQ Q3 N ct_modraise (sq_new Q3 N) ;;
  ct_boot <- sq_sub Q3 N ct_boot ct_qI ;;
  '(st2, (z_out, err, sp)) <- f_boot_finish F LOGq LOGQ LOGN LOGDELTA LOGDELTA_cts LOGDELTA_boot LOGDELTA_stc G (f_err_sup_double F) st2 z s pt ct_boot ;;
  Ok (stc, sts, st, st2, pos, ((cts_err, evalmod_err, evalqI_err, stc_err), sp, err)).
End Program.
