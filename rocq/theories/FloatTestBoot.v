(** Models in floating-point arithmetic (Float.v) of src/test/bootstrap_test.cpp, src/test/evalqI_test.cpp and of the two functions of
    src/experiment/section4/proposal.cpp from keygen to the last line printed.  They are the models of TestBoot.v with every operation on doubles rounded. *)
From Coq Require Import ZArith List Bool Reals.
From Verif Require Import Base ZQ RQ Util Rot Conv Core GSum Matrix DFT Encode Plain LinTrans Bootstrap Poly EvalMod Section3 Section4 CtsMeasure Pipeline Float FloatMsg.
From Verif Require Import FloatSetup.
Import ListNotations.
Open Scope Z_scope.

Section Programs.
Context (F : fpu).

(** Z_Q.h:311-321 operator double: the conversion of the word rounds, the multiplication by -1 does not *)
Definition f_zq_double (LOGQ : Z) (D : arr) : res R :=
  val <- zq_copy LOGQ (zq_new LOGQ) D ;;
  is_negative <- zq_is_big LOGQ val ;;
  val <- (if (is_negative : bool) then zq_negate LOGQ val else Ok val) ;;
  w <- rd val 0 ;;
  let result := rnd F (IZR w) in
  Ok (if is_negative then (- result)%R else result).

(** bootstrap_test.cpp:56-64 and evalqI_test.cpp:73-81: e_per_Delta_sup_norm; val[0] and Delta are converted to double *)
Definition f_err_sup_word (LOGQ N LOGDELTA : Z) (e : poly) : res R :=
  for_ 0 N (fun i sup =>
    ei <- lget e i ;;
    val <- zq_copy LOGQ (zq_new LOGQ) ei ;;
    big <- zq_is_big LOGQ val ;;
    val <- (if (big : bool) then zq_negate LOGQ val else Ok val) ;;
    w <- rd val 0 ;;
    val_abs_double <- f_div F (rnd F (IZR w)) (rnd F (IZR (2 ^ LOGDELTA))) ;;
    Ok (if Rlt_dec sup val_abs_double then val_abs_double else sup)) 0%R.
(** proposal.cpp:62-68 and 140-146: e_per_Delta_sup_norm *)
Definition f_err_sup_double (LOGQ N LOGDELTA : Z) (e : poly) : res R :=
  for_ 0 N (fun i sup =>
    ei <- lget e i ;;
    val <- f_zq_double LOGQ ei ;;
    val_abs_double <- f_div F (Rabs val) (rnd F (IZR (2 ^ LOGDELTA))) ;;
    Ok (if Rlt_dec sup val_abs_double then val_abs_double else sup)) 0%R.

Context (LOGq LOGQ LOGN LOGDELTA LOGDELTA_cts LOGDELTA_boot LOGDELTA_stc G K H RM : Z) (rnd : nat -> Z).

(** bootstrap_test.cpp:8-17, evalqI_test.cpp:9-18, proposal.cpp:16-25 and 83-92: keygen, set_test_message, encode and enc.  Returns z, s, pt and ct. *)
Definition f_boot_start (fuel : nat) (st : tables) (pos : nat) : res (tables * nat * ((rarr * rarr) * arr * poly * sq)) :=
  let N := 2 ^ LOGN in
  '(s, pos) <- keygen fuel N rnd H (fresh N) pos ;;
  z <- msg_new (K := Rops) (Z.quot N 2) ;;
  z <- f_set_test_message F (Z.quot N 2) z ;;
  '(st, pt) <- f_encode F LOGq LOGN st (fst z) (snd z) (2 ^ LOGDELTA) (rq_new LOGq N) ;;
  '(ct, pos) <- enc LOGq N RM rnd pt s (sq_new LOGq N) pos ;;
  Ok (st, pos, (z, s, pt, ct)).

(** bootstrap_test.cpp:45-65, evalqI_test.cpp:62-82, proposal.cpp:53-69 and 131-147: dec, decode_log, print_max_error, e = pt - pt_out
    and its sup norm.  Returns z_out, the two maxima and the sup norm. *)
Definition f_boot_finish (sup : Z -> Z -> Z -> poly -> res R) (st2 : tables) (z : rarr * rarr) (s : arr) (pt : poly) (ct_boot : sq) : res (tables * ((rarr * rarr) * (R * R) * R)) :=
  let N := 2 ^ LOGN in
  let Q := LOGQ_after_stc LOGQ LOGN LOGDELTA_cts LOGDELTA_boot LOGDELTA_stc G in
  z_out <- msg_new (K := Rops) (Z.quot N 2) ;;
  pt_out <- dec Q N ct_boot s (rq_new Q N) ;;
  '(st2, z_out) <- f_decode_log F Q LOGN st2 pt_out LOGDELTA (fst z_out) (snd z_out) ;;
  err <- f_max_error F (Z.quot N 2) z z_out ;;
  e <- rq_resize LOGq Q N pt (rq_new Q N) ;;
  e <- rq_sub Q N e pt_out ;;
  sp <- sup Q N LOGDELTA e ;;
  Ok (st2, (z_out, err, sp)).

(** The whole programs: [boot] and [sup] are [f_conventional_boot] and [f_err_sup_word] in bootstrap_test.cpp, [f_proposed_boot] and [f_err_sup_word] in evalqI_test.cpp,
    [f_conventional_boot] and [f_proposed_boot] with [f_err_sup_double] in proposal.cpp:8-71 and 74-149 (without the names and parameters in lines 10-13, 76-79 and the modulus consumed in lines 70, 148).  Returns z, z_out, the two maxima and the sup norm. *)
Definition f_boot_program (boot : tables -> stables -> tables -> nat -> sq -> arr -> res (tables * stables * tables * nat * sq)) (sup : Z -> Z -> Z -> poly -> res R)
    (fuel : nat) (stc : tables) (sts : stables) (st st2 : tables) (pos : nat)
    : res (tables * stables * tables * tables * nat * ((rarr * rarr) * (rarr * rarr) * (R * R) * R)) :=
  '(st, pos, (z, s, pt, ct)) <- f_boot_start fuel st pos ;;
  '(stc, sts, st, pos, ct_boot) <- boot stc sts st pos ct s ;;
  '(st2, (z_out, err, sp)) <- f_boot_finish sup st2 z s pt ct_boot ;;
  Ok (stc, sts, st, st2, pos, (z, z_out, err, sp)).
End Programs.
