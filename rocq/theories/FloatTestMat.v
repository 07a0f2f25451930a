(** Model of linear_transform_test of src/test/matmul_test.cpp in floating-point arithmetic: it is [linear_transform_test] of TestLin.v with the functions of
    Float.v and FloatLin.v in place of the exact ones.  The constants of test.h are parameters, a random message is a parameter, and printing a message returns it. *)
From Coq Require Import ZArith List Bool Reals.
From Verif Require Import Base ZQ RQ Util Rot Conv Core GSum Matrix DFT Encode Plain LinTrans Bootstrap Float FloatLin TestLin.
Import ListNotations.
Open Scope Z_scope.

Section FloatTestMat.
Context (F : fpu).
(** matmul_test.cpp:56-86 *)
Definition f_linear_transform_test (fuel : nat) (LOGQ LOGN LOGDELTA D H RM : Z) (rng : nat -> Z) (st st2 : tables) (pos : nat) (z : rarr * rarr)
    : res (tables * tables * nat * ((rarr * rarr) * (rarr * rarr) * (rarr * rarr))) :=
  let N := 2 ^ LOGN in
  let n := Z.quot N 2 in
  '(U0r, U0i) <- f_inv_tables F LOGN ;;
  '(s, pos) <- keygen fuel N rng H (fresh N) pos ;;
  '(st, pt) <- f_encode F LOGQ LOGN st (fst z) (snd z) (2 ^ LOGDELTA) (rq_new LOGQ N) ;;
  '(ct, pos) <- enc LOGQ N RM rng pt s (sq_new LOGQ N) pos ;;
  '(st, pos, ct_ser) <- f_serial_lt F LOGQ LOGN LOGDELTA RM rng 3 D st pos U0r U0i ct s (sq_new LOGQ N) ;;
  '(st, pos, ct_gr2) <- f_grouped_lt F LOGQ LOGN LOGDELTA RM rng 3 D 2 st pos U0r U0i ct s (sq_new LOGQ N) ;;
  '(st, pos, ct_gr4) <- f_grouped_lt F LOGQ LOGN LOGDELTA RM rng 3 D 4 st pos U0r U0i ct s (sq_new LOGQ N) ;;
  z_ser <- msg_new (K := Rops) n ;; z_gr2 <- msg_new (K := Rops) n ;; z_gr4 <- msg_new (K := Rops) n ;;
  pt_ser <- dec LOGQ N ct_ser s (rq_new LOGQ N) ;;
  scale <- int_ (LOGDELTA + D * LOGDELTA) ;;
  '(st2, z_ser) <- f_decode_log F LOGQ LOGN st2 pt_ser scale (fst z_ser) (snd z_ser) ;;
  pt_gr2 <- dec LOGQ N ct_gr2 s (rq_new LOGQ N) ;;
  scale <- int_ (LOGDELTA + Z.quot D 2 * LOGDELTA) ;;
  '(st2, z_gr2) <- f_decode_log F LOGQ LOGN st2 pt_gr2 scale (fst z_gr2) (snd z_gr2) ;;
  pt_gr4 <- dec LOGQ N ct_gr4 s (rq_new LOGQ N) ;;
  scale <- int_ (LOGDELTA + Z.quot D 4 * LOGDELTA) ;;
  '(st2, z_gr4) <- f_decode_log F LOGQ LOGN st2 pt_gr4 scale (fst z_gr4) (snd z_gr4) ;;
  Ok (st, st2, pos, (z_ser, z_gr2, z_gr4)).
End FloatTestMat.

(** With exact arithmetic this is the model of TestLin.v. *)
Lemma exact_linear_transform_test : f_linear_transform_test exact_fpu = linear_transform_test.  Proof. reflexivity. Qed.
