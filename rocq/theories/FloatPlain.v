(** Model of the matrix-vector products of plaintexts (impl/plaintext.h) and of src/experiment/section3/theorem_single_matmul_error.cpp in floating-point arithmetic. *)
From Coq Require Import ZArith List Bool Reals.
From Verif Require Import Base Util ZQ RQ Rot Conv GSum Matrix DFT SpecMat Encode Plain Section3 Float FloatMsg FloatSetup.
Import ListNotations.
Open Scope Z_scope.

Section Fp.
Context (F : fpu).
(** plaintext.h:24-37 matrix_vector_product, as pt_mvp of Plain.v with the rounded operations of encode *)
Definition f_pt_mvp (LOGQ LOGN K : Z) (st : tables) (pt : poly) (A : list (rarr * rarr)) (Delta : Z) (pt_Az : poly) : res (tables * poly) :=
  let N := 2 ^ LOGN in
  pt_Az <- rq_setzero LOGQ N pt_Az ;;
  '(st, _, _, _, pt_Az) <- for_ 0 K (fun k '(st, pt_v, pt_rot, pt_conv, pt_Az) =>
      Ak <- lget A k ;;
      '(st, pt_v) <- f_encode F LOGQ LOGN st (fst Ak) (snd Ak) Delta pt_v ;;
      pt_rot <- rot_poly LOGQ N pt pt_rot k ;;
      pt_conv <- conv_poly LOGQ N pt_v pt_rot pt_conv ;;
      pt_Az <- rq_add LOGQ N pt_Az pt_conv ;;
      Ok (st, pt_v, pt_rot, pt_conv, pt_Az)) (st, rq_new LOGQ N, rq_new LOGQ N, rq_new LOGQ N, pt_Az) ;;
  Ok (st, pt_Az).

(** theorem_single_matmul_error.cpp:17-43, as single_matmul_error of Section3.v with rounded operations, after set_test_rounded_message: [z] is the message
    set there, [A] the list of the Diag random messages.  Diag * N is converted without rounding, Delta with. *)
Definition f_single_matmul_error (LOGQ LOGN Diag Delta LOGDELTA : Z) (st st2 : tables) (z : rarr * rarr) (A : list (rarr * rarr)) : res (tables * tables * (R * R)) :=
  let N := 2 ^ LOGN in
  let n := Z.quot N 2 in
  '(st, pt) <- f_encode F LOGQ LOGN st (fst z) (snd z) Delta (rq_new LOGQ N) ;;
  DN <- int_ (Diag * N) ;;
  d <- f_div F (IZR DN) 12 ;; r <- f_sqrt F d ;;
  q <- f_norm F n z ;;
  expected <- f_div F (rnd F (r * q)) (rnd F (IZR Delta)) ;;
  Az <- msg_new (K := Rops) n ;;
  Az_tilde <- msg_new (K := Rops) n ;;
  e <- msg_new (K := Rops) n ;;
  Az <- msg_mvp_dense (K := Fops F) n Diag z A Az ;;
  '(st, pt_Az) <- f_pt_mvp LOGQ LOGN Diag st pt A Delta (rq_new LOGQ N) ;;
  ld <- int_ (2 * LOGDELTA) ;;
  '(st2, Az_tilde) <- f_decode_log F LOGQ LOGN st2 pt_Az ld (fst Az_tilde) (snd Az_tilde) ;;
  e <- msg_sub (K := Fops F) n Az Az_tilde e ;;
  measured <- f_norm F n e ;;
  Ok (st, st2, (expected, measured)).
End Fp.
