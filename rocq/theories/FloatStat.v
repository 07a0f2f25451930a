(** Model of src/experiment/section3/lemma_conv_error.cpp and lemma_conv_sum_error.cpp in floating-point arithmetic. *)
From Coq Require Import ZArith List Bool Reals.
From Verif Require Import Base Util GSum Matrix DFT SpecMat Encode Plain Section3 Float FloatMsg FloatSetup FloatSimple.
Import ListNotations.
Open Scope Z_scope.

Section Fp.
Context (F : fpu).
(** lemma_conv_error.cpp:13-32, as conv_error of Section3.v with rounded operations: [z] is the message encoded in pt, [V] the random one.  N is
    converted without rounding. *)
Definition f_conv_error (LOGN Delta : Z) (st : tables) (z V : rarr * rarr) : res (tables * (R * R)) :=
  let N := 2 ^ LOGN in
  '(st, pt) <- f_simple_encode F LOGN st (fst z) (snd z) Delta (simple_new N) ;;
  d <- f_div F (IZR N) 12 ;;
  q <- f_simple_square_sum F N pt ;;
  let expected := rnd F (d * q) in
  '(st, pt_v_raw) <- f_simple_encode_raw F LOGN st (fst V) (snd V) Delta (simple_new N) ;;
  '(st, pt_v) <- f_simple_encode F LOGN st (fst V) (snd V) Delta (simple_new N) ;;
  e <- f_simple_sub F N pt_v_raw pt_v (simple_new N) ;;
  rs <- f_simple_conv F N e pt (simple_new N) ;;
  measured <- f_simple_square_sum F N rs ;;
  Ok (st, (expected, measured)).

(** simple_plaintext.h:60-65 add where pt3 and pt2 are the same object *)
Definition f_simple_add_to (N : Z) (pt1 pt2 : rarr) : res rarr :=
  for_ 0 N (fun i pt2 => x <- grd pt1 i ;; y <- grd pt2 i ;; gwr pt2 i (rnd F (x + y))) pt2.
(** lemma_conv_sum_error.cpp:13-36, as conv_sum_error of Section3.v with rounded operations.  rotate moves and negates numbers only. *)
Definition f_conv_sum_error (LOGN Diag Delta : Z) (st : tables) (z : rarr * rarr) (V : list (rarr * rarr)) : res (tables * (R * R)) :=
  let N := 2 ^ LOGN in
  '(st, pt) <- f_simple_encode F LOGN st (fst z) (snd z) Delta (simple_new N) ;;
  DN <- int_ (Diag * N) ;;
  d <- f_div F (IZR DN) 12 ;;
  q <- f_simple_square_sum F N pt ;;
  let expected := rnd F (d * q) in
  '(st, _, _, _, _, _, rs) <- for_ 0 Diag (fun k '(st, pt_v_raw, pt_v, pt_rot, pt_conv, e, rs) =>
      Vk <- lget V k ;;
      '(st, pt_v_raw) <- f_simple_encode_raw F LOGN st (fst Vk) (snd Vk) Delta pt_v_raw ;;
      '(st, pt_v) <- f_simple_encode F LOGN st (fst Vk) (snd Vk) Delta pt_v ;;
      e <- f_simple_sub F N pt_v_raw pt_v e ;;
      pt_rot <- simple_rotate N pt pt_rot k ;;
      pt_conv <- f_simple_conv F N e pt pt_conv ;;
      rs <- f_simple_add_to N pt_conv rs ;;
      Ok (st, pt_v_raw, pt_v, pt_rot, pt_conv, e, rs))
    (st, simple_new N, simple_new N, simple_new N, simple_new N, simple_new N, simple_new N) ;;
  measured <- f_simple_square_sum F N rs ;;
  Ok (st, (expected, measured)).
End Fp.
