(** Model of the measurements of src/experiment/section3/: lemma_conv_error.cpp, lemma_conv_sum_error.cpp,
    theorem_single_matmul_error.cpp and theorem_serial_matmul_error.cpp.  [double] is the type of real numbers and arithmetic is exact.
    The constants of include/experiment/section3.h (Delta, LOGDELTA, LOGQ, Diag) are parameters.  The random messages are parameters, and
    the loops over r, which repeat a measurement, are left out: each function returns the pair of the numbers printed, the expected and the
    measured one.  [st] is the static table of ifftNR and [st2] that of fftNR. *)
From Coq Require Import ZArith List Bool Reals.
From Verif Require Import Base Util ZQ RQ Rot Conv GSum Matrix DFT Encode Plain.
Import ListNotations.
Open Scope Z_scope.

(** simple_plaintext.h:11-12: a SimplePlaintext starts with zeros *)
Definition simple_new (N : Z) : rarr := repeat (Some 0%R) (Z.to_nat N).
(** simple_plaintext.h:60-65 add where pt3 and pt2 are the same object *)
Definition simple_add_to (N : Z) (pt1 pt2 : rarr) : res rarr :=
  for_ 0 N (fun i pt2 => x <- grd pt1 i ;; y <- grd pt2 i ;; gwr pt2 i (x + y)%R) pt2.
(** message.h:63-66 norm *)
Definition msg_norm (n : Z) (z : rarr * rarr) : res R := x <- square_sum (K := Rops) n z ;; Ok (sqrt x).

(** lemma_conv_error.cpp:13-32: [z] is the message encoded in pt, [V] the random one *)
Definition conv_error (LOGN Delta : Z) (st : tables) (z V : rarr * rarr) : res (tables * (R * R)) :=
  let N := 2 ^ LOGN in
  '(st, pt) <- simple_encode LOGN st (fst z) (snd z) Delta (simple_new N) ;;
  q <- simple_square_sum N pt ;;
  let expected := (IZR N / 12 * q)%R in
  '(st, pt_v_raw) <- simple_encode_raw LOGN st (fst V) (snd V) Delta (simple_new N) ;;
  '(st, pt_v) <- simple_encode LOGN st (fst V) (snd V) Delta (simple_new N) ;;
  e <- simple_sub N pt_v_raw pt_v (simple_new N) ;;
  rs <- simple_conv N e pt (simple_new N) ;;
  measured <- simple_square_sum N rs ;;
  Ok (st, (expected, measured)).

(** lemma_conv_sum_error.cpp:13-36: [V] is the list of the Diag random messages.  pt_rot is computed and not used (lines 31-32). *)
Definition conv_sum_error (LOGN Diag Delta : Z) (st : tables) (z : rarr * rarr) (V : list (rarr * rarr)) : res (tables * (R * R)) :=
  let N := 2 ^ LOGN in
  '(st, pt) <- simple_encode LOGN st (fst z) (snd z) Delta (simple_new N) ;;
  q <- simple_square_sum N pt ;;
  DN <- int_ (Diag * N) ;;
  let expected := (IZR DN / 12 * q)%R in
  '(st, _, _, _, _, _, rs) <- for_ 0 Diag (fun k '(st, pt_v_raw, pt_v, pt_rot, pt_conv, e, rs) =>
      Vk <- lget V k ;;
      '(st, pt_v_raw) <- simple_encode_raw LOGN st (fst Vk) (snd Vk) Delta pt_v_raw ;;
      '(st, pt_v) <- simple_encode LOGN st (fst Vk) (snd Vk) Delta pt_v ;;
      e <- simple_sub N pt_v_raw pt_v e ;;
      pt_rot <- simple_rotate N pt pt_rot k ;;
      pt_conv <- simple_conv N e pt pt_conv ;;
      rs <- simple_add_to N pt_conv rs ;;
      Ok (st, pt_v_raw, pt_v, pt_rot, pt_conv, e, rs))
    (st, simple_new N, simple_new N, simple_new N, simple_new N, simple_new N, simple_new N) ;;
  measured <- simple_square_sum N rs ;;
  Ok (st, (expected, measured)).

(** setup.h:60-66 set_test_rounded_message, from the message [z] set by set_test_message on *)
Definition rounded_message (LOGN Delta : Z) (st st2 : tables) (z : rarr * rarr) : res (tables * tables * (rarr * rarr)) :=
  let N := 2 ^ LOGN in
  '(st, pt) <- simple_encode LOGN st (fst z) (snd z) Delta (simple_new N) ;;
  '(st2, z) <- simple_decode LOGN st2 pt Delta (fst z) (snd z) ;;
  Ok (st, st2, z).

(** theorem_single_matmul_error.cpp:14-43: [A] is the list of the Diag random messages *)
Definition single_matmul_error (LOGQ LOGN Diag Delta LOGDELTA : Z) (st st2 : tables) (z : rarr * rarr) (A : list (rarr * rarr))
  : res (tables * tables * (R * R)) :=
  let N := 2 ^ LOGN in
  let n := 2 ^ (LOGN - 1) in
  '(st, st2, z) <- rounded_message LOGN Delta st st2 z ;;
  '(st, pt) <- encode LOGQ LOGN st (fst z) (snd z) Delta (rq_new LOGQ N) ;;
  q <- msg_norm n z ;;
  DN <- int_ (Diag * N) ;;
  let expected := (sqrt (IZR DN / 12) * q / IZR Delta)%R in
  Az <- msg_new (K := Rops) n ;;
  Az_tilde <- msg_new (K := Rops) n ;;
  e <- msg_new (K := Rops) n ;;
  Az <- msg_mvp_dense (K := Rops) n Diag z A Az ;;
  '(st, pt_Az) <- pt_mvp LOGQ LOGN Diag st pt A Delta (rq_new LOGQ N) ;;
  ld <- int_ (2 * LOGDELTA) ;;
  '(st2, Az_tilde) <- decode_log LOGQ LOGN st2 pt_Az ld (fst Az_tilde) (snd Az_tilde) ;;
  e <- msg_sub (K := Rops) n Az Az_tilde e ;;
  measured <- msg_norm n e ;;
  Ok (st, st2, (expected, measured)).

(** theorem_serial_matmul_error.cpp:14-51.  set_test_U0_matrix (setup.h:86-97) computes the tables of ifftNR.  The numbers are expected,
    bound and measured; [temp] (lines 36, 44) is a copy. *)
Definition serial_matmul_error (LOGQ LOGN Delta LOGDELTA : Z) (st st2 : tables) (z : rarr * rarr) : res (tables * tables * (R * R * R)) :=
  let N := 2 ^ LOGN in
  let n := 2 ^ (LOGN - 1) in
  let D := LOGN - 1 in
  '(st, st2, z) <- rounded_message LOGN Delta st st2 z ;;
  q <- msg_norm n z ;;
  let matrix_norm_except_one := (sqrt 2 ^ Z.to_nat (D - 1))%R in
  N3 <- int_ (3 * N) ;;
  let expected := (sqrt (IZR N3 / 12) * q / IZR Delta * sqrt (IZR D) * matrix_norm_except_one)%R in
  let bound := (sqrt (IZR D) * expected)%R in
  '(U0r, U0i) <- inv_tables LOGN ;;
  a <- lget U0r 0 ;; b <- lget U0i 0 ;;
  Uz <- msg_new (K := Rops) n ;;
  Uz <- msg_mvp (K := Rops) n 3 z a b Uz ;;
  Uz <- for_ 1 D (fun i Uz =>
      a <- lget U0r i ;; b <- lget U0i i ;; msg_mvp (K := Rops) n 3 Uz a b Uz) Uz ;;
  '(st, pt) <- encode LOGQ LOGN st (fst z) (snd z) Delta (rq_new LOGQ N) ;;
  '(st, pt_Uz) <- pt_mvp3 LOGQ LOGN st pt a b Delta (rq_new LOGQ N) ;;
  '(st, pt_Uz) <- for_ 1 D (fun i '(st, pt_Uz) =>
      a <- lget U0r i ;; b <- lget U0i i ;; pt_mvp3 LOGQ LOGN st pt_Uz a b Delta pt_Uz) (st, pt_Uz) ;;
  D1 <- int_ (D + 1) ;; ld <- int_ (LOGDELTA * D1) ;;
  Uz_tilde <- msg_new (K := Rops) n ;;
  '(st2, Uz_tilde) <- decode_log LOGQ LOGN st2 pt_Uz ld (fst Uz_tilde) (snd Uz_tilde) ;;
  e <- msg_new (K := Rops) n ;;
  e <- msg_sub (K := Rops) n Uz Uz_tilde e ;;
  measured <- msg_norm n e ;;
  Ok (st, st2, (expected, bound, measured)).
