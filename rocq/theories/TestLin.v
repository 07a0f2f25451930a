(** Models of src/test/matmul_test.cpp and src/test/coeffToSlot_test.cpp.  The constants of test.h are parameters, [double] is the type of real numbers and
    arithmetic is exact.  A random message (setup.h:45-49) is a parameter.  Each model returns what its program prints, where printing a message
    returns the whole of it.  [st], [st2], [stc], [sts] are the static tables of ifftNR, fftNR, CoeffToSlot, SlotToCoeff and [fuel] is for keygen. *)
From Coq Require Import ZArith List Bool Reals.
From Verif Require Import Base ZQ RQ Util Rot Conv Core GSum Matrix DFT Encode Plain LinTrans Bootstrap Section3.
Import ListNotations.
Open Scope Z_scope.

(** matmul_test.cpp:5-10 *)
Definition isEqual (a b : R) : bool :=
  if Req_EM_T a 0 then (if Req_EM_T a b then true else false)
  else let diff_rate := ((b - a) / a)%R in
       (if Rlt_dec (-1 / 1000) diff_rate then true else false) && (if Rlt_dec diff_rate (1 / 1000) then true else false).
(** matmul_test.cpp:12-37; [inv_tables] is set_test_U0_matrix (setup.h:86-97).  Returns the printed lines; the second number of the
    last line of each mismatch is [sumr] as in line 33. *)
Definition element_test (LOGN : Z) : res (list ((Z * Z) * (R * R) * (R * R))) :=
  let n := 2 ^ (LOGN - 1) in
  '(U0r, U0i) <- inv_tables LOGN ;;
  r0 <- lget U0r 0 ;; i0 <- lget U0i 0 ;; r1 <- lget U0r 1 ;; i1 <- lget U0i 1 ;;
  '(Ar, Ai) <- matmul2 (K := Rops) n 3 3 r0 i0 r1 i1 (sd_new Rops n 9) (sd_new Rops n 9) ;;
  for_ 0 n (fun i out =>
    for_ 0 n (fun j out =>
      '(sumr, sumi) <- for_ 0 n (fun k '(sumr, sumi) =>
          a <- get_element (K := Rops) n 3 r0 i k ;; b <- get_element (K := Rops) n 3 r1 k j ;;
          let sumr := (sumr + a * b)%R in
          c <- get_element (K := Rops) n 3 i0 i k ;; d <- get_element (K := Rops) n 3 i1 k j ;;
          let sumr := (sumr - c * d)%R in
          let sumi := (sumi + a * d)%R in
          let sumi := (sumi + c * b)%R in
          Ok (sumr, sumi)) (0%R, 0%R) ;;
      x <- get_element (K := Rops) n 9 Ar i j ;; y <- get_element (K := Rops) n 9 Ai i j ;;
      if negb (isEqual x sumr) || negb (isEqual y sumi) then Ok (out ++ [((i, j), (x, sumr), (y, sumr))]) else Ok out) out) [].

(** matmul_test.cpp:39-54; returns U0z[1] and Az *)
Definition vector_test (LOGN : Z) (z : rarr * rarr) : res ((rarr * rarr) * (rarr * rarr)) :=
  let n := 2 ^ (LOGN - 1) in
  '(U0r, U0i) <- inv_tables LOGN ;;
  r0 <- lget U0r 0 ;; i0 <- lget U0i 0 ;; r1 <- lget U0r 1 ;; i1 <- lget U0i 1 ;;
  '(Ar, Ai) <- matmul2 (K := Rops) n 3 3 r1 i1 r0 i0 (sd_new Rops n 9) (sd_new Rops n 9) ;;
  U0z0 <- msg_new (K := Rops) n ;; U0z1 <- msg_new (K := Rops) n ;; Az <- msg_new (K := Rops) n ;;
  U0z0 <- msg_mvp (K := Rops) n 3 z r0 i0 U0z0 ;;
  U0z1 <- msg_mvp (K := Rops) n 3 U0z0 r1 i1 U0z1 ;;
  Az <- msg_mvp (K := Rops) n 9 z Ar Ai Az ;;
  Ok (U0z1, Az).

(** matmul_test.cpp:56-86; [D] is the 8 of lines 71-73, the scale factors of lines 78-82 are LOGDELTA + D*LOGDELTA, LOGDELTA + D/2*LOGDELTA and
    LOGDELTA + D/4*LOGDELTA.  Returns z_ser, z_gr2 and z_gr4. *)
Definition linear_transform_test (fuel : nat) (LOGQ LOGN LOGDELTA D H RM : Z) (rnd : nat -> Z) (st st2 : tables) (pos : nat) (z : rarr * rarr)
    : res (tables * tables * nat * ((rarr * rarr) * (rarr * rarr) * (rarr * rarr))) :=
  let N := 2 ^ LOGN in
  let n := Z.quot N 2 in
  '(U0r, U0i) <- inv_tables LOGN ;;
  '(s, pos) <- keygen fuel N rnd H (fresh N) pos ;;
  '(st, pt) <- encode LOGQ LOGN st (fst z) (snd z) (2 ^ LOGDELTA) (rq_new LOGQ N) ;;
  '(ct, pos) <- enc LOGQ N RM rnd pt s (sq_new LOGQ N) pos ;;
  '(st, pos, ct_ser) <- serial_lt LOGQ LOGN LOGDELTA RM rnd 3 D st pos U0r U0i ct s (sq_new LOGQ N) ;;
  '(st, pos, ct_gr2) <- grouped_lt LOGQ LOGN LOGDELTA RM rnd 3 D 2 st pos U0r U0i ct s (sq_new LOGQ N) ;;
  '(st, pos, ct_gr4) <- grouped_lt LOGQ LOGN LOGDELTA RM rnd 3 D 4 st pos U0r U0i ct s (sq_new LOGQ N) ;;
  z_ser <- msg_new (K := Rops) n ;; z_gr2 <- msg_new (K := Rops) n ;; z_gr4 <- msg_new (K := Rops) n ;;
  pt_ser <- dec LOGQ N ct_ser s (rq_new LOGQ N) ;;
  scale <- int_ (LOGDELTA + D * LOGDELTA) ;;
  '(st2, z_ser) <- decode_log LOGQ LOGN st2 pt_ser scale (fst z_ser) (snd z_ser) ;;
  pt_gr2 <- dec LOGQ N ct_gr2 s (rq_new LOGQ N) ;;
  scale <- int_ (LOGDELTA + Z.quot D 2 * LOGDELTA) ;;
  '(st2, z_gr2) <- decode_log LOGQ LOGN st2 pt_gr2 scale (fst z_gr2) (snd z_gr2) ;;
  pt_gr4 <- dec LOGQ N ct_gr4 s (rq_new LOGQ N) ;;
  scale <- int_ (LOGDELTA + Z.quot D 4 * LOGDELTA) ;;
  '(st2, z_gr4) <- decode_log LOGQ LOGN st2 pt_gr4 scale (fst z_gr4) (snd z_gr4) ;;
  Ok (st, st2, pos, (z_ser, z_gr2, z_gr4)).

(** coeffToSlot_test.cpp:30, 32-38 and 31, 40-46: the copy of a coefficient, its low word with the sign, divided by Delta *)
Definition coeff_double (LOGQ LOGDELTA : Z) (p : arr) : res R :=
  val <- zq_copy LOGQ (zq_new LOGQ) p ;;
  is_negative <- zq_is_big LOGQ val ;;
  val <- (if (is_negative : bool) then zq_negate LOGQ val else Ok val) ;;
  w <- rd val 0 ;;
  let val_double := if (is_negative : bool) then (IZR w * -1)%R else IZR w in
  Ok (val_double / IZR (2 ^ LOGDELTA))%R.
(** coeffToSlot_test.cpp:6-54; the loop of lines 20-23 is written out.  Returns z_cts_res and z_cts_exact. *)
Definition CoeffToSlot_test (fuel : nat) (LOGQ LOGN LOGDELTA LOGDELTA_boot_tilde G H RM : Z) (rnd : nat -> Z) (stc st st2 : tables) (pos : nat) (z : rarr * rarr)
    : res (tables * tables * tables * nat * ((rarr * rarr) * (rarr * rarr))) :=
  let N := 2 ^ LOGN in
  let n := Z.quot N 2 in
  '(s, pos) <- keygen fuel N rnd H (fresh N) pos ;;
  z0 <- msg_new (K := Rops) n ;; z1 <- msg_new (K := Rops) n ;;
  z_cts_res <- msg_new (K := Rops) n ;; z_cts_exact <- msg_new (K := Rops) n ;;
  '(st, pt) <- encode LOGQ LOGN st (fst z) (snd z) (2 ^ LOGDELTA) (rq_new LOGQ N) ;;
  '(ct, pos) <- enc LOGQ N RM rnd pt s (sq_new LOGQ N) pos ;;
  '(stc, st, pos, ct0, ct1) <- CoeffToSlot LOGQ LOGN LOGDELTA_boot_tilde RM rnd G stc st pos ct s (sq_new LOGQ N) (sq_new LOGQ N) ;;
  guard (negb (G =? 0)) ;;;
  scale <- int_ (LOGDELTA + Z.quot (LOGN - 1) G * LOGDELTA_boot_tilde) ;;
  pt0 <- dec LOGQ N ct0 s (rq_new LOGQ N) ;;
  '(st2, z0) <- decode_log LOGQ LOGN st2 pt0 scale (fst z0) (snd z0) ;;
  pt1 <- dec LOGQ N ct1 s (rq_new LOGQ N) ;;
  '(st2, z1) <- decode_log LOGQ LOGN st2 pt1 scale (fst z1) (snd z1) ;;
  z_cts_res <- for_ 0 n (fun i '(r, im) =>
      x <- grd (fst z0) i ;; r <- gwr r i x ;; y <- grd (fst z1) i ;; im <- gwr im i y ;; Ok (r, im)) z_cts_res ;;
  z_cts_exact <- for_ 0 n (fun i '(r, im) =>
      b <- bitReverse i (LOGN - 1) ;; p <- lget pt b ;;
      b <- bitReverse i (LOGN - 1) ;; q <- lget pt ((b + n) mod 2 ^ 32) ;;
      valr <- coeff_double LOGQ LOGDELTA p ;; vali <- coeff_double LOGQ LOGDELTA q ;;
      r <- gwr r i valr ;; im <- gwr im i vali ;; Ok (r, im)) z_cts_exact ;;
  Ok (stc, st, st2, pos, (z_cts_res, z_cts_exact)).

(** coeffToSlot_test.cpp:56-75; returns z_out *)
Definition CoeffToSlot_SlotToCoeff_test (fuel : nat) (LOGQ LOGN LOGDELTA LOGDELTA_boot LOGDELTA_boot_tilde G H RM : Z) (rnd : nat -> Z) (stc : tables) (sts : stables) (st st2 : tables) (pos : nat)
    (z : rarr * rarr) : res (tables * stables * tables * tables * nat * (rarr * rarr)) :=
  let N := 2 ^ LOGN in
  let n := Z.quot N 2 in
  '(s, pos) <- keygen fuel N rnd H (fresh N) pos ;;
  z_out <- msg_new (K := Rops) n ;;
  '(st, pt) <- encode LOGQ LOGN st (fst z) (snd z) (2 ^ LOGDELTA) (rq_new LOGQ N) ;;
  '(ct, pos) <- enc LOGQ N RM rnd pt s (sq_new LOGQ N) pos ;;
  '(stc, st, pos, ct0, ct1) <- CoeffToSlot LOGQ LOGN LOGDELTA_boot_tilde RM rnd G stc st pos ct s (sq_new LOGQ N) (sq_new LOGQ N) ;;
  '(sts, st, pos, ct_out) <- SlotToCoeff LOGQ LOGN LOGDELTA_boot RM rnd G sts st pos ct0 ct1 s (sq_new LOGQ N) ;;
  pt_out <- dec LOGQ N ct_out s (rq_new LOGQ N) ;;
  guard (negb (G =? 0)) ;;;
  scale <- int_ (LOGDELTA + Z.quot (LOGN - 1) G * LOGDELTA_boot_tilde + Z.quot (LOGN - 1) G * LOGDELTA_boot) ;;
  '(st2, z_out) <- decode_log LOGQ LOGN st2 pt_out scale (fst z_out) (snd z_out) ;;
  Ok (stc, sts, st, st2, pos, z_out).
