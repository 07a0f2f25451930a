(** Models in floating-point arithmetic (Float.v) of include/impl/simple_plaintext.h and of set_test_rounded_message of include/experiment/setup.h.
    They are the models of Plain.v with every operation on doubles rounded; rotate_once and rotate only move and negate numbers and need no
    other model than that of Plain.v.  Parameters that are written are objects different from those that are read. *)
From Coq Require Import ZArith List Bool Reals.
From Verif Require Import Base Util RQ GSum Matrix DFT Encode Plain Float FloatMsg FloatSetup.
Import ListNotations.
Open Scope Z_scope.

Section FloatSimple.
Context (F : fpu).

(** simple_plaintext.h:18-26 encode.  The conversion of Delta to double rounds; round is exact on doubles. *)
Definition f_simple_encode (LOGN : Z) (st : tables) (zr zi : rarr) (Delta : Z) (pt : rarr) : res (tables * rarr) :=
  let N := 2 ^ LOGN in
  '(st, m) <- f_ifft F LOGN st zr zi (gfresh R N) ;;
  pt <- for_ 0 N (fun i pt => x <- grd m i ;; gwr pt i (IZR (rround (rnd F (x * rnd F (IZR Delta)))))) pt ;;
  Ok (st, pt).
(** simple_plaintext.h:28-36 encode_raw *)
Definition f_simple_encode_raw (LOGN : Z) (st : tables) (zr zi : rarr) (Delta : Z) (pt : rarr) : res (tables * rarr) :=
  let N := 2 ^ LOGN in
  '(st, m) <- f_ifft F LOGN st zr zi (gfresh R N) ;;
  pt <- for_ 0 N (fun i pt => x <- grd m i ;; gwr pt i (rnd F (x * rnd F (IZR Delta)))%R) pt ;;
  Ok (st, pt).
(** simple_plaintext.h:38-47 decode *)
Definition f_simple_decode (LOGN : Z) (st : tables) (pt : rarr) (Delta : Z) (zr zi : rarr) : res (tables * (rarr * rarr)) :=
  let N := 2 ^ LOGN in
  m <- for_ 0 N (fun i m => x <- grd pt i ;; y <- f_div F x (rnd F (IZR Delta)) ;; gwr m i y) (gfresh R N) ;;
  f_fft F LOGN st m zr zi.
(** simple_plaintext.h:49-58 conv *)
Definition f_simple_conv (N : Z) (pt1 pt2 pt3 : rarr) : res rarr :=
  for_ 0 N (fun i pt3 =>
    sum <- for_ 0 (i + 1) (fun k sum => x <- grd pt1 k ;; y <- grd pt2 (i - k) ;; Ok (rnd F (sum + rnd F (x * y)))%R) 0%R ;;
    sum <- for_ (i + 1) N (fun k sum => x <- grd pt1 k ;; y <- grd pt2 (i + N - k) ;; Ok (rnd F (sum - rnd F (x * y)))%R) sum ;;
    gwr pt3 i sum) pt3.
(** simple_plaintext.h:60-65 add *)
Definition f_simple_add (N : Z) (pt1 pt2 pt3 : rarr) : res rarr :=
  for_ 0 N (fun i pt3 => x <- grd pt1 i ;; y <- grd pt2 i ;; gwr pt3 i (rnd F (x + y))%R) pt3.
(** simple_plaintext.h:67-72 sub *)
Definition f_simple_sub (N : Z) (pt1 pt2 pt3 : rarr) : res rarr :=
  for_ 0 N (fun i pt3 => x <- grd pt1 i ;; y <- grd pt2 i ;; gwr pt3 i (rnd F (x - y))%R) pt3.
(** simple_plaintext.h:74-81 square_sum *)
Definition f_simple_square_sum (N : Z) (pt : rarr) : res R :=
  for_ 0 N (fun i sum => x <- grd pt i ;; Ok (rnd F (sum + rnd F (x * x)))%R) 0%R.
(** simple_plaintext.h:83-86 norm *)
Definition f_simple_norm (N : Z) (pt : rarr) : res R := x <- f_simple_square_sum N pt ;; f_sqrt F x.

(** setup.h:60-66 set_test_rounded_message; [st] and [st2] are the static tables of ifft and fft; pt starts with zeros *)
Definition f_set_test_rounded_message (LOGN : Z) (st st2 : tables) (Delta : Z) (z : rarr * rarr) : res (tables * tables * (rarr * rarr)) :=
  let N := 2 ^ LOGN in
  z <- f_set_test_message F (Z.quot N 2) z ;;
  '(st, pt) <- f_simple_encode LOGN st (fst z) (snd z) Delta (repeat (Some 0%R) (Z.to_nat N)) ;;
  '(st2, z) <- f_simple_decode LOGN st2 pt Delta (fst z) (snd z) ;;
  Ok (st, st2, z).
End FloatSimple.
