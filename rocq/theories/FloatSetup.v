(** Models in floating-point arithmetic (Float.v) of set_test_message, set_evalmod_message and set_test_matrix of include/experiment/setup.h.
    PI is the constant [dpi] of the arithmetic; sqrt of the C library is the correctly rounded root. *)
From Coq Require Import ZArith List Bool Reals.
From Verif Require Import Base Util RQ GSum Matrix DFT Float FloatMsg.
Import ListNotations.
Open Scope Z_scope.

Section FloatSetup.
Context (F : fpu).

(** division of doubles; the quotient by zero is no number *)
Definition f_div (x y : R) : res R := if Req_EM_T y 0 then Undef else Ok (rnd F (x / y)).

(** setup.h:23-31 set_test_message; i and N/2 are converted to double without rounding, being [int] *)
Definition f_set_test_message (n : Z) (z : rarr * rarr) : res (rarr * rarr) :=
  for_ 0 n (fun i '(r, im) =>
    d <- f_div (IZR i) (IZR n) ;;
    let x := rnd F (d * dpi F) in
    s <- f_sqrt F 2 ;; c <- f_div (lcos F x) s ;; r <- gwr r i c ;;
    s <- f_sqrt F 2 ;; c <- f_div (lsin F x) s ;; im <- gwr im i c ;; Ok (r, im)) z.

(** setup.h:51-58 set_evalmod_message; the constant 0.0001 is rounded, i % 24 is not *)
Definition f_set_evalmod_message (n : Z) (z : rarr * rarr) : res (rarr * rarr) :=
  for_ 0 n (fun i '(r, im) => r <- gwr r i (rnd F (rnd F (1 / 10000) + IZR (Z.rem i 24))) ;; im <- gwr im i 0%R ;; Ok (r, im)) z.

(** setup.h:68-78 set_test_matrix: both assignments are to A[k].r[i] *)
Definition f_set_test_matrix (n K : Z) (A : list (rarr * rarr)) : res (list (rarr * rarr)) :=
  for_ 0 K (fun k A =>
    for_ 0 n (fun i A =>
      t <- int_ (k * i) ;;
      d <- f_div (IZR t) (IZR n) ;;
      let x := rnd F (d * dpi F) in
      s <- f_sqrt F 2 ;; c <- f_div (lcos F x) s ;;
      '(r, im) <- lget A k ;;
      r <- gwr r i c ;; A <- lset A k (r, im) ;;
      s <- f_sqrt F 2 ;; c <- f_div (lsin F x) s ;;
      '(r, im) <- lget A k ;;
      r <- gwr r i c ;; lset A k (r, im)) A) A.
End FloatSetup.
