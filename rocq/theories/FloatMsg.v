(** Models in floating-point arithmetic (Float.v) of include/impl/message.h 54-76, print_max_error of include/experiment/setup.h and the
    quadratic transforms of include/HEAAN/matrix/DFT.h.  The functions add, sub, mul and matrix_vector_product of message.h and matrix_product
    of matrix.h are those of Matrix.v with the operations [Fops] that round. *)
From Coq Require Import ZArith List Bool Reals.
From Verif Require Import Base Util RQ GSum Matrix DFT Float.
Import ListNotations.
Open Scope Z_scope.

Section FloatMsg.
Context (F : fpu).

(** sqrt of the C library: the correctly rounded root; NaN, which is not a value of the model, for negative numbers *)
Definition f_sqrt (x : R) : res R := if Rlt_dec x 0 then Undef else Ok (rnd F (sqrt x)).

(** message.h:63-66 norm; square_sum (54-61) is that of Matrix.v with rounded operations *)
Definition f_norm (n : Z) (z : rarr * rarr) : res R := s <- square_sum (K := Fops F) n z ;; f_sqrt s.

(** message.h:68-76 sup_norm *)
Definition f_sup_norm (n : Z) (z : rarr * rarr) : res R :=
  for_ 0 n (fun i max =>
    a <- grd (fst z) i ;; b <- grd (snd z) i ;;
    abs <- f_sqrt (rnd F (rnd F (a * a) + rnd F (b * b))) ;;
    Ok (if Rlt_dec max abs then abs else max)) 0%R.

(** setup.h:33-42 print_max_error: the two maxima *)
Definition f_max_error (n : Z) (z z_out : rarr * rarr) : res (R * R) :=
  for_ 0 n (fun i '(er, ei) =>
    a <- grd (fst z) i ;; b <- grd (fst z_out) i ;;
    let d := Rabs (rnd F (a - b)) in
    let er := if Rlt_dec er d then d else er in
    a <- grd (snd z) i ;; b <- grd (snd z_out) i ;;
    let d := Rabs (rnd F (a - b)) in
    let ei := if Rlt_dec ei d then d else ei in
    Ok (er, ei)) (0%R, 0%R).

(** DFT.h:10-21 dft *)
Definition f_dft (N : Z) (m : rarr) (zr zi : rarr) : res (rarr * rarr) :=
  '(zr, zi, _) <- for_ 0 (N / 2) (fun i '(zr, zi, fivei) =>
    zr <- gwr zr i 0%R ;; zi <- gwr zi i 0%R ;;
    '(zr, zi, _) <- for_ 0 N (fun k '(zr, zi, fivei_k) =>
        x <- grd zr i ;; mk <- grd m k ;; zr <- gwr zr i (rnd F (x + rnd F (mk * f_cos F N fivei_k)))%R ;;
        x <- grd zi i ;; mk <- grd m k ;; zi <- gwr zi i (rnd F (x + rnd F (mk * f_sin F N fivei_k)))%R ;;
        t <- int_ (fivei_k + fivei) ;; N2 <- int_ (2 * N) ;; fivei_k <- imod t N2 ;;
        Ok (zr, zi, fivei_k)) (zr, zi, 0) ;;
    t <- int_ (fivei * 5) ;; N2 <- int_ (2 * N) ;; fivei <- imod t N2 ;;
    Ok (zr, zi, fivei)) (zr, zi, 1) ;;
  Ok (zr, zi).

(** DFT.h:23-36 idft; [2./N * sum] is (2/N)*sum *)
Definition f_idft (N : Z) (zr zi : rarr) (m : rarr) : res rarr :=
  for_ 0 (N / 2) (fun k m =>
    '(sum1, sum2, _) <- for_ 0 (N / 2) (fun i '(sum1, sum2, fivei_k) =>
        zri <- grd zr i ;; zii <- grd zi i ;;
        let sum1 := rnd F (sum1 + rnd F (rnd F (f_cos F N fivei_k * zri) + rnd F (f_sin F N fivei_k * zii)))%R in
        let sum2 := rnd F (sum2 + rnd F (rnd F (f_cos F N fivei_k * zii) - rnd F (f_sin F N fivei_k * zri)))%R in
        t <- int_ (fivei_k * 5) ;; N2 <- int_ (2 * N) ;; fivei_k <- imod t N2 ;;
        Ok (sum1, sum2, fivei_k)) (0%R, 0%R, k) ;;
    m <- gwr m k (rnd F (rnd F (2 / IZR N) * sum1))%R ;;
    gwr m (k + N / 2) (rnd F (rnd F (2 / IZR N) * sum2))%R) m.
End FloatMsg.
