(** Model of include/HEAAN/matrix/DFT.h.  [double] is the type of real numbers and arithmetic is exact; in particular
    PI is the number pi, and cos and sin are exact.  [int] arithmetic is checked for overflow. *)
From Coq Require Import ZArith List Bool Reals.
From Verif Require Import Base Util GSum Matrix.
Import ListNotations.
Open Scope Z_scope.

Definition Rops : ops := mkops R 0%R 1%R Rplus Rmult Rminus Ropp.
Notation rarr := (list (option R)).

(** The expressions [cos(PI/N*k)] and [sin(PI/N*k)]. *)
Definition cosN (N k : Z) : R := cos (PI / IZR N * IZR k).
Definition sinN (N k : Z) : R := sin (PI / IZR N * IZR k).

(** DFT.h:10-21 dft *)
Definition dft (N : Z) (m : rarr) (zr zi : rarr) : res (rarr * rarr) :=
  '(zr, zi, _) <- for_ 0 (N / 2) (fun i '(zr, zi, fivei) =>
    zr <- gwr zr i 0%R ;; zi <- gwr zi i 0%R ;;
    '(zr, zi, _) <- for_ 0 N (fun k '(zr, zi, fivei_k) =>
        x <- grd zr i ;; mk <- grd m k ;; zr <- gwr zr i (x + mk * cosN N fivei_k)%R ;;
        x <- grd zi i ;; mk <- grd m k ;; zi <- gwr zi i (x + mk * sinN N fivei_k)%R ;;
        t <- int_ (fivei_k + fivei) ;; N2 <- int_ (2 * N) ;; fivei_k <- imod t N2 ;;
        Ok (zr, zi, fivei_k)) (zr, zi, 0) ;;
    t <- int_ (fivei * 5) ;; N2 <- int_ (2 * N) ;; fivei <- imod t N2 ;;
    Ok (zr, zi, fivei)) (zr, zi, 1) ;;
  Ok (zr, zi).

(** DFT.h:23-36 idft *)
Definition idft (N : Z) (zr zi : rarr) (m : rarr) : res rarr :=
  for_ 0 (N / 2) (fun k m =>
    '(sum1, sum2, _) <- for_ 0 (N / 2) (fun i '(sum1, sum2, fivei_k) =>
        zri <- grd zr i ;; zii <- grd zi i ;;
        let sum1 := (sum1 + (cosN N fivei_k * zri + sinN N fivei_k * zii))%R in
        let sum2 := (sum2 + (cosN N fivei_k * zii - sinN N fivei_k * zri))%R in
        t <- int_ (fivei_k * 5) ;; N2 <- int_ (2 * N) ;; fivei_k <- imod t N2 ;;
        Ok (sum1, sum2, fivei_k)) (0%R, 0%R, k) ;;
    m <- gwr m k (2 / IZR N * sum1)%R ;;
    gwr m (k + N / 2) (2 / IZR N * sum2)%R) m.

(** DFT.h:44-64 splitU0NR: the body of the loop over n, on one pair of matrices. *)
Definition split_stage (LOGN n : Z) (Ar Ai : sd Rops) : res (sd Rops * sd Rops) :=
  let H := 2 ^ (LOGN - 1) in
  let N := 2 ^ LOGN in
  let M := 2 ^ (LOGN - n - 2) in
  Ar <- sd_setzero H 3 Ar ;;
  Ai <- sd_setzero H 3 Ai ;;
  Ar <- set_off Ar 0 0 ;; Ai <- set_off Ai 0 0 ;;
  Ar <- set_off Ar 1 M ;; Ai <- set_off Ai 1 M ;;
  Ar <- set_off Ar 2 (N / 2 - M) ;; Ai <- set_off Ai 2 (N / 2 - M) ;;
  for_ 0 (2 ^ n) (fun k '(Ar, Ai) =>
    '(Ar, Ai, _) <- for_ 0 M (fun i '(Ar, Ai, fivei) =>
        Ar <- set_element (K := Rops) H 3 Ar (2 * M * k + i) (2 * M * k + i) 1%R ;;
        Ar <- set_element (K := Rops) H 3 Ar (2 * M * k + M + i) (2 * M * k + i) 1%R ;;
        Ar <- set_element (K := Rops) H 3 Ar (2 * M * k + i) (2 * M * k + M + i) (cosN N fivei) ;;
        Ai <- set_element (K := Rops) H 3 Ai (2 * M * k + i) (2 * M * k + M + i) (sinN N fivei) ;;
        Ar <- set_element (K := Rops) H 3 Ar (2 * M * k + M + i) (2 * M * k + M + i) (- cosN N fivei)%R ;;
        Ai <- set_element (K := Rops) H 3 Ai (2 * M * k + M + i) (2 * M * k + M + i) (- sinN N fivei)%R ;;
        t <- int_ (fivei * 5) ;; N2 <- int_ (2 * N) ;; fivei <- imod t N2 ;;
        Ok (Ar, Ai, fivei)) (Ar, Ai, 2 ^ n) ;;
    Ok (Ar, Ai)) (Ar, Ai).

(** DFT.h:44-64 splitU0NR *)
Definition splitU0NR (LOGN : Z) (Ar Ai : list (sd Rops)) : res (list (sd Rops) * list (sd Rops)) :=
  for_ 0 (LOGN - 1) (fun n '(Ar, Ai) =>
    a <- lget Ar n ;; b <- lget Ai n ;;
    '(a, b) <- split_stage LOGN n a b ;;
    Ar <- lset Ar n a ;; Ai <- lset Ai n b ;; Ok (Ar, Ai)) (Ar, Ai).

(** The function-static matrices U0r, U0i of fftNR (DFT.h:72-74) and ifftNR (DFT.h:100-102): [None] as long as
    [is_init] is false.  (Before that the objects are zero-initialised; splitU0NR does not read them.) *)
Definition tables := option (list (sd Rops) * list (sd Rops)).
Definition new_tables (LOGN : Z) : list (sd Rops) * list (sd Rops) :=
  let l := repeat (sd_new Rops (2 ^ (LOGN - 1)) 3) (Z.to_nat (LOGN - 1)) in (l, l).

(** DFT.h:66-93 fftNR; returns the static tables and zr, zi *)
Definition fftNR (LOGN : Z) (st : tables) (m : rarr) (zr zi : rarr) : res (tables * (rarr * rarr)) :=
  let N := 2 ^ LOGN in
  '(U0r, U0i) <- (match st with
                  | Some t => Ok t
                  | None => splitU0NR LOGN (fst (new_tables LOGN)) (snd (new_tables LOGN))
                  end) ;;
  '(zr, zi) <- for_ 0 (N / 2) (fun i '(zr, zi) =>
      x <- grd m i ;; zr <- gwr zr i x ;; x <- grd m (i + N / 2) ;; zi <- gwr zi i x ;; Ok (zr, zi)) (zr, zi) ;;
  '(zr, zi, _, _) <- for_down (LOGN - 2) 0 (fun d '(zr, zi, Umr, Umi) =>
      '(Umr, Umi) <- for_ 0 (N / 2) (fun i '(Umr, Umi) =>
          x <- grd zr i ;; Umr <- gwr Umr i x ;; x <- grd zi i ;; Umi <- gwr Umi i x ;; Ok (Umr, Umi)) (Umr, Umi) ;;
      a <- lget U0r d ;; b <- lget U0i d ;;
      '(zr, zi) <- mvp3 (K := Rops) (N / 2) Umr Umi a b zr zi ;;
      Ok (zr, zi, Umr, Umi)) (zr, zi, gfresh R (N / 2), gfresh R (N / 2)) ;;
  Ok (Some (U0r, U0i), (zr, zi)).

(** DFT.h:105-110: the tables of ifftNR *)
Definition inv_tables (LOGN : Z) : res (list (sd Rops) * list (sd Rops)) :=
  let H := 2 ^ (LOGN - 1) in
  '(U0r, U0i) <- splitU0NR LOGN (fst (new_tables LOGN)) (snd (new_tables LOGN)) ;;
  for_ 0 (LOGN - 1) (fun n '(U0r, U0i) =>
    a <- lget U0r n ;; a <- sd_transpose (K := Rops) H 3 a ;; U0r <- lset U0r n a ;;
    b <- lget U0i n ;; b <- sd_transpose (K := Rops) H 3 b ;;
    b <- sd_negate (K := Rops) H 3 b ;; U0i <- lset U0i n b ;;
    Ok (U0r, U0i)) (U0r, U0i).

(** DFT.h:96-131 ifftNR.  The outputs [m] and [m + N/2] of matrix_vector_product are the two halves of the array m. *)
Definition ifftNR (LOGN : Z) (st : tables) (zr zi : rarr) (m : rarr) : res (tables * rarr) :=
  let N := 2 ^ LOGN in
  '(U0r, U0i) <- (match st with Some t => Ok t | None => inv_tables LOGN end) ;;
  m <- for_ 0 (N / 2) (fun i m =>
      x <- grd zr i ;; m <- gwr m i x ;; x <- grd zi i ;; gwr m (i + N / 2) x) m ;;
  '(m, _, _) <- for_ 0 (LOGN - 1) (fun d '(m, Uzr, Uzi) =>
      '(Uzr, Uzi) <- for_ 0 (N / 2) (fun i '(Uzr, Uzi) =>
          x <- grd m i ;; Uzr <- gwr Uzr i x ;; x <- grd m (i + N / 2) ;; Uzi <- gwr Uzi i x ;; Ok (Uzr, Uzi)) (Uzr, Uzi) ;;
      a <- lget U0r d ;; b <- lget U0i d ;;
      let h := Z.to_nat (N / 2) in
      '(lo, hi) <- mvp3 (K := Rops) (N / 2) Uzr Uzi a b (firstn h m) (skipn h m) ;;
      Ok (lo ++ hi, Uzr, Uzi)) (m, gfresh R (N / 2), gfresh R (N / 2)) ;;
  m <- for_ 0 N (fun i m => x <- grd m i ;; gwr m i (x * 2 / IZR N)%R) m ;;
  Ok (Some (U0r, U0i), m).

(** DFT.h:133-146 fft *)
Definition fft (LOGN : Z) (st : tables) (m : rarr) (zr zi : rarr) : res (tables * (rarr * rarr)) :=
  let N := 2 ^ LOGN in
  mNR <- for_ 0 (N / 2) (fun i mNR =>
      i_NR <- bitReverse i (LOGN - 1) ;;
      x <- grd m i ;; mNR <- gwr mNR i_NR x ;;
      x <- grd m (i + N / 2) ;; gwr mNR (i_NR + N / 2) x) (gfresh R N) ;;
  fftNR LOGN st mNR zr zi.

(** DFT.h:148-159 ifft *)
Definition ifft (LOGN : Z) (st : tables) (zr zi : rarr) (m : rarr) : res (tables * rarr) :=
  let N := 2 ^ LOGN in
  '(st, mNR) <- ifftNR LOGN st zr zi (gfresh R N) ;;
  m <- for_ 0 (N / 2) (fun i m =>
      i_NR <- bitReverse i (LOGN - 1) ;;
      x <- grd mNR i_NR ;; m <- gwr m i x ;;
      x <- grd mNR (i_NR + N / 2) ;; gwr m (i + N / 2) x) m ;;
  Ok (st, m).
