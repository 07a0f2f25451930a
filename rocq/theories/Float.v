(** Model of include/HEAAN/matrix/DFT.h (54-159) and include/HEAAN/endecode.h in floating-point arithmetic.
    A [double] is the real number it stands for.  Every operation rounds: its result is [rnd] of the exact result, where [rnd] is a
    parameter, as are the functions cos and sin of the C library.  Nothing is said here about [rnd]; it is a total function on the reals,
    so infinities and NaN are not values of the model, and what [rnd] does beyond the largest double is left open (the theorems show that
    this never matters under their hypotheses).  No product is fused with an addition (the code is compiled without flags that would allow
    instructions for it).  Multiplication by -1 is exact. *)
From Coq Require Import ZArith List Bool Reals.
From Verif Require Import Base Util ZQ RQ Rot Conv GSum Matrix DFT Encode.
Import ListNotations.
Open Scope Z_scope.

(** [rnd]: rounding to double; [dpi]: the double PI of util.h:11; [lcos], [lsin]: cos and sin of the C library *)
Record fpu := mkfpu { rnd : R -> R; dpi : R; lcos : R -> R; lsin : R -> R }.
(** Exact arithmetic: the model of DFT.v and Encode.v *)
Definition exact_fpu : fpu := mkfpu (fun x => x) PI cos sin.

Section Float.
Context (F : fpu).
Definition Fops : ops := mkops R 0%R 1%R (fun x y => rnd F (x + y)) (fun x y => rnd F (x * y)) (fun x y => rnd F (x - y)) Ropp.

(** DFT.h:58-61: the expressions [cos(PI/N*fivei)] and [sin(PI/N*fivei)]; N and fivei are converted to double without rounding, being [int] *)
Definition f_arg (N k : Z) : R := rnd F (rnd F (dpi F / IZR N) * IZR k).
Definition f_cos (N k : Z) : R := lcos F (f_arg N k).
Definition f_sin (N k : Z) : R := lsin F (f_arg N k).

(** DFT.h:44-64 splitU0NR: the body of the loop over n *)
Definition f_split_stage (LOGN n : Z) (Ar Ai : sd Fops) : res (sd Fops * sd Fops) :=
  let H := 2 ^ (LOGN - 1) in
  let N := 2 ^ LOGN in
  let M := 2 ^ (LOGN - n - 2) in
  Ar <- sd_setzero H 3 Ar ;;
  Ai <- sd_setzero H 3 Ai ;;
  Ar <- set_off Ar 0 0 ;; Ai <- set_off Ai 0 0 ;;
  Ar <- set_off Ar 1 M ;; Ai <- set_off Ai 1 M ;;
  Ar <- set_off Ar 2 (N / 2 - M) ;; Ai <- set_off Ai 2 (N / 2 - M) ;;
  for_ 0 (2 ^ n) (fun k '(Ar, Ai) =>
    '(Ar, Ai, _) <- for_ 0 M (fun i '(Ar, Ai, fivei) =>
        Ar <- set_element (K := Fops) H 3 Ar (2 * M * k + i) (2 * M * k + i) 1%R ;;
        Ar <- set_element (K := Fops) H 3 Ar (2 * M * k + M + i) (2 * M * k + i) 1%R ;;
        Ar <- set_element (K := Fops) H 3 Ar (2 * M * k + i) (2 * M * k + M + i) (f_cos N fivei) ;;
        Ai <- set_element (K := Fops) H 3 Ai (2 * M * k + i) (2 * M * k + M + i) (f_sin N fivei) ;;
        Ar <- set_element (K := Fops) H 3 Ar (2 * M * k + M + i) (2 * M * k + M + i) (- f_cos N fivei)%R ;;
        Ai <- set_element (K := Fops) H 3 Ai (2 * M * k + M + i) (2 * M * k + M + i) (- f_sin N fivei)%R ;;
        t <- int_ (fivei * 5) ;; N2 <- int_ (2 * N) ;; fivei <- imod t N2 ;;
        Ok (Ar, Ai, fivei)) (Ar, Ai, 2 ^ n) ;;
    Ok (Ar, Ai)) (Ar, Ai).

(** DFT.h:44-64 splitU0NR *)
Definition f_splitU0NR (LOGN : Z) (Ar Ai : list (sd Fops)) : res (list (sd Fops) * list (sd Fops)) :=
  for_ 0 (LOGN - 1) (fun n '(Ar, Ai) =>
    a <- lget Ar n ;; b <- lget Ai n ;;
    '(a, b) <- f_split_stage LOGN n a b ;;
    Ar <- lset Ar n a ;; Ai <- lset Ai n b ;; Ok (Ar, Ai)) (Ar, Ai).

(** DFT.h:66-93 fftNR; the static tables as in DFT.v *)
Definition f_fftNR (LOGN : Z) (st : tables) (m : rarr) (zr zi : rarr) : res (tables * (rarr * rarr)) :=
  let N := 2 ^ LOGN in
  '(U0r, U0i) <- (match st with
                  | Some t => Ok t
                  | None => f_splitU0NR LOGN (fst (new_tables LOGN)) (snd (new_tables LOGN))
                  end) ;;
  '(zr, zi) <- for_ 0 (N / 2) (fun i '(zr, zi) =>
      x <- grd m i ;; zr <- gwr zr i x ;; x <- grd m (i + N / 2) ;; zi <- gwr zi i x ;; Ok (zr, zi)) (zr, zi) ;;
  '(zr, zi, _, _) <- for_down (LOGN - 2) 0 (fun d '(zr, zi, Umr, Umi) =>
      '(Umr, Umi) <- for_ 0 (N / 2) (fun i '(Umr, Umi) =>
          x <- grd zr i ;; Umr <- gwr Umr i x ;; x <- grd zi i ;; Umi <- gwr Umi i x ;; Ok (Umr, Umi)) (Umr, Umi) ;;
      a <- lget U0r d ;; b <- lget U0i d ;;
      '(zr, zi) <- mvp3 (K := Fops) (N / 2) Umr Umi a b zr zi ;;
      Ok (zr, zi, Umr, Umi)) (zr, zi, gfresh R (N / 2), gfresh R (N / 2)) ;;
  Ok (Some (U0r, U0i), (zr, zi)).

(** DFT.h:105-110: the tables of ifftNR *)
Definition f_inv_tables (LOGN : Z) : res (list (sd Fops) * list (sd Fops)) :=
  let H := 2 ^ (LOGN - 1) in
  '(U0r, U0i) <- f_splitU0NR LOGN (fst (new_tables LOGN)) (snd (new_tables LOGN)) ;;
  for_ 0 (LOGN - 1) (fun n '(U0r, U0i) =>
    a <- lget U0r n ;; a <- sd_transpose (K := Fops) H 3 a ;; U0r <- lset U0r n a ;;
    b <- lget U0i n ;; b <- sd_transpose (K := Fops) H 3 b ;;
    b <- sd_negate (K := Fops) H 3 b ;; U0i <- lset U0i n b ;;
    Ok (U0r, U0i)) (U0r, U0i).

(** DFT.h:96-131 ifftNR *)
Definition f_ifftNR (LOGN : Z) (st : tables) (zr zi : rarr) (m : rarr) : res (tables * rarr) :=
  let N := 2 ^ LOGN in
  '(U0r, U0i) <- (match st with Some t => Ok t | None => f_inv_tables LOGN end) ;;
  m <- for_ 0 (N / 2) (fun i m =>
      x <- grd zr i ;; m <- gwr m i x ;; x <- grd zi i ;; gwr m (i + N / 2) x) m ;;
  '(m, _, _) <- for_ 0 (LOGN - 1) (fun d '(m, Uzr, Uzi) =>
      '(Uzr, Uzi) <- for_ 0 (N / 2) (fun i '(Uzr, Uzi) =>
          x <- grd m i ;; Uzr <- gwr Uzr i x ;; x <- grd m (i + N / 2) ;; Uzi <- gwr Uzi i x ;; Ok (Uzr, Uzi)) (Uzr, Uzi) ;;
      a <- lget U0r d ;; b <- lget U0i d ;;
      let h := Z.to_nat (N / 2) in
      '(lo, hi) <- mvp3 (K := Fops) (N / 2) Uzr Uzi a b (firstn h m) (skipn h m) ;;
      Ok (lo ++ hi, Uzr, Uzi)) (m, gfresh R (N / 2), gfresh R (N / 2)) ;;
  m <- for_ 0 N (fun i m => x <- grd m i ;; gwr m i (rnd F (rnd F (x * 2) / IZR N))) m ;;
  Ok (Some (U0r, U0i), m).

(** DFT.h:133-146 fft *)
Definition f_fft (LOGN : Z) (st : tables) (m : rarr) (zr zi : rarr) : res (tables * (rarr * rarr)) :=
  let N := 2 ^ LOGN in
  mNR <- for_ 0 (N / 2) (fun i mNR =>
      i_NR <- bitReverse i (LOGN - 1) ;;
      x <- grd m i ;; mNR <- gwr mNR i_NR x ;;
      x <- grd m (i + N / 2) ;; gwr mNR (i_NR + N / 2) x) (gfresh R N) ;;
  f_fftNR LOGN st mNR zr zi.

(** DFT.h:148-159 ifft *)
Definition f_ifft (LOGN : Z) (st : tables) (zr zi : rarr) (m : rarr) : res (tables * rarr) :=
  let N := 2 ^ LOGN in
  '(st, mNR) <- f_ifftNR LOGN st zr zi (gfresh R N) ;;
  m <- for_ 0 (N / 2) (fun i m =>
      i_NR <- bitReverse i (LOGN - 1) ;;
      x <- grd mNR i_NR ;; m <- gwr m i x ;;
      x <- grd mNR (i_NR + N / 2) ;; gwr m (i + N / 2) x) m ;;
  Ok (st, m).

(** endecode.h:8-19 encode.  The conversion of Delta to double rounds; std::round is exact on doubles. *)
Definition f_encode (LOGQ LOGN : Z) (st : tables) (zr zi : rarr) (Delta : Z) (pt : poly) : res (tables * poly) :=
  let N := 2 ^ LOGN in
  '(st, m) <- f_ifft LOGN st zr zi (gfresh R N) ;;
  pt <- for_ 0 N (fun i pt =>
      pt <- pupd pt i (zq_setzero LOGQ) ;;
      x <- grd m i ;;
      w <- to_u64 (rround (rnd F (Rabs x * rnd F (IZR Delta)))) ;;
      pt <- pupd pt i (fun A => wr A 0 w) ;;
      x <- grd m i ;;
      if Rlt_dec x 0 then pupd pt i (zq_negate LOGQ) else Ok pt) pt ;;
  Ok (st, pt).

(** endecode.h:25-26: beta *)
Definition f_beta : R := let a := rnd F (IZR (2 ^ 32)) in rnd F (a * a).

(** endecode.h:27-38: m[i] of decode.  The conversions of the word and of Delta round; [a*power/Delta] is (a*power)/Delta. *)
Definition f_decode_coeff (LOGQ Delta : Z) (p : arr) : res R :=
  a <- zq_copy LOGQ (zq_new LOGQ) p ;;
  big <- zq_is_big LOGQ p ;;
  a <- (if (big : bool) then zq_negate LOGQ a else Ok a) ;;
  '(x, _) <- for_ 0 (len LOGQ) (fun j '(x, power) =>
      w <- rd a j ;;
      Ok ((if negb (w =? 0) then rnd F (x + rnd F (rnd F (rnd F (IZR w) * power) / rnd F (IZR Delta))) else x)%R, rnd F (power * f_beta))) (0%R, 1%R) ;;
  big <- zq_is_big LOGQ p ;;
  Ok (if (big : bool) then (- x)%R else x).
(** endecode.h:21-40 decode *)
Definition f_decode (LOGQ LOGN : Z) (st : tables) (pt : poly) (Delta : Z) (zr zi : rarr) : res (tables * (rarr * rarr)) :=
  let N := 2 ^ LOGN in
  m <- for_ 0 N (fun i m => p <- lget pt i ;; x <- f_decode_coeff LOGQ Delta p ;; gwr m i x) (gfresh R N) ;;
  f_fft LOGN st m zr zi.

(** endecode.h:49-60: m[i] of decode_log.  ldexp(x,e) is x*2^e, rounded. *)
Definition f_decode_log_coeff (LOGQ LOGDELTA : Z) (p : arr) : res R :=
  a <- zq_copy LOGQ (zq_new LOGQ) p ;;
  big <- zq_is_big LOGQ p ;;
  a <- (if (big : bool) then zq_negate LOGQ a else Ok a) ;;
  d <- zq_max_valid_digit LOGQ a ;;
  t <- int_ (64 * d) ;; scale_diff <- int_ (t - LOGDELTA) ;;
  x <- for_ 0 (d + 1) (fun j x => w <- rd a j ;; Ok (rnd F (rnd F (x / f_beta) + rnd F (IZR w)))%R) 0%R ;;
  let x := rnd F (x * powerRZ 2 scale_diff)%R in
  big <- zq_is_big LOGQ p ;;
  Ok (if (big : bool) then (- x)%R else x).
(** endecode.h:42-62 decode_log *)
Definition f_decode_log (LOGQ LOGN : Z) (st : tables) (pt : poly) (LOGDELTA : Z) (zr zi : rarr) : res (tables * (rarr * rarr)) :=
  let N := 2 ^ LOGN in
  m <- for_ 0 N (fun i m => p <- lget pt i ;; x <- f_decode_log_coeff LOGQ LOGDELTA p ;; gwr m i x) (gfresh R N) ;;
  f_fft LOGN st m zr zi.
End Float.

(** With exact arithmetic these are the functions of DFT.v and Encode.v. *)
Lemma exact_fft : f_fft exact_fpu = fft.  Proof. reflexivity. Qed.
Lemma exact_ifft : f_ifft exact_fpu = ifft.  Proof. reflexivity. Qed.
Lemma exact_encode : f_encode exact_fpu = encode.  Proof. reflexivity. Qed.
Lemma exact_decode : f_decode exact_fpu = decode.  Proof. reflexivity. Qed.
Lemma exact_decode_log : f_decode_log exact_fpu = decode_log.  Proof. reflexivity. Qed.
