(** Model of include/HEAAN/endecode.h.  [double] is the type of real numbers and arithmetic is exact.
    In decode the cell m[i], set to zero and then added to, is the local value [x] written once at the end. *)
From Coq Require Import ZArith List Bool Reals.
From Verif Require Import Base Util ZQ RQ Rot Conv GSum Matrix DFT.
Import ListNotations.
Open Scope Z_scope.

(** std::round: to the nearest integer, halves away from zero. *)
Definition rround (x : R) : Z :=
  if Rlt_dec x 0 then - Int_part (- x + / 2)%R else Int_part (x + / 2)%R.
(** Conversion of an integral double to uint64_t: undefined outside the range of the type. *)
Definition to_u64 (v : Z) : res Z := if (0 <=? v) && (v <? W) then Ok v else Undef.

(** endecode.h:8-19 encode.  [abs] is the overload for double that <math.h> brings into the global namespace.
    [Delta] is a word.  [st] is the static table of ifftNR. *)
Definition encode (LOGQ LOGN : Z) (st : tables) (zr zi : rarr) (Delta : Z) (pt : poly) : res (tables * poly) :=
  let N := 2 ^ LOGN in
  '(st, m) <- ifft LOGN st zr zi (gfresh R N) ;;
  pt <- for_ 0 N (fun i pt =>
      pt <- pupd pt i (zq_setzero LOGQ) ;;
      x <- grd m i ;;
      w <- to_u64 (rround (Rabs x * IZR Delta)) ;;
      pt <- pupd pt i (fun A => wr A 0 w) ;;
      x <- grd m i ;;
      if Rlt_dec x 0 then pupd pt i (zq_negate LOGQ) else Ok pt) pt ;;
  Ok (st, pt).

(** endecode.h:25-26: beta *)
Definition beta : R := (IZR (2 ^ 32) * IZR (2 ^ 32))%R.

(** endecode.h:27-38: m[i] of decode.  The local object abs_pti is [a]. *)
Definition decode_coeff (LOGQ Delta : Z) (p : arr) : res R :=
  a <- zq_copy LOGQ (zq_new LOGQ) p ;;
  big <- zq_is_big LOGQ p ;;
  a <- (if (big : bool) then zq_negate LOGQ a else Ok a) ;;
  '(x, _) <- for_ 0 (len LOGQ) (fun j '(x, power) =>
      w <- rd a j ;;
      Ok ((if negb (w =? 0) then x + IZR w * power / IZR Delta else x)%R, (power * beta)%R)) (0%R, 1%R) ;;
  big <- zq_is_big LOGQ p ;;
  Ok (if (big : bool) then (- x)%R else x).
(** endecode.h:21-40 decode.  [st] is the static table of fftNR. *)
Definition decode (LOGQ LOGN : Z) (st : tables) (pt : poly) (Delta : Z) (zr zi : rarr) : res (tables * (rarr * rarr)) :=
  let N := 2 ^ LOGN in
  m <- for_ 0 N (fun i m => p <- lget pt i ;; x <- decode_coeff LOGQ Delta p ;; gwr m i x) (gfresh R N) ;;
  fft LOGN st m zr zi.

(** endecode.h:49-60: m[i] of decode_log.  ldexp(x,e) is x*2^e. *)
Definition decode_log_coeff (LOGQ LOGDELTA : Z) (p : arr) : res R :=
  a <- zq_copy LOGQ (zq_new LOGQ) p ;;
  big <- zq_is_big LOGQ p ;;
  a <- (if (big : bool) then zq_negate LOGQ a else Ok a) ;;
  d <- zq_max_valid_digit LOGQ a ;;
  t <- int_ (64 * d) ;; scale_diff <- int_ (t - LOGDELTA) ;;
  x <- for_ 0 (d + 1) (fun j x => w <- rd a j ;; Ok (x / beta + IZR w)%R) 0%R ;;
  let x := (x * powerRZ 2 scale_diff)%R in
  big <- zq_is_big LOGQ p ;;
  Ok (if (big : bool) then (- x)%R else x).
(** endecode.h:42-62 decode_log *)
Definition decode_log (LOGQ LOGN : Z) (st : tables) (pt : poly) (LOGDELTA : Z) (zr zi : rarr) : res (tables * (rarr * rarr)) :=
  let N := 2 ^ LOGN in
  m <- for_ 0 N (fun i m => p <- lget pt i ;; x <- decode_log_coeff LOGQ LOGDELTA p ;; gwr m i x) (gfresh R N) ;;
  fft LOGN st m zr zi.
