(** Model of include/HEAAN/poly.h.  [double] is the type of real numbers and arithmetic is exact.  Objects that are written
    are different from all other arguments.  The calls of print in eval_poly_deg7 (lines 89-91) are not modelled. *)
From Coq Require Import ZArith List Bool Reals.
From Verif Require Import Base ZQ RQ Util Core GSum Matrix DFT Encode LinTrans.
Import ListNotations.
Open Scope Z_scope.

(** Conversion of a double to uint64_t: the value truncated towards zero, undefined outside the range of the type. *)
Definition r_to_u64 (x : R) : res Z := to_u64 (if Rlt_dec x 0 then - Int_part (- x)%R else Int_part x).

(** A Z_Q object with one word set and multiplied by a power of two: poly.h:31, 33 and 85-86 "one.setzero(); one[0]=w; one*=v". *)
Definition zq_const (LOGQ w v : Z) : res arr :=
  one <- zq_setzero LOGQ (zq_new LOGQ) ;; one <- wr one 0 w ;; zq_mul_word LOGQ one v.

(** poly.h:12-18 (also 54-60 and 113-119), and with [signed] poly.h:189-196 (also 292-299 and 412-419): the constant
    polynomial L0[n] *)
Definition L0_entry (signed : bool) (LOGQ N LOGDELTA n : Z) (x : R) : res poly :=
  D <- one_shl LOGDELTA ;;
  P <- rq_setzero LOGQ N (rq_new LOGQ N) ;;
  w <- r_to_u64 ((if signed then Rabs x else x) * IZR D)%R ;;
  P <- pupd P 0 (fun A => wr A 0 w) ;;
  P <- (if n mod 2 =? 0 then pupd P 0 (fun A => zq_mul_word LOGQ A D) else Ok P) ;;
  if signed then (if Rlt_dec x 0 then pupd P 0 (zq_negate LOGQ) else Ok P) else Ok P.
Definition L0_list (signed : bool) (LOGQ N LOGDELTA cnt : Z) (u : rarr) : res (list poly) :=
  for_ 0 cnt (fun n L => x <- grd u n ;; P <- L0_entry signed LOGQ N LOGDELTA n x ;; lset L n P) (repeat (rq_new LOGQ N) (Z.to_nat cnt)).

(** poly.h:23-28 (also 65-70, 124-129, 201-206, 305-310, 425-430): L1 *)
Definition L1_list (LOGQ N LOGDELTA cnt : Z) (L0 : list poly) (T1 : sq) : res (list sq) :=
  for_ 0 cnt (fun n L1 =>
    temp <- sq_copy LOGQ N (sq_new LOGQ N) T1 ;;
    p <- lget L0 (2 * n + 1) ;; temp <- sq_mul LOGQ N temp p ;;
    q <- lget L0 (2 * n) ;; t0 <- rq_add LOGQ N (fst temp) q ;; let temp := (t0, snd temp) in
    d <- lget L1 n ;; d <- RS LOGQ (LOGQ - LOGDELTA) N temp d ;; lset L1 n d)
    (repeat (sq_new (LOGQ - LOGDELTA) N) (Z.to_nat cnt)).

(** poly.h:30-35 (also 72-77, 89-94 and the other blocks computing T2, T4, ..., T64; bootstrap.h:172-177 etc.):
    2*T*T-1, rescaled from LOGQ to LOGQ-LOGDELTA *)
Definition double_angle (LOGQ N LOGDELTA : Z) (T evk D : sq) : res sq :=
  temp <- Mul LOGQ N T T evk (sq_new LOGQ N) ;;
  temp <- sq_mul_word LOGQ N temp 2 ;;
  w <- one_shl LOGDELTA ;; one <- zq_const LOGQ w w ;;
  t0 <- pupd (fst temp) 0 (fun A => zq_sub LOGQ A one) ;; let temp := (t0, snd temp) in
  RS LOGQ (LOGQ - LOGDELTA) N temp D.

(** poly.h:36-40 and the bodies of the loops computing L2, ..., L6: T*L[2n+1]+L[2n], rescaled from LOGQ to LOGQ-LOGDELTA.
    (L[2n] is multiplied in place; it is not used again.) *)
Definition combine (LOGQ N LOGDELTA : Z) (T : sq) (L : list sq) (n : Z) (evk D : sq) : res sq :=
  b <- lget L (2 * n + 1) ;; temp <- Mul LOGQ N T b evk (sq_new LOGQ N) ;;
  a <- lget L (2 * n) ;; w <- one_shl LOGDELTA ;; a <- sq_mul_word LOGQ N a w ;;
  temp <- sq_add LOGQ N temp a ;;
  RS LOGQ (LOGQ - LOGDELTA) N temp D.

(** The levels after the first, poly.h:29-40, 71-101, 130-180, 207-281, 311-401, 431-544, which differ in their number only.
    [T] has modulus LOGQ and [evk] is its evaluation key; the [2*cnt] entries of [L] and [evks] are one level below; the last
    level writes [p]. *)
Fixpoint eval_levels (N LOGDELTA LOGQ cnt : Z) (T : sq) (L : list sq) (evk : sq) (evks : list sq) (p : sq) : res sq :=
  match evks with
  | [] => Undef
  | evk' :: rest =>
      T <- double_angle LOGQ N LOGDELTA T evk (sq_new (LOGQ - LOGDELTA) N) ;;
      match rest with
      | [] => combine (LOGQ - LOGDELTA) N LOGDELTA T L 0 evk' p
      | _ =>
          L <- for_ 0 cnt (fun n L' => d <- lget L' n ;; d <- combine (LOGQ - LOGDELTA) N LOGDELTA T L n evk' d ;; lset L' n d)
                 (repeat (sq_new (LOGQ - LOGDELTA - LOGDELTA) N) (Z.to_nat cnt)) ;;
          eval_levels N LOGDELTA (LOGQ - LOGDELTA) (cnt / 2) T L evk' rest p
      end
  end.
Definition eval_poly (signed : bool) (LOGQ N LOGDELTA cnt : Z) (u : rarr) (ct evk1 : sq) (evks : list sq) (p : sq) : res sq :=
  L0 <- L0_list signed LOGQ N LOGDELTA (2 * cnt) u ;;
  L1 <- L1_list LOGQ N LOGDELTA cnt L0 ct ;;
  eval_levels N LOGDELTA LOGQ (cnt / 2) ct L1 evk1 evks p.

(** poly.h:5-41 *)
Definition eval_poly_deg3 (LOGQ N LOGDELTA : Z) (u : rarr) (ct evk1 evk2 p : sq) : res sq :=
  eval_poly false LOGQ N LOGDELTA 2 u ct evk1 [evk2] p.
(** poly.h:43-103 *)
Definition eval_poly_deg7 (LOGQ N LOGDELTA : Z) (u : rarr) (ct evk1 evk2 evk3 p : sq) : res sq :=
  eval_poly false LOGQ N LOGDELTA 4 u ct evk1 [evk2; evk3] p.
(** poly.h:105-181 *)
Definition eval_poly_deg15 (LOGQ N LOGDELTA : Z) (u : rarr) (ct evk1 evk2 evk3 evk4 p : sq) : res sq :=
  eval_poly false LOGQ N LOGDELTA 8 u ct evk1 [evk2; evk3; evk4] p.
(** poly.h:184-282 *)
Definition eval_poly_deg31 (LOGQ N LOGDELTA : Z) (u : rarr) (ct evk1 evk2 evk3 evk4 evk5 p : sq) : res sq :=
  eval_poly true LOGQ N LOGDELTA 16 u ct evk1 [evk2; evk3; evk4; evk5] p.
(** poly.h:285-402 *)
Definition eval_poly_deg63 (LOGQ N LOGDELTA : Z) (u : rarr) (ct evk1 evk2 evk3 evk4 evk5 evk6 p : sq) : res sq :=
  eval_poly true LOGQ N LOGDELTA 32 u ct evk1 [evk2; evk3; evk4; evk5; evk6] p.
(** poly.h:404-545 *)
Definition eval_poly_deg127 (LOGQ N LOGDELTA : Z) (u : rarr) (ct evk1 evk2 evk3 evk4 evk5 evk6 evk7 p : sq) : res sq :=
  eval_poly true LOGQ N LOGDELTA 64 u ct evk1 [evk2; evk3; evk4; evk5; evk6; evk7] p.

(** poly.h:548-562 convert_frc_tou.  The pointer [u] is an array and an offset.  [fuel] bounds the depth of the recursion,
    which has no bound of its own. *)
Fixpoint convert_frc_tou (fuel : nat) (c : rarr) (u : rarr) (off N : Z) : res rarr :=
  match fuel with
  | O => Diverge
  | S fuel =>
      if N =? 4 then
        c0 <- grd c 0 ;; u <- gwr u off c0 ;;
        c1 <- grd c 1 ;; c3 <- grd c 3 ;; u <- gwr u (off + 1) (c1 - c3)%R ;;
        c2 <- grd c 2 ;; u <- gwr u (off + 2) c2 ;;
        c3 <- grd c 3 ;; gwr u (off + 3) (c3 * 2)%R
      else
        let H := Z.quot N 2 in
        c0 <- for_ 0 H (fun i c0 => x <- grd c i ;; gwr c0 i x) (gfresh R H) ;;
        c1 <- for_ 0 H (fun i c1 => x <- grd c (i + H) ;; gwr c1 i x) (gfresh R H) ;;
        '(c0, c1) <- for_ 1 H (fun i '(c0, c1) =>
            x <- grd c0 (H - i) ;; y <- grd c1 i ;; c0 <- gwr c0 (H - i) (x - y)%R ;;
            y <- grd c1 i ;; c1 <- gwr c1 i (y * 2)%R ;; Ok (c0, c1)) (c0, c1) ;;
        u <- convert_frc_tou fuel c0 u off H ;;
        convert_frc_tou fuel c1 u (off + H) H
  end.
