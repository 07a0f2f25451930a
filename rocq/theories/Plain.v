(** Model of include/impl/plaintext.h and include/impl/simple_plaintext.h.  [double] is the type of real numbers and
    arithmetic is exact.  Parameters that are written are objects different from those that are read. *)
From Coq Require Import ZArith List Bool Reals.
From Verif Require Import Base Util ZQ RQ Rot Conv GSum Matrix DFT Encode.
Import ListNotations.
Open Scope Z_scope.

(** ** simple_plaintext.h: SimplePlaintext<LOGN> is an array of 2^LOGN doubles *)

(** simple_plaintext.h:18-26 encode *)
Definition simple_encode (LOGN : Z) (st : tables) (zr zi : rarr) (Delta : Z) (pt : rarr) : res (tables * rarr) :=
  let N := 2 ^ LOGN in
  '(st, m) <- ifft LOGN st zr zi (gfresh R N) ;;
  pt <- for_ 0 N (fun i pt => x <- grd m i ;; gwr pt i (IZR (rround (x * IZR Delta)))) pt ;;
  Ok (st, pt).
(** simple_plaintext.h:28-36 encode_raw *)
Definition simple_encode_raw (LOGN : Z) (st : tables) (zr zi : rarr) (Delta : Z) (pt : rarr) : res (tables * rarr) :=
  let N := 2 ^ LOGN in
  '(st, m) <- ifft LOGN st zr zi (gfresh R N) ;;
  pt <- for_ 0 N (fun i pt => x <- grd m i ;; gwr pt i (x * IZR Delta)%R) pt ;;
  Ok (st, pt).
(** simple_plaintext.h:38-47 decode *)
Definition simple_decode (LOGN : Z) (st : tables) (pt : rarr) (Delta : Z) (zr zi : rarr) : res (tables * (rarr * rarr)) :=
  let N := 2 ^ LOGN in
  m <- for_ 0 N (fun i m => x <- grd pt i ;; gwr m i (x / IZR Delta)%R) (gfresh R N) ;;
  fft LOGN st m zr zi.
(** simple_plaintext.h:49-58 conv *)
Definition simple_conv (N : Z) (pt1 pt2 pt3 : rarr) : res rarr :=
  for_ 0 N (fun i pt3 =>
    sum <- for_ 0 (i + 1) (fun k sum => x <- grd pt1 k ;; y <- grd pt2 (i - k) ;; Ok (sum + x * y)%R) 0%R ;;
    sum <- for_ (i + 1) N (fun k sum => x <- grd pt1 k ;; y <- grd pt2 (i + N - k) ;; Ok (sum - x * y)%R) sum ;;
    gwr pt3 i sum) pt3.
(** simple_plaintext.h:60-65 add *)
Definition simple_add (N : Z) (pt1 pt2 pt3 : rarr) : res rarr :=
  for_ 0 N (fun i pt3 => x <- grd pt1 i ;; y <- grd pt2 i ;; gwr pt3 i (x + y)%R) pt3.
(** simple_plaintext.h:67-72 sub *)
Definition simple_sub (N : Z) (pt1 pt2 pt3 : rarr) : res rarr :=
  for_ 0 N (fun i pt3 => x <- grd pt1 i ;; y <- grd pt2 i ;; gwr pt3 i (x - y)%R) pt3.
(** simple_plaintext.h:74-81 square_sum *)
Definition simple_square_sum (N : Z) (pt : rarr) : res R :=
  for_ 0 N (fun i sum => x <- grd pt i ;; Ok (sum + x * x)%R) 0%R.
(** simple_plaintext.h:83-86 norm *)
Definition simple_norm (N : Z) (pt : rarr) : res R := x <- simple_square_sum N pt ;; Ok (sqrt x).
(** simple_plaintext.h:88-97 rotate_once *)
Definition simple_rotate_once (N : Z) (pt pt_rot : rarr) : res rarr :=
  for_ 0 N (fun i pt_rot =>
    f <- int_ (5 * i) ;; let q := Z.quot f N in let r := Z.rem f N in
    x <- grd pt i ;; pt_rot <- gwr pt_rot r x ;;
    if Z.rem q 2 =? 1 then y <- grd pt_rot r ;; gwr pt_rot r (- y)%R else Ok pt_rot) pt_rot.
(** simple_plaintext.h:99-113 rotate.  pt_tmp starts with zeros. *)
Definition simple_rotate (N : Z) (pt pt_rot : rarr) (r : Z) : res rarr :=
  pt_rot <- for_ 0 N (fun i pt_rot => x <- grd pt i ;; gwr pt_rot i x) pt_rot ;;
  '(_, pt_rot) <- for_ 0 r (fun _ '(pt_tmp, pt_rot) =>
      pt_tmp <- for_ 0 N (fun i pt_tmp => x <- grd pt_rot i ;; gwr pt_tmp i x) pt_tmp ;;
      pt_rot <- simple_rotate_once N pt_tmp pt_rot ;;
      Ok (pt_tmp, pt_rot)) (repeat (Some 0%R) (Z.to_nat N), pt_rot) ;;
  Ok pt_rot.

(** ** plaintext.h.  The overloads of encode, decode and decode_log at lines 9-22 are those of endecode.h applied to
    the two arrays of a Message. *)

(** plaintext.h:24-37 matrix_vector_product with K diagonals given as messages.  The local objects pt_v, pt_rot and
    pt_conv are not initialised. *)
Definition pt_mvp (LOGQ LOGN K : Z) (st : tables) (pt : poly) (A : list (rarr * rarr)) (Delta : Z) (pt_Az : poly) : res (tables * poly) :=
  let N := 2 ^ LOGN in
  pt_Az <- rq_setzero LOGQ N pt_Az ;;
  '(st, _, _, _, pt_Az) <- for_ 0 K (fun k '(st, pt_v, pt_rot, pt_conv, pt_Az) =>
      Ak <- lget A k ;;
      '(st, pt_v) <- encode LOGQ LOGN st (fst Ak) (snd Ak) Delta pt_v ;;
      pt_rot <- rot_poly LOGQ N pt pt_rot k ;;
      pt_conv <- conv_poly LOGQ N pt_v pt_rot pt_conv ;;
      pt_Az <- rq_add LOGQ N pt_Az pt_conv ;;
      Ok (st, pt_v, pt_rot, pt_conv, pt_Az)) (st, rq_new LOGQ N, rq_new LOGQ N, rq_new LOGQ N, pt_Az) ;;
  Ok (st, pt_Az).

(** plaintext.h:39-54 matrix_vector_product with three diagonals *)
Definition pt_mvp3 (LOGQ LOGN : Z) (st : tables) (pt : poly) (Ar Ai : sd R) (Delta : Z) (pt_Az : poly) : res (tables * poly) :=
  let N := 2 ^ LOGN in
  pt_Az <- rq_setzero LOGQ N pt_Az ;;
  '(st, _, _, _, pt_Az) <- for_ 0 3 (fun k '(st, pt_v, pt_rot, pt_conv, pt_Az) =>
      r <- get_off Ar k ;; i <- get_off Ai k ;; assert_ (r =? i) ;;;
      vr <- lget (vec Ar) k ;; vi <- lget (vec Ai) k ;;
      '(st, pt_v) <- encode LOGQ LOGN st vr vi Delta pt_v ;;
      pt_rot <- rot_poly LOGQ N pt pt_rot r ;;
      pt_conv <- conv_poly LOGQ N pt_v pt_rot pt_conv ;;
      pt_Az <- rq_add LOGQ N pt_Az pt_conv ;;
      Ok (st, pt_v, pt_rot, pt_conv, pt_Az)) (st, rq_new LOGQ N, rq_new LOGQ N, rq_new LOGQ N, pt_Az) ;;
  Ok (st, pt_Az).
