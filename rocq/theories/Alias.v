(** Calls with one object in two places: what the functions of Z_Q.h, R_Q.h, R_Q_square.h, conv.h, linear_transform.h and core.h do then.
    (Z_Q's own operators: [zq_add_self], [zq_resize_self] of ZQ.v; [rq_add_self] of RQ.v; [conv_s_self] of Conv.v.) *)
From Coq Require Import ZArith List Bool.
From Verif Require Import Base ZQ RQ Conv Core.
Import ListNotations.
Open Scope Z_scope.

(** R_Q.h:82-87 resize with both arguments the same object *)
Definition rq_resize_self (LOGQ N : Z) (D : poly) : res poly :=
  for_ 0 N (fun i D => pupd D i (zq_resize_self LOGQ)) D.

(** R_Q_square.h:49-54 [D *= D[0]]: line 52 has changed the factor before line 53 reads it *)
Definition sq_mul_first (LOGQ N : Z) (D : sq) : res sq :=
  let temp := rq_new LOGQ N in
  temp <- rq_copy LOGQ N temp (fst D) ;; d0 <- conv_poly LOGQ N temp (fst D) (fst D) ;;
  temp <- rq_copy LOGQ N temp (snd D) ;; d1 <- conv_poly LOGQ N temp d0 (snd D) ;;
  Ok (d0, d1).

(** R_Q_square.h:49-54 [D *= D[1]] *)
Definition sq_mul_second (LOGQ N : Z) (D : sq) : res sq :=
  let temp := rq_new LOGQ N in
  temp <- rq_copy LOGQ N temp (fst D) ;; d0 <- conv_poly LOGQ N temp (snd D) (fst D) ;;
  temp <- rq_copy LOGQ N temp (snd D) ;; d1 <- conv_poly LOGQ N temp (snd D) (snd D) ;;
  Ok (d0, d1).

(** linear_transform.h:67-75 conj on R_Q with both arguments the same object *)
Definition conj_poly_self (LOGQ N : Z) (pt : poly) : res poly :=
  x <- lget pt 0 ;; pt <- pupd pt 0 (fun d => zq_copy LOGQ d x) ;;
  for_ 1 N (fun i pt =>
    x <- lget pt (N - i) ;;
    pt <- pupd pt i (fun d => zq_copy LOGQ d x) ;;
    pupd pt i (zq_negate LOGQ)) pt.

(** linear_transform.h:61-65 conj on int arrays with both arguments the same array *)
Definition conj_int_self (N : Z) (s : arr) : res arr :=
  x <- rd s 0 ;; s <- wr s 0 x ;;
  for_ 1 N (fun i s => x <- rd s (N - i) ;; y <- int_ (- x) ;; wr s i y) s.

(** core.h:108-125 Mul with [ct3] the same object as [ct1]: line 117 has overwritten [ct1] before lines 119-122 read it *)
Definition Mul_first (LOGQ N : Z) (ct1 ct2 evk : sq) : res sq :=
  d2 <- conv_poly LOGQ N (snd ct1) (snd ct2) (rq_new LOGQ N) ;;
  d2_ <- rq_resize LOGQ (2 * LOGQ) N d2 (rq_new (2 * LOGQ) N) ;;
  evk_d2 <- sq_copy (2 * LOGQ) N (sq_new (2 * LOGQ) N) evk ;;
  evk_d2 <- sq_mul (2 * LOGQ) N evk_d2 d2_ ;;
  ct1 <- RS (2 * LOGQ) LOGQ N evk_d2 ct1 ;;
  let '(d0, d1) := sq_new LOGQ N in
  d0 <- conv_poly LOGQ N (fst ct1) (snd ct2) d0 ;;
  d1 <- conv_poly LOGQ N (snd ct1) (fst ct2) d1 ;;
  d1 <- rq_add LOGQ N d1 d0 ;;
  d0 <- conv_poly LOGQ N (fst ct1) (fst ct2) d0 ;;
  sq_add LOGQ N ct1 (d0, d1).
