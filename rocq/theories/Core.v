(** Model of include/HEAAN/arith/R_Q_square.h and include/HEAAN/core.h.

    [RM] is the implementation's RAND_MAX and [rnd k] the k-th result of rand() since the start of the
    process; functions that draw random numbers take and return the number of results used so far.
    Calls of conv start from empty function-local statics: C27_conv_history shows that earlier calls make
    no difference.  Reference parameters that are written are different objects from all other
    parameters.  print (R_Q_square.h:26-32) is not modelled. *)
From Coq Require Import ZArith List Bool.
From Verif Require Import Base ZQ RQ Conv Util.
Import ListNotations.
Open Scope Z_scope.

(** R_Q_square.h:8-11: [data[0]] and [data[1]]; the default constructor leaves every word indeterminate. *)
Definition sq := (poly * poly)%type.
Definition sq_new (LOGQ N : Z) : sq := (rq_new LOGQ N, rq_new LOGQ N).

(** R_Q_square.h:12-13 copy constructor and operator= *)
Definition sq_copy (LOGQ N : Z) (D A : sq) : res sq :=
  d0 <- rq_copy LOGQ N (fst D) (fst A) ;; d1 <- rq_copy LOGQ N (snd D) (snd A) ;; Ok (d0, d1).

(** R_Q_square.h:21 setzero *)
Definition sq_setzero (LOGQ N : Z) (D : sq) : res sq :=
  d0 <- rq_setzero LOGQ N (fst D) ;; d1 <- rq_setzero LOGQ N (snd D) ;; Ok (d0, d1).

(** R_Q_square.h:36-40 operator+= *)
Definition sq_add (LOGQ N : Z) (D B : sq) : res sq :=
  d0 <- rq_add LOGQ N (fst D) (fst B) ;; d1 <- rq_add LOGQ N (snd D) (snd B) ;; Ok (d0, d1).

(** R_Q_square.h:42-46 operator-= *)
Definition sq_sub (LOGQ N : Z) (D B : sq) : res sq :=
  d0 <- rq_sub LOGQ N (fst D) (fst B) ;; d1 <- rq_sub LOGQ N (snd D) (snd B) ;; Ok (d0, d1).

(** R_Q_square.h:49-54 operator*= (R_Q) *)
Definition sq_mul (LOGQ N : Z) (D : sq) (B : poly) : res sq :=
  let temp := rq_new LOGQ N in
  temp <- rq_copy LOGQ N temp (fst D) ;; d0 <- conv_poly LOGQ N temp B (fst D) ;;
  temp <- rq_copy LOGQ N temp (snd D) ;; d1 <- conv_poly LOGQ N temp B (snd D) ;;
  Ok (d0, d1).

(** R_Q_square.h:57-61 operator*= (uint64_t) *)
Definition sq_mul_word (LOGQ N : Z) (D : sq) (a : Z) : res sq :=
  d0 <- rq_mul_word LOGQ N (fst D) a ;; d1 <- rq_mul_word LOGQ N (snd D) a ;; Ok (d0, d1).

(** R_Q_square.h:63-68 resize *)
Definition sq_resize (LOGQfrom LOGQto N : Z) (Afrom Ato : sq) : res sq :=
  a0 <- rq_resize LOGQfrom LOGQto N (fst Afrom) (fst Ato) ;;
  a1 <- rq_resize LOGQfrom LOGQto N (snd Afrom) (snd Ato) ;; Ok (a0, a1).

(** core.h:18-27 keygen.  The loop of lines 23-24 has no bound of its own: [fuel] bounds the number of
    tries for one position. *)
Definition keygen (fuel : nat) (N : Z) (rnd : nat -> Z) (h : Z) (s : arr) (pos : nat) : res (arr * nat) :=
  s <- for_ 0 N (fun i s => wr s i 0) s ;;
  for_ 0 h (fun _ '(s, pos) =>
    let j := Z.rem (rnd pos) N in
    let pos := S pos in
    '(j, pos) <- while_ fuel (fun '(j, pos) => x <- rd s j ;; Ok (negb (x =? 0)))
                   (fun '(j, pos) => Ok (Z.rem (rnd pos) N, S pos)) (j, pos) ;;
    s <- wr s j (if Z.rem (rnd pos) 2 =? 0 then 1 else -1) ;;
    Ok (s, S pos)) (s, pos).

(** core.h:33-37: every word of [ct[1]] is drawn at random, then the bits above LOGQ are cleared. *)
Definition enc_uniform (LOGQ N RM : Z) (rnd : nat -> Z) (A : poly) (pos : nat) : res (poly * nat) :=
  for_ 0 N (fun i '(A, pos) =>
    x <- lget A i ;;
    '(x, pos) <- for_ 0 (len LOGQ) (fun j '(x, pos) =>
                   let '(w, pos) := rand_uint64 RM rnd pos in
                   x <- wr x j w ;; Ok (x, pos)) (x, pos) ;;
    x <- remove_clutter LOGQ x ;;
    A <- lset A i x ;; Ok (A, pos)) (A, pos).

(** core.h:38-44: the error polynomial. *)
Definition enc_error (LOGQ N : Z) (rnd : nat -> Z) (pos : nat) : res (poly * nat) :=
  for_ 0 N (fun i '(e, pos) =>
    x <- lget e i ;;
    x <- zq_setzero LOGQ x ;;
    x <- wr x 0 (Z.rem (rnd pos) 9) ;;
    let pos := S pos in
    x <- (if Z.rem (rnd pos) 2 =? 1 then zq_negate LOGQ x else Ok x) ;;
    e <- lset e i x ;; Ok (e, S pos)) (rq_new LOGQ N, pos).

(** core.h:29-49 enc *)
Definition enc (LOGQ N RM : Z) (rnd : nat -> Z) (pt : poly) (s : arr) (ct : sq) (pos : nat) : res (sq * nat) :=
  '(ct1, pos) <- enc_uniform LOGQ N RM rnd (snd ct) pos ;;
  '(e, pos) <- enc_error LOGQ N rnd pos ;;
  e <- rq_add LOGQ N e pt ;;
  ct0 <- rq_copy LOGQ N (fst ct) e ;;
  e <- conv_s LOGQ N s ct1 e ;;
  ct0 <- rq_sub LOGQ N ct0 e ;;
  Ok ((ct0, ct1), pos).

(** core.h:51-57 dec *)
Definition dec (LOGQ N : Z) (ct : sq) (s : arr) (pt : poly) : res poly :=
  pt <- conv_s LOGQ N s (snd ct) pt ;;
  rq_add LOGQ N pt (fst ct).

(** core.h:70-78: the multiple s_fr[i]*P. *)
Definition swk_coef (LOGQ : Z) (P : arr) (s : Z) (x : arr) : res arr :=
  if s =? 0 then zq_setzero (2 * LOGQ) x
  else
    abs <- (if s >? 0 then Ok s else int_ (- s)) ;;
    x <- zq_copy (2 * LOGQ) x P ;;
    '(x, _) <- while_big (fun '(x, abs) => Ok (abs >? 0))
                 (fun '(x, abs) => x <- zq_add (2 * LOGQ) x P ;; Ok (x, abs - 1)) (x, abs - 1) ;;
    if s <? 0 then zq_negate (2 * LOGQ) x else Ok x.

(** core.h:60-80 swkgen *)
Definition swkgen (LOGQ N RM : Z) (rnd : nat -> Z) (s_fr s_to : arr) (swk : sq) (pos : nat) : res (sq * nat) :=
  one <- zq_setzero LOGQ (zq_new LOGQ) ;;
  one <- wr one 0 1 ;;
  P <- zq_shift_left LOGQ (LOGQ * 2) one (zq_new (2 * LOGQ)) ;;
  Ps_fr <- for_ 0 N (fun i Ps => s <- rd s_fr i ;; pupd Ps i (swk_coef LOGQ P s)) (rq_new (2 * LOGQ) N) ;;
  enc (2 * LOGQ) N RM rnd Ps_fr s_to swk pos.

(** core.h:82-89 RS *)
Definition RS (LOGQfr LOGQto N : Z) (ct_fr ct_to : sq) : res sq :=
  for_ 0 N (fun i '(t0, t1) =>
    a <- lget (fst ct_fr) i ;; t0 <- pupd t0 i (zq_shift_right LOGQfr LOGQto a) ;;
    b <- lget (snd ct_fr) i ;; t1 <- pupd t1 i (zq_shift_right LOGQfr LOGQto b) ;;
    Ok (t0, t1)) ct_to.

(** core.h:96-100: the words of ct[1] with zeros above. *)
Definition ks_widen (LOGQ N : Z) (ct1 : poly) : res poly :=
  for_ 0 N (fun i D =>
    a <- lget ct1 i ;;
    pupd D i (fun x =>
      for_ 0 (len (2 * LOGQ)) (fun j x => if j <? len LOGQ then w <- rd a j ;; wr x j w else wr x j 0) x))
    (rq_new (2 * LOGQ) N).

(** core.h:91-106 ks *)
Definition ks (LOGQ N : Z) (swk ct : sq) : res sq :=
  ct1_swk <- sq_copy (2 * LOGQ) N (sq_new (2 * LOGQ) N) swk ;;
  ct1_ <- ks_widen LOGQ N (snd ct) ;;
  ct1_swk <- sq_mul (2 * LOGQ) N ct1_swk ct1_ ;;
  ct1_swk_rs <- RS (LOGQ * 2) LOGQ N ct1_swk (sq_new LOGQ N) ;;
  z <- for_ 0 N (fun i D => pupd D i (zq_setzero LOGQ)) (snd ct) ;;
  sq_add LOGQ N (fst ct, z) ct1_swk_rs.

(** core.h:108-125 Mul *)
Definition Mul (LOGQ N : Z) (ct1 ct2 evk ct3 : sq) : res sq :=
  d2 <- conv_poly LOGQ N (snd ct1) (snd ct2) (rq_new LOGQ N) ;;
  d2_ <- rq_resize LOGQ (2 * LOGQ) N d2 (rq_new (2 * LOGQ) N) ;;
  evk_d2 <- sq_copy (2 * LOGQ) N (sq_new (2 * LOGQ) N) evk ;;
  evk_d2 <- sq_mul (2 * LOGQ) N evk_d2 d2_ ;;
  ct3 <- RS (2 * LOGQ) LOGQ N evk_d2 ct3 ;;
  let '(d0, d1) := sq_new LOGQ N in
  d0 <- conv_poly LOGQ N (fst ct1) (snd ct2) d0 ;;
  d1 <- conv_poly LOGQ N (snd ct1) (fst ct2) d1 ;;
  d1 <- rq_add LOGQ N d1 d0 ;;
  d0 <- conv_poly LOGQ N (fst ct1) (fst ct2) d0 ;;
  sq_add LOGQ N ct3 (d0, d1).
