(** Model of EvalMod (include/HEAAN/bootstrap.h:92-228).  [double] is the type of real numbers and arithmetic is exact; the
    literals are the decimal numbers that are written.  Objects that are written are different from all other arguments. *)
From Coq Require Import ZArith List Bool Reals.
From Verif Require Import Base ZQ RQ Conv Util Core GSum Matrix DFT Encode LinTrans Poly.
Import ListNotations.
Open Scope Z_scope.

(** util/util.h:11 "#define PI" *)
Definition PI_macro : R := (IZR 31415926535897932384626433 / IZR (10 ^ 25))%R.

(** bootstrap.h:149-181: the array u *)
Definition evalmod_u : list R := map (fun z => IZR z / IZR (10 ^ 17))%R
  [-18121145350892778; 176; -51003675488366396; -206; -62436800964507644; -28; 17069002507116071; 187;
   64387933774156236; 155; -60946403046665876; -439; 16023104261940782; -53; -5094267475677791; 128;
   145283705186850; 268; -24484541895481; -37; 1620811709676; -323; -171679432516; 197;
   3753839882; 263; -274617457; 504; 8565582; 1545; -460528; -2388].

(** A double divided by the conversion of an int to double; the quotient by zero is not a number that can be converted. *)
Definition quot_d (x : R) (k : Z) : res R := if k =? 0 then Undef else Ok (x / IZR k)%R.

(** bootstrap.h:139-142: ct1 = ct * (1/K) *)
Definition em_scale (LOGQ N LOGDELTA K : Z) (ct : sq) : res sq :=
  ct_copy <- sq_copy LOGQ N (sq_new LOGQ N) ct ;;
  D <- one_shl LOGDELTA ;; x <- quot_d (IZR D) K ;; w <- r_to_u64 x ;;
  ct_copy <- sq_mul_word LOGQ N ct_copy w ;;
  RS LOGQ (LOGQ - LOGDELTA) N ct_copy (sq_new (LOGQ - LOGDELTA) N).

(** bootstrap.h:144-146, with [LOGQ] the modulus of ct1 *)
Definition em_shift (LOGQ LOGDELTA K : Z) (ct1 : sq) : res sq :=
  qtK <- zq_setzero LOGQ (zq_new LOGQ) ;;
  D <- one_shl LOGDELTA ;; k <- int_ (4 * K) ;; x <- quot_d (IZR D) k ;; w <- r_to_u64 x ;;
  qtK <- wr qtK 0 w ;;
  t0 <- pupd (fst ct1) 0 (fun A => zq_sub LOGQ A qtK) ;; Ok (t0, snd ct1).

(** bootstrap.h:213-219: ct7 = x^2 + 6, with [LOGQ] the modulus of ct6 *)
Definition em_square6 (LOGQ N LOGDELTA : Z) (ct6 evk : sq) : res sq :=
  temp5 <- Mul LOGQ N ct6 ct6 evk (sq_new LOGQ N) ;;
  D <- one_shl LOGDELTA ;; six <- zq_const LOGQ ((D * 6) mod W) D ;;
  t0 <- pupd (fst temp5) 0 (fun A => zq_add LOGQ A six) ;; let temp5 := (t0, snd temp5) in
  RS LOGQ (LOGQ - LOGDELTA) N temp5 (sq_new (LOGQ - LOGDELTA) N).
(** bootstrap.h:220-223: ct8 = (1/12pi) * x.  (temp5 is an object with arbitrary contents; a new one stands for it.) *)
Definition em_times (LOGQ N LOGDELTA : Z) (ct6 : sq) : res sq :=
  temp5 <- sq_copy LOGQ N (sq_new LOGQ N) ct6 ;;
  D <- one_shl LOGDELTA ;; w <- r_to_u64 (IZR D / (12 * PI_macro))%R ;;
  temp5 <- sq_mul_word LOGQ N temp5 w ;;
  RS LOGQ (LOGQ - LOGDELTA) N temp5 (sq_new (LOGQ - LOGDELTA) N).

(** bootstrap.h:125-228 EvalMod with the evaluation keys *)
Definition EvalMod_keys (LOGQ N LOGDELTA K : Z) (ct evk1 evk2 evk3 evk4 evk5 evk6 evk7 evk8 evk9 evk10 evk11 p : sq) : res sq :=
  ct1 <- em_scale LOGQ N LOGDELTA K ct ;;
  ct1 <- em_shift (LOGQ - LOGDELTA) LOGDELTA K ct1 ;;
  ct2 <- eval_poly_deg31 (LOGQ - LOGDELTA) N LOGDELTA (map Some evalmod_u) ct1 evk1 evk2 evk3 evk4 evk5 (sq_new (LOGQ - 6 * LOGDELTA) N) ;;
  ct3 <- double_angle (LOGQ - 6 * LOGDELTA) N LOGDELTA ct2 evk6 (sq_new (LOGQ - 7 * LOGDELTA) N) ;;
  ct4 <- double_angle (LOGQ - 7 * LOGDELTA) N LOGDELTA ct3 evk7 (sq_new (LOGQ - 8 * LOGDELTA) N) ;;
  ct5 <- double_angle (LOGQ - 8 * LOGDELTA) N LOGDELTA ct4 evk8 (sq_new (LOGQ - 9 * LOGDELTA) N) ;;
  ct6 <- double_angle (LOGQ - 9 * LOGDELTA) N LOGDELTA ct5 evk9 (sq_new (LOGQ - 10 * LOGDELTA) N) ;;
  ct7 <- em_square6 (LOGQ - 10 * LOGDELTA) N LOGDELTA ct6 evk10 ;;
  ct8 <- em_times (LOGQ - 10 * LOGDELTA) N LOGDELTA ct6 ;;
  ct9 <- Mul (LOGQ - 11 * LOGDELTA) N ct7 ct8 evk11 (sq_new (LOGQ - 11 * LOGDELTA) N) ;;
  RS (LOGQ - 11 * LOGDELTA) (LOGQ - 12 * LOGDELTA) N ct9 p.

(** bootstrap.h:98-120: one evaluation key, for the modulus LOGQ - i*LOGDELTA *)
Definition em_key (LOGQ N LOGDELTA RM : Z) (rnd : nat -> Z) (s s_sq : arr) (i : Z) (pos : nat) : res (sq * nat) :=
  swkgen (LOGQ - i * LOGDELTA) N RM rnd s_sq s (sq_new (2 * (LOGQ - i * LOGDELTA)) N) pos.
(** bootstrap.h:92-123 EvalMod with the secret key.  Returns the position in the stream of rand() and the result. *)
Definition EvalMod (LOGQ N LOGDELTA K RM : Z) (rnd : nat -> Z) (pos : nat) (ct : sq) (s : arr) (p : sq) : res (nat * sq) :=
  s_sq <- conv_int N s s (fresh N) ;;
  let key := em_key LOGQ N LOGDELTA RM rnd s s_sq in
  '(evk1, pos) <- key 1 pos ;;
  '(evk2, pos) <- key 2 pos ;;
  '(evk3, pos) <- key 3 pos ;;
  '(evk4, pos) <- key 4 pos ;;
  '(evk5, pos) <- key 5 pos ;;
  '(evk6, pos) <- key 6 pos ;;
  '(evk7, pos) <- key 7 pos ;;
  '(evk8, pos) <- key 8 pos ;;
  '(evk9, pos) <- key 9 pos ;;
  '(evk10, pos) <- key 10 pos ;;
  '(evk11, pos) <- key 11 pos ;;
  p <- EvalMod_keys LOGQ N LOGDELTA K ct evk1 evk2 evk3 evk4 evk5 evk6 evk7 evk8 evk9 evk10 evk11 p ;;
  Ok (pos, p).
