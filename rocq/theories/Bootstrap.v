(** Model of CoeffToSlot and SlotToCoeff of include/HEAAN/bootstrap.h (lines 14-90).  [double] is the type of real
    numbers and arithmetic is exact; [pow(N, 1.0/(LOGN-1))] is the real power.  [st] is the static table of ifftNR
    (used by encode), [pos] the number of results of rand() used so far.  Objects that are written are different from
    all other arguments.  EvalMod is in EvalMod.v. *)
From Coq Require Import ZArith List Bool Reals.
From Verif Require Import Base ZQ RQ Conv Util Core Rot GSum Matrix DFT Encode LinTrans.
Import ListNotations.
Open Scope Z_scope.

(** bootstrap.h:29-30: the factor 1 / pow(N, 1.0 / (LOGN - 1)) *)
Definition cts_factor (LOGN : Z) : R := (1 / Rpower (IZR (2 ^ LOGN)) (1 / IZR (LOGN - 1)))%R.

(** bootstrap.h:24-31: the static tables of CoeffToSlot.  (Before initialisation the objects are zero; splitU0NR does
    not read them.) *)
Definition cts_tables (LOGN : Z) : res (list (sd Rops) * list (sd Rops)) :=
  let H := 2 ^ (LOGN - 1) in
  '(U0r, U0i) <- splitU0NR LOGN (fst (new_tables LOGN)) (snd (new_tables LOGN)) ;;
  for_ 0 (LOGN - 1) (fun n '(U0r, U0i) =>
    a <- lget U0r n ;; a <- sd_transpose (K := Rops) H 3 a ;; U0r <- lset U0r n a ;;
    b <- lget U0i n ;; b <- sd_transpose (K := Rops) H 3 b ;; U0i <- lset U0i n b ;;
    b <- lget U0i n ;; b <- sd_negate (K := Rops) H 3 b ;; U0i <- lset U0i n b ;;
    a <- lget U0r n ;; a <- sd_scale (K := Rops) H 3 a (cts_factor LOGN) ;; U0r <- lset U0r n a ;;
    b <- lget U0i n ;; b <- sd_scale (K := Rops) H 3 b (cts_factor LOGN) ;; U0i <- lset U0i n b ;;
    Ok (U0r, U0i)) (U0r, U0i).

(** bootstrap.h:44-45: the polynomial pti *)
Definition cts_pti (LOGQ N : Z) : res poly :=
  pti <- rq_setzero LOGQ N (rq_new LOGQ N) ;;
  pti <- pupd pti (N / 2) (fun d => wr d 0 1) ;;
  pupd pti (N / 2) (zq_negate LOGQ).

(** bootstrap.h:14-49 CoeffToSlot.  [stc] are its static tables, [None] as long as is_init is false.  Returns the
    statics, the position in the stream of rand() and the two results. *)
Definition CoeffToSlot (LOGQ LOGN LOGDELTA RM : Z) (rnd : nat -> Z) (G : Z) (stc st : tables) (pos : nat) (ct : sq) (s : arr) (ct0 ct1 : sq)
    : res (tables * tables * nat * sq * sq) :=
  let N := 2 ^ LOGN in
  '(U0r, U0i) <- (match stc with Some t => Ok t | None => cts_tables LOGN end) ;;
  '(st, pos, U0ct) <- grouped_lt LOGQ LOGN LOGDELTA RM rnd 3 (LOGN - 1) G st pos U0r U0i ct s (sq_new LOGQ N) ;;
  s_conj <- conj_int N s (fresh N) ;;
  '(ckey, pos) <- swkgen LOGQ N RM rnd s_conj s (sq_new (2 * LOGQ) N) pos ;;
  U0ct_conj <- conj_ct LOGQ N U0ct ckey (sq_new LOGQ N) ;;
  pti <- cts_pti LOGQ N ;;
  ct0 <- sq_copy LOGQ N ct0 U0ct ;; ct0 <- sq_add LOGQ N ct0 U0ct_conj ;;
  ct1 <- sq_copy LOGQ N ct1 U0ct ;; ct1 <- sq_sub LOGQ N ct1 U0ct_conj ;; ct1 <- sq_mul LOGQ N ct1 pti ;;
  Ok (Some (U0r, U0i), st, pos, ct0, ct1).

(** U[i] = V[j] for elements of arrays of SparseDiagonal (matrix.h:50-58) *)
Definition sd_assign (n : Z) (U : list (sd Rops)) (i : Z) (V : list (sd Rops)) (j : Z) : res (list (sd Rops)) :=
  d <- lget U i ;; v <- lget V j ;; d <- sd_copy n 3 d v ;; lset U i d.
(** bootstrap.h:63-84: the static tables U0r, U0i, iU0r, iU0i of SlotToCoeff *)
Definition stc_tables (LOGN : Z) : res (list (sd Rops) * list (sd Rops) * list (sd Rops) * list (sd Rops)) :=
  let H := 2 ^ (LOGN - 1) in
  let fresh_arr := fst (new_tables LOGN) in
  '(Tr, Ti) <- splitU0NR LOGN (fst (new_tables LOGN)) (snd (new_tables LOGN)) ;;
  '(U0r, U0i) <- for_ 0 (LOGN - 1) (fun i '(U0r, U0i) =>
      U0r <- sd_assign H U0r i Tr (LOGN - 2 - i) ;; U0i <- sd_assign H U0i i Ti (LOGN - 2 - i) ;; Ok (U0r, U0i)) (fresh_arr, fresh_arr) ;;
  '(iU0r, iU0i) <- for_ 0 (LOGN - 1) (fun i '(iU0r, iU0i) =>
      if i =? 0 then
        iU0r <- sd_assign H iU0r i Ti (LOGN - 2 - i) ;;
        a <- lget iU0r i ;; a <- sd_negate (K := Rops) H 3 a ;; iU0r <- lset iU0r i a ;;
        iU0i <- sd_assign H iU0i i Tr (LOGN - 2 - i) ;; Ok (iU0r, iU0i)
      else
        iU0r <- sd_assign H iU0r i Tr (LOGN - 2 - i) ;; iU0i <- sd_assign H iU0i i Ti (LOGN - 2 - i) ;; Ok (iU0r, iU0i)) (fresh_arr, fresh_arr) ;;
  Ok (U0r, U0i, iU0r, iU0i).
Definition stables := option (list (sd Rops) * list (sd Rops) * list (sd Rops) * list (sd Rops)).

(** bootstrap.h:51-90 SlotToCoeff *)
Definition SlotToCoeff (LOGQ LOGN LOGDELTA RM : Z) (rnd : nat -> Z) (G : Z) (sts : stables) (st : tables) (pos : nat) (ct0 ct1 : sq) (s : arr) (ct_ : sq)
    : res (stables * tables * nat * sq) :=
  let N := 2 ^ LOGN in
  '(U0r, U0i, iU0r, iU0i) <- (match sts with Some t => Ok t | None => stc_tables LOGN end) ;;
  '(st, pos, ct_) <- grouped_lt LOGQ LOGN LOGDELTA RM rnd 3 (LOGN - 1) G st pos U0r U0i ct0 s ct_ ;;
  '(st, pos, ct2) <- grouped_lt LOGQ LOGN LOGDELTA RM rnd 3 (LOGN - 1) G st pos iU0r iU0i ct1 s (sq_new LOGQ N) ;;
  ct_ <- sq_add LOGQ N ct_ ct2 ;;
  Ok (Some (U0r, U0i, iU0r, iU0i), st, pos, ct_).
