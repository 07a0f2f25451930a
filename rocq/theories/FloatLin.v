(** Model of the linear transforms of include/HEAAN/linear_transform.h (147-262) and of CoeffToSlot and SlotToCoeff of
    include/HEAAN/bootstrap.h (14-90) in floating-point arithmetic, as in Float.v: every operation on doubles rounds.  Multiplication of a
    diagonal by -1 is exact.  The rest is as in LinTrans.v and Bootstrap.v. *)
From Coq Require Import ZArith List Bool Reals.
From Verif Require Import Base ZQ RQ Conv Util Core Rot GSum Matrix DFT Encode LinTrans Bootstrap Float.
Import ListNotations.
Open Scope Z_scope.

Section FloatLin.
Context (F : fpu).

(** linear_transform.h:155-172: the body of the loop over the diagonals *)
Definition f_lt_step (LOGQ LOGN LOGDELTA RM : Z) (rng : nat -> Z) (Ar Ai : sd Rops) (ct : sq) (skey : arr) (s : Z)
    (w : tables * nat * sq) : res (tables * nat * sq) :=
  let N := 2 ^ LOGN in
  let '(st, pos, Act) := w in
  o <- get_off Ar s ;; o' <- get_off Ai s ;; assert_ (o =? o') ;;;
  zr <- get_zero Ar s ;;
  skip <- (if (zr : bool) then get_zero Ai s else Ok false) ;;
  if (skip : bool) then Ok (st, pos, Act)
  else
    vr <- lget (vec Ar) s ;; vi <- lget (vec Ai) s ;; Delta <- one_shl LOGDELTA ;;
    '(st, pt) <- f_encode F LOGQ LOGN st vr vi Delta (rq_new LOGQ N) ;;
    ct_rot <- sq_copy LOGQ N (sq_new LOGQ N) ct ;;
    '(pos, ct_rot) <-
      (if negb (o =? 0) then
         skey_rot <- rot_int N skey (fresh N) o ;;
         '(rkey, pos) <- swkgen LOGQ N RM rng skey_rot skey (sq_new (2 * LOGQ) N) pos ;;
         ct_rot <- rot_ct LOGQ N ct o rkey ct_rot ;; Ok (pos, ct_rot)
       else Ok (pos, ct_rot)) ;;
    ct_rot <- sq_mul LOGQ N ct_rot pt ;;
    Act <- sq_add LOGQ N Act ct_rot ;; Ok (st, pos, Act).
(** linear_transform.h:147-173 linear_transform with the secret key *)
Definition f_linear_transform (LOGQ LOGN LOGDELTA RM : Z) (rng : nat -> Z) (S : Z) (st : tables) (pos : nat) (Ar Ai : sd Rops) (ct : sq) (skey : arr) (Act : sq)
    : res (tables * nat * sq) :=
  Act <- sq_setzero LOGQ (2 ^ LOGN) Act ;;
  for_ 0 S (f_lt_step LOGQ LOGN LOGDELTA RM rng Ar Ai ct skey) (st, pos, Act).

(** linear_transform.h:175-187 serial_linear_transform *)
Definition f_serial_lt (LOGQ LOGN LOGDELTA RM : Z) (rng : nat -> Z) (S D : Z) (st : tables) (pos : nat) (Ar Ai : list (sd Rops)) (ct : sq) (skey : arr) (Act : sq)
    : res (tables * nat * sq) :=
  let N := 2 ^ LOGN in
  Act <- sq_copy LOGQ N Act ct ;;
  '(st, pos, Act, _) <- for_ 0 D (fun d '(st, pos, Act, ct_temp) =>
      ct_temp <- sq_copy LOGQ N ct_temp Act ;;
      a <- lget Ar d ;; b <- lget Ai d ;;
      '(st, pos, Act) <- f_linear_transform LOGQ LOGN LOGDELTA RM rng S st pos a b ct_temp skey Act ;;
      Ok (st, pos, Act, ct_temp)) (st, pos, Act, sq_new LOGQ N) ;;
  Ok (st, pos, Act).

(** linear_transform.h:200, 218, 219, 239-241: MatMul of element [i] of one array and element [j] of another into element
    [k] of a third. *)
Definition f_mm_at (n S1 S2 : Z) (Ar Ai : list (sd Rops)) (i : Z) (Br Bi : list (sd Rops)) (j : Z) (Cr Ci : list (sd Rops)) (k : Z)
    : res (list (sd Rops) * list (sd Rops)) :=
  ar <- lget Ar i ;; ai <- lget Ai i ;; br <- lget Br j ;; bi <- lget Bi j ;; cr <- lget Cr k ;; ci <- lget Ci k ;;
  '(cr, ci) <- matmul2 (K := Fops F) n S1 S2 ar ai br bi cr ci ;;
  Cr <- lset Cr k cr ;; Ci <- lset Ci k ci ;; Ok (Cr, Ci).

(** linear_transform.h:195-201, the products of pairs; D is the number of matrices.  Divisions of nonnegative numbers. *)
Definition f_group2 (n S D : Z) (Ar Ai : list (sd Rops)) : res (list (sd Rops) * list (sd Rops)) :=
  assert_ (D mod 2 =? 0) ;;;
  for_ 0 (D / 2) (fun i '(Br, Bi) => f_mm_at n S S Ar Ai (2 * i + 1) Ar Ai (2 * i) Br Bi i)
    (sd_array n (S * S) (D / 2), sd_array n (S * S) (D / 2)).
(** linear_transform.h:211-220 *)
Definition f_group3 (n S D : Z) (Ar Ai : list (sd Rops)) : res (list (sd Rops) * list (sd Rops)) :=
  assert_ (D mod 3 =? 0) ;;;
  '(_, _, Cr, Ci) <- for_ 0 (D / 3) (fun i '(Br, Bi, Cr, Ci) =>
      '(Br, Bi) <- f_mm_at n S S Ar Ai (3 * i + 1) Ar Ai (3 * i) Br Bi i ;;
      '(Cr, Ci) <- f_mm_at n S (S * S) Ar Ai (3 * i + 2) Br Bi i Cr Ci i ;;
      Ok (Br, Bi, Cr, Ci))
    (sd_array n (S * S) (D / 3), sd_array n (S * S) (D / 3), sd_array n (S * (S * S)) (D / 3), sd_array n (S * (S * S)) (D / 3)) ;;
  Ok (Cr, Ci).
(** linear_transform.h:230-242 *)
Definition f_group4 (n S D : Z) (Ar Ai : list (sd Rops)) : res (list (sd Rops) * list (sd Rops)) :=
  assert_ (D mod 4 =? 0) ;;;
  '(_, _, _, _, Dr, Di) <- for_ 0 (D / 4) (fun i '(Br, Bi, Cr, Ci, Dr, Di) =>
      '(Br, Bi) <- f_mm_at n S S Ar Ai (4 * i + 1) Ar Ai (4 * i) Br Bi i ;;
      '(Cr, Ci) <- f_mm_at n S (S * S) Ar Ai (4 * i + 2) Br Bi i Cr Ci i ;;
      '(Dr, Di) <- f_mm_at n S (S * (S * S)) Ar Ai (4 * i + 3) Cr Ci i Dr Di i ;;
      Ok (Br, Bi, Cr, Ci, Dr, Di))
    (sd_array n (S * S) (D / 4), sd_array n (S * S) (D / 4), sd_array n (S * (S * S)) (D / 4), sd_array n (S * (S * S)) (D / 4),
     sd_array n (S * (S * (S * S))) (D / 4), sd_array n (S * (S * (S * S))) (D / 4)) ;;
  Ok (Dr, Di).
(** linear_transform.h:189-262 grouped2_serial_linear_transform ... grouped_serial_linear_transform *)
Definition f_grouped_lt (LOGQ LOGN LOGDELTA RM : Z) (rng : nat -> Z) (S D G : Z) (st : tables) (pos : nat) (Ar Ai : list (sd Rops)) (ct : sq) (skey : arr) (Act : sq)
    : res (tables * nat * sq) :=
  let n := 2 ^ (LOGN - 1) in
  if G =? 1 then f_serial_lt LOGQ LOGN LOGDELTA RM rng S D st pos Ar Ai ct skey Act
  else if G =? 2 then
    '(Br, Bi) <- f_group2 n S D Ar Ai ;; f_serial_lt LOGQ LOGN LOGDELTA RM rng (S * S) (D / 2) st pos Br Bi ct skey Act
  else if G =? 3 then
    '(Cr, Ci) <- f_group3 n S D Ar Ai ;; f_serial_lt LOGQ LOGN LOGDELTA RM rng (S * (S * S)) (D / 3) st pos Cr Ci ct skey Act
  else if G =? 4 then
    '(Dr, Di) <- f_group4 n S D Ar Ai ;; f_serial_lt LOGQ LOGN LOGDELTA RM rng (S * (S * (S * S))) (D / 4) st pos Dr Di ct skey Act
  else Abort.

(** the function pow of the C library *)
Context (lpow : R -> R -> R).
(** bootstrap.h:29-30: the factor 1 / pow(N, 1.0 / (LOGN - 1)); the conversions of N and LOGN-1 to double are exact *)
Definition f_cts_factor (LOGN : Z) : R := rnd F (1 / lpow (IZR (2 ^ LOGN)) (rnd F (1 / IZR (LOGN - 1))))%R.

(** bootstrap.h:24-31: the static tables of CoeffToSlot.  (Before initialisation the objects are zero; splitU0NR does
    not read them.) *)
Definition f_cts_tables (LOGN : Z) : res (list (sd Rops) * list (sd Rops)) :=
  let H := 2 ^ (LOGN - 1) in
  '(U0r, U0i) <- f_splitU0NR F LOGN (fst (new_tables LOGN)) (snd (new_tables LOGN)) ;;
  for_ 0 (LOGN - 1) (fun n '(U0r, U0i) =>
    a <- lget U0r n ;; a <- sd_transpose (K := Fops F) H 3 a ;; U0r <- lset U0r n a ;;
    b <- lget U0i n ;; b <- sd_transpose (K := Fops F) H 3 b ;; U0i <- lset U0i n b ;;
    b <- lget U0i n ;; b <- sd_negate (K := Fops F) H 3 b ;; U0i <- lset U0i n b ;;
    a <- lget U0r n ;; a <- sd_scale (K := Fops F) H 3 a (f_cts_factor LOGN) ;; U0r <- lset U0r n a ;;
    b <- lget U0i n ;; b <- sd_scale (K := Fops F) H 3 b (f_cts_factor LOGN) ;; U0i <- lset U0i n b ;;
    Ok (U0r, U0i)) (U0r, U0i).

(** bootstrap.h:14-49 CoeffToSlot.  [stc] are its static tables, [None] as long as is_init is false.  Returns the
    statics, the position in the stream of rand() and the two results. *)
Definition f_CoeffToSlot (LOGQ LOGN LOGDELTA RM : Z) (rng : nat -> Z) (G : Z) (stc st : tables) (pos : nat) (ct : sq) (s : arr) (ct0 ct1 : sq)
    : res (tables * tables * nat * sq * sq) :=
  let N := 2 ^ LOGN in
  '(U0r, U0i) <- (match stc with Some t => Ok t | None => f_cts_tables LOGN end) ;;
  '(st, pos, U0ct) <- f_grouped_lt LOGQ LOGN LOGDELTA RM rng 3 (LOGN - 1) G st pos U0r U0i ct s (sq_new LOGQ N) ;;
  s_conj <- conj_int N s (fresh N) ;;
  '(ckey, pos) <- swkgen LOGQ N RM rng s_conj s (sq_new (2 * LOGQ) N) pos ;;
  U0ct_conj <- conj_ct LOGQ N U0ct ckey (sq_new LOGQ N) ;;
  pti <- cts_pti LOGQ N ;;
  ct0 <- sq_copy LOGQ N ct0 U0ct ;; ct0 <- sq_add LOGQ N ct0 U0ct_conj ;;
  ct1 <- sq_copy LOGQ N ct1 U0ct ;; ct1 <- sq_sub LOGQ N ct1 U0ct_conj ;; ct1 <- sq_mul LOGQ N ct1 pti ;;
  Ok (Some (U0r, U0i), st, pos, ct0, ct1).

(** bootstrap.h:63-84: the static tables U0r, U0i, iU0r, iU0i of SlotToCoeff *)
Definition f_stc_tables (LOGN : Z) : res (list (sd Rops) * list (sd Rops) * list (sd Rops) * list (sd Rops)) :=
  let H := 2 ^ (LOGN - 1) in
  let fresh_arr := fst (new_tables LOGN) in
  '(Tr, Ti) <- f_splitU0NR F LOGN (fst (new_tables LOGN)) (snd (new_tables LOGN)) ;;
  '(U0r, U0i) <- for_ 0 (LOGN - 1) (fun i '(U0r, U0i) =>
      U0r <- sd_assign H U0r i Tr (LOGN - 2 - i) ;; U0i <- sd_assign H U0i i Ti (LOGN - 2 - i) ;; Ok (U0r, U0i)) (fresh_arr, fresh_arr) ;;
  '(iU0r, iU0i) <- for_ 0 (LOGN - 1) (fun i '(iU0r, iU0i) =>
      if i =? 0 then
        iU0r <- sd_assign H iU0r i Ti (LOGN - 2 - i) ;;
        a <- lget iU0r i ;; a <- sd_negate (K := Fops F) H 3 a ;; iU0r <- lset iU0r i a ;;
        iU0i <- sd_assign H iU0i i Tr (LOGN - 2 - i) ;; Ok (iU0r, iU0i)
      else
        iU0r <- sd_assign H iU0r i Tr (LOGN - 2 - i) ;; iU0i <- sd_assign H iU0i i Ti (LOGN - 2 - i) ;; Ok (iU0r, iU0i)) (fresh_arr, fresh_arr) ;;
  Ok (U0r, U0i, iU0r, iU0i).
(** bootstrap.h:51-90 SlotToCoeff *)
Definition f_SlotToCoeff (LOGQ LOGN LOGDELTA RM : Z) (rng : nat -> Z) (G : Z) (sts : stables) (st : tables) (pos : nat) (ct0 ct1 : sq) (s : arr) (ct_ : sq)
    : res (stables * tables * nat * sq) :=
  let N := 2 ^ LOGN in
  '(U0r, U0i, iU0r, iU0i) <- (match sts with Some t => Ok t | None => f_stc_tables LOGN end) ;;
  '(st, pos, ct_) <- f_grouped_lt LOGQ LOGN LOGDELTA RM rng 3 (LOGN - 1) G st pos U0r U0i ct0 s ct_ ;;
  '(st, pos, ct2) <- f_grouped_lt LOGQ LOGN LOGDELTA RM rng 3 (LOGN - 1) G st pos iU0r iU0i ct1 s (sq_new LOGQ N) ;;
  ct_ <- sq_add LOGQ N ct_ ct2 ;;
  Ok (Some (U0r, U0i, iU0r, iU0i), st, pos, ct_).
End FloatLin.

(** With exact arithmetic and the real power these are the functions of LinTrans.v and Bootstrap.v. *)
Lemma exact_linear_transform : f_linear_transform exact_fpu = linear_transform.  Proof. reflexivity. Qed.
Lemma exact_serial_lt : f_serial_lt exact_fpu = serial_lt.  Proof. reflexivity. Qed.
Lemma exact_grouped_lt : f_grouped_lt exact_fpu = grouped_lt.  Proof. reflexivity. Qed.
Lemma exact_CoeffToSlot : f_CoeffToSlot exact_fpu Rpower = CoeffToSlot.  Proof. reflexivity. Qed.
Lemma exact_SlotToCoeff : f_SlotToCoeff exact_fpu = SlotToCoeff.  Proof. reflexivity. Qed.
