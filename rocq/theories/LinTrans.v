(** Model of the linear transforms of include/HEAAN/linear_transform.h (lines 118-262).  The dense version (lines
    94-116) calls rot_ct with three arguments and does not compile when used; it is not modelled.
    [st] is the static table of ifftNR, [pos] the number of results of rand() used so far.  Objects that are written
    are different from all other arguments.  [double] is the type of real numbers and arithmetic is exact. *)
From Coq Require Import ZArith List Bool Reals.
From Verif Require Import Base ZQ RQ Conv Util Core Rot GSum Matrix DFT Encode.
Import ListNotations.
Open Scope Z_scope.

(** 1ULL << LOGDELTA *)
Definition one_shl (LOGDELTA : Z) : res Z := if (0 <=? LOGDELTA) && (LOGDELTA <? 64) then Ok (2 ^ LOGDELTA) else Undef.

(** linear_transform.h:124-144 linear_transform with one rotation key per diagonal.  [rkey] is the array of pointers
    to the keys, [None] a pointer that points to no object. *)
Definition lt_rkey (LOGQ LOGN LOGDELTA S : Z) (st : tables) (Ar Ai : sd Rops) (ct : sq) (rkey : list (option sq)) (Act : sq) : res (tables * sq) :=
  let N := 2 ^ LOGN in
  Act <- sq_setzero LOGQ N Act ;;
  for_ 0 S (fun s '(st, Act) =>
    zr <- get_zero Ar s ;;
    enter <- (if negb zr then Ok true else zi <- get_zero Ai s ;; Ok (negb zi)) ;;
    if (enter : bool) then
      vr <- lget (vec Ar) s ;; vi <- lget (vec Ai) s ;; Delta <- one_shl LOGDELTA ;;
      '(st, pt) <- encode LOGQ LOGN st vr vi Delta (rq_new LOGQ N) ;;
      let ct_rot := sq_new LOGQ N in
      o <- get_off Ar s ;;
      ct_rot <- (if negb (o =? 0) then
                   p <- lget rkey s ;; key <- (match p with Some k => Ok k | None => Undef end) ;;
                   rot_ct LOGQ N ct o key ct_rot
                 else Ok ct_rot) ;;
      ct_rot <- sq_mul LOGQ N ct_rot pt ;;
      Act <- sq_add LOGQ N Act ct_rot ;; Ok (st, Act)
    else Ok (st, Act)) (st, Act).

(** linear_transform.h:155-172: the body of the loop over the diagonals *)
Definition lt_step (LOGQ LOGN LOGDELTA RM : Z) (rnd : nat -> Z) (Ar Ai : sd Rops) (ct : sq) (skey : arr) (s : Z)
    (w : tables * nat * sq) : res (tables * nat * sq) :=
  let N := 2 ^ LOGN in
  let '(st, pos, Act) := w in
  o <- get_off Ar s ;; o' <- get_off Ai s ;; assert_ (o =? o') ;;;
  zr <- get_zero Ar s ;;
  skip <- (if (zr : bool) then get_zero Ai s else Ok false) ;;
  if (skip : bool) then Ok (st, pos, Act)
  else
    vr <- lget (vec Ar) s ;; vi <- lget (vec Ai) s ;; Delta <- one_shl LOGDELTA ;;
    '(st, pt) <- encode LOGQ LOGN st vr vi Delta (rq_new LOGQ N) ;;
    ct_rot <- sq_copy LOGQ N (sq_new LOGQ N) ct ;;
    '(pos, ct_rot) <-
      (if negb (o =? 0) then
         skey_rot <- rot_int N skey (fresh N) o ;;
         '(rkey, pos) <- swkgen LOGQ N RM rnd skey_rot skey (sq_new (2 * LOGQ) N) pos ;;
         ct_rot <- rot_ct LOGQ N ct o rkey ct_rot ;; Ok (pos, ct_rot)
       else Ok (pos, ct_rot)) ;;
    ct_rot <- sq_mul LOGQ N ct_rot pt ;;
    Act <- sq_add LOGQ N Act ct_rot ;; Ok (st, pos, Act).
(** linear_transform.h:147-173 linear_transform with the secret key *)
Definition linear_transform (LOGQ LOGN LOGDELTA RM : Z) (rnd : nat -> Z) (S : Z) (st : tables) (pos : nat) (Ar Ai : sd Rops) (ct : sq) (skey : arr) (Act : sq)
    : res (tables * nat * sq) :=
  Act <- sq_setzero LOGQ (2 ^ LOGN) Act ;;
  for_ 0 S (lt_step LOGQ LOGN LOGDELTA RM rnd Ar Ai ct skey) (st, pos, Act).

(** linear_transform.h:175-187 serial_linear_transform *)
Definition serial_lt (LOGQ LOGN LOGDELTA RM : Z) (rnd : nat -> Z) (S D : Z) (st : tables) (pos : nat) (Ar Ai : list (sd Rops)) (ct : sq) (skey : arr) (Act : sq)
    : res (tables * nat * sq) :=
  let N := 2 ^ LOGN in
  Act <- sq_copy LOGQ N Act ct ;;
  '(st, pos, Act, _) <- for_ 0 D (fun d '(st, pos, Act, ct_temp) =>
      ct_temp <- sq_copy LOGQ N ct_temp Act ;;
      a <- lget Ar d ;; b <- lget Ai d ;;
      '(st, pos, Act) <- linear_transform LOGQ LOGN LOGDELTA RM rnd S st pos a b ct_temp skey Act ;;
      Ok (st, pos, Act, ct_temp)) (st, pos, Act, sq_new LOGQ N) ;;
  Ok (st, pos, Act).

(** An array of D uninitialised SparseDiagonal objects, as in linear_transform.h:196-197 *)
Definition sd_array (n S D : Z) : list (sd Rops) := repeat (sd_new Rops n S) (Z.to_nat D).

(** linear_transform.h:200, 218, 219, 239-241: MatMul of element [i] of one array and element [j] of another into element
    [k] of a third. *)
Definition mm_at (n S1 S2 : Z) (Ar Ai : list (sd Rops)) (i : Z) (Br Bi : list (sd Rops)) (j : Z) (Cr Ci : list (sd Rops)) (k : Z)
    : res (list (sd Rops) * list (sd Rops)) :=
  ar <- lget Ar i ;; ai <- lget Ai i ;; br <- lget Br j ;; bi <- lget Bi j ;; cr <- lget Cr k ;; ci <- lget Ci k ;;
  '(cr, ci) <- matmul2 (K := Rops) n S1 S2 ar ai br bi cr ci ;;
  Cr <- lset Cr k cr ;; Ci <- lset Ci k ci ;; Ok (Cr, Ci).

(** linear_transform.h:195-201, the products of pairs; D is the number of matrices.  Divisions of nonnegative numbers. *)
Definition group2 (n S D : Z) (Ar Ai : list (sd Rops)) : res (list (sd Rops) * list (sd Rops)) :=
  assert_ (D mod 2 =? 0) ;;;
  for_ 0 (D / 2) (fun i '(Br, Bi) => mm_at n S S Ar Ai (2 * i + 1) Ar Ai (2 * i) Br Bi i)
    (sd_array n (S * S) (D / 2), sd_array n (S * S) (D / 2)).
(** linear_transform.h:211-220 *)
Definition group3 (n S D : Z) (Ar Ai : list (sd Rops)) : res (list (sd Rops) * list (sd Rops)) :=
  assert_ (D mod 3 =? 0) ;;;
  '(_, _, Cr, Ci) <- for_ 0 (D / 3) (fun i '(Br, Bi, Cr, Ci) =>
      '(Br, Bi) <- mm_at n S S Ar Ai (3 * i + 1) Ar Ai (3 * i) Br Bi i ;;
      '(Cr, Ci) <- mm_at n S (S * S) Ar Ai (3 * i + 2) Br Bi i Cr Ci i ;;
      Ok (Br, Bi, Cr, Ci))
    (sd_array n (S * S) (D / 3), sd_array n (S * S) (D / 3), sd_array n (S * (S * S)) (D / 3), sd_array n (S * (S * S)) (D / 3)) ;;
  Ok (Cr, Ci).
(** linear_transform.h:230-242 *)
Definition group4 (n S D : Z) (Ar Ai : list (sd Rops)) : res (list (sd Rops) * list (sd Rops)) :=
  assert_ (D mod 4 =? 0) ;;;
  '(_, _, _, _, Dr, Di) <- for_ 0 (D / 4) (fun i '(Br, Bi, Cr, Ci, Dr, Di) =>
      '(Br, Bi) <- mm_at n S S Ar Ai (4 * i + 1) Ar Ai (4 * i) Br Bi i ;;
      '(Cr, Ci) <- mm_at n S (S * S) Ar Ai (4 * i + 2) Br Bi i Cr Ci i ;;
      '(Dr, Di) <- mm_at n S (S * (S * S)) Ar Ai (4 * i + 3) Cr Ci i Dr Di i ;;
      Ok (Br, Bi, Cr, Ci, Dr, Di))
    (sd_array n (S * S) (D / 4), sd_array n (S * S) (D / 4), sd_array n (S * (S * S)) (D / 4), sd_array n (S * (S * S)) (D / 4),
     sd_array n (S * (S * (S * S))) (D / 4), sd_array n (S * (S * (S * S))) (D / 4)) ;;
  Ok (Dr, Di).
(** linear_transform.h:189-262 grouped2_serial_linear_transform ... grouped_serial_linear_transform *)
Definition grouped_lt (LOGQ LOGN LOGDELTA RM : Z) (rnd : nat -> Z) (S D G : Z) (st : tables) (pos : nat) (Ar Ai : list (sd Rops)) (ct : sq) (skey : arr) (Act : sq)
    : res (tables * nat * sq) :=
  let n := 2 ^ (LOGN - 1) in
  if G =? 1 then serial_lt LOGQ LOGN LOGDELTA RM rnd S D st pos Ar Ai ct skey Act
  else if G =? 2 then
    '(Br, Bi) <- group2 n S D Ar Ai ;; serial_lt LOGQ LOGN LOGDELTA RM rnd (S * S) (D / 2) st pos Br Bi ct skey Act
  else if G =? 3 then
    '(Cr, Ci) <- group3 n S D Ar Ai ;; serial_lt LOGQ LOGN LOGDELTA RM rnd (S * (S * S)) (D / 3) st pos Cr Ci ct skey Act
  else if G =? 4 then
    '(Dr, Di) <- group4 n S D Ar Ai ;; serial_lt LOGQ LOGN LOGDELTA RM rnd (S * (S * (S * S))) (D / 4) st pos Dr Di ct skey Act
  else Abort.
