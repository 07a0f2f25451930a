(** Model of include/HEAAN/matrix/matrix.h, of mat_to_vecs (linear_transform.h) and of include/impl/message.h.
    [double] values are elements of an arbitrary structure with ring operations ([ops]): the operations are exact,
    rounding of floating-point arithmetic is not modelled.  [int] index arithmetic is checked for overflow.
    print and print_max are not modelled. *)
From Coq Require Import ZArith List Bool.
From Verif Require Import Base GSum.
Import ListNotations.
Open Scope Z_scope.

(** ** Arrays of cells of any type; [None] is an uninitialised cell (as [rd], [wr], [fresh] of Base.v). *)
Definition grd {A} (l : list (option A)) (i : Z) : res A :=
  c <- lget l i ;; match c with Some x => Ok x | None => Undef end.
Definition gwr {A} (l : list (option A)) (i : Z) (x : A) : res (list (option A)) := lset l i (Some x).
Definition gfresh (A : Type) (n : Z) : list (option A) := repeat None (Z.to_nat n).

(** C [a % b] on [int]; undefined for b = 0. *)
Definition imod (a b : Z) : res Z := if b =? 0 then Undef else Ok (Z.rem a b).

(** matrix.h:43-47 SparseDiagonal<N,S> *)
Record sd (F : Type) := mksd { vec : list (list (option F)); off : list (option Z); zro : list (option bool) }.
Arguments mksd {F}. Arguments vec {F}. Arguments off {F}. Arguments zro {F}.

Definition sd_new (F : Type) (N S : Z) : sd F :=
  mksd (repeat (gfresh F N) (Z.to_nat S)) (gfresh Z S) (gfresh bool S).

(** Accesses to the fields. *)
Definition get_vec {F} (A : sd F) (s i : Z) : res F := row <- lget (vec A) s ;; grd row i.
Definition get_off {F} (A : sd F) (s : Z) : res Z := grd (off A) s.
Definition get_zero {F} (A : sd F) (s : Z) : res bool := grd (zro A) s.
Definition set_vec {F} (A : sd F) (s i : Z) (x : F) : res (sd F) :=
  row <- lget (vec A) s ;; row <- gwr row i x ;; v <- lset (vec A) s row ;; Ok (mksd v (off A) (zro A)).
Definition set_off {F} (A : sd F) (s o : Z) : res (sd F) := l <- gwr (off A) s o ;; Ok (mksd (vec A) l (zro A)).
Definition set_zero {F} (A : sd F) (s : Z) (b : bool) : res (sd F) := l <- gwr (zro A) s b ;; Ok (mksd (vec A) (off A) l).

(** matrix.h:50-58 operator= *)
Definition sd_copy {F} (N S : Z) (D other : sd F) : res (sd F) :=
  for_ 0 S (fun s D =>
    D <- for_ 0 N (fun i D => x <- get_vec other s i ;; set_vec D s i x) D ;;
    o <- get_off other s ;; D <- set_off D s o ;;
    z <- get_zero other s ;; set_zero D s z) D.

(** The test [(j - i - off[s]) % N == 0] of matrix.h:62 and 88. *)
Definition on_diag (N i j o : Z) : res bool :=
  d <- int_ (j - i) ;; d <- int_ (d - o) ;; m <- imod d N ;; Ok (m =? 0).

Section WithOps.
Context {K : ops}.
Notation sdK := (sd K).
Open Scope num_scope.

(** matrix.h:60-65 get_element; the early return is the accumulated [Some]. *)
Definition get_element (N S : Z) (A : sdK) (i j : Z) : res K :=
  r <- for_ 0 S (fun s (r : option K) =>
         match r with
         | Some _ => Ok r
         | None => o <- get_off A s ;; b <- on_diag N i j o ;;
                   if (b : bool) then x <- get_vec A s i ;; Ok (Some x) else Ok None
         end) None ;;
  Ok (match r with Some x => x | None => 0 end).

(** matrix.h:78-84 setzero *)
Definition sd_setzero (N S : Z) (A : sdK) : res sdK :=
  for_ 0 S (fun s A =>
    A <- for_ 0 N (fun i A => set_vec A s i (0 : K)) A ;;
    A <- set_zero A s true ;;
    set_off A s 0) A.

(** matrix.h:86-94 set_element; the flag says that the early return has been taken. *)
Definition set_element (N S : Z) (A : sdK) (i j : Z) (v : K) : res sdK :=
  '(A, done) <- for_ 0 S (fun s '(A, done) =>
      if (done : bool) then Ok (A, true)
      else o <- get_off A s ;; b <- on_diag N i j o ;;
           if (b : bool) then A <- set_vec A s i v ;; A <- set_zero A s false ;; Ok (A, true)
           else Ok (A, false)) (A, false) ;;
  if done then Ok A else Abort.

(** matrix.h:96-102 operator+= and 104-110 operator-=.  Each cell is read and written once, so the argument may be
    the object itself. *)
Definition sd_add (N S : Z) (A B : sdK) : res sdK :=
  for_ 0 S (fun s A =>
    a <- get_off A s ;; b <- get_off B s ;; assert_ (a =? b)%Z ;;;
    for_ 0 N (fun i A => x <- get_vec A s i ;; y <- get_vec B s i ;; set_vec A s i (x + y)) A) A.
Definition sd_sub (N S : Z) (A B : sdK) : res sdK :=
  for_ 0 S (fun s A =>
    a <- get_off A s ;; b <- get_off B s ;; assert_ (a =? b)%Z ;;;
    for_ 0 N (fun i A => x <- get_vec A s i ;; y <- get_vec B s i ;; set_vec A s i (x - y)) A) A.

(** matrix.h:112-116 operator*= *)
Definition sd_scale (N S : Z) (A : sdK) (a : K) : res sdK :=
  for_ 0 S (fun s A => for_ 0 N (fun i A => x <- get_vec A s i ;; set_vec A s i (x * a)) A) A.

(** matrix.h:118-130 transpose *)
Definition sd_transpose (N S : Z) (A : sdK) : res sdK :=
  for_ 0 S (fun s A =>
    o <- get_off A s ;;
    if (o >? 0)%Z then
      temp <- for_ 0 N (fun i temp =>
                m <- int_ (N - o) ;;
                x <- get_vec A s i ;;
                if (i <? m)%Z then k <- int_ (o + i) ;; gwr temp k x
                else gwr temp (i - m)%Z x) (gfresh K N) ;;
      A <- for_ 0 N (fun i A => x <- grd temp i ;; set_vec A s i x) A ;;
      m <- int_ (N - o) ;;
      set_off A s m
    else Ok A) A.

(** matrix.h:132-136 negate *)
Definition sd_negate (N S : Z) (A : sdK) : res sdK :=
  for_ 0 S (fun s A => for_ 0 N (fun i A => x <- get_vec A s i ;; set_vec A s i (- x)) A) A.

(** matrix.h:7-22 matrix_product on dense N x N matrices, given as lists of rows. *)
Definition mrd (A : list (list (option K))) (i j : Z) : res K := row <- lget A i ;; grd row j.
Definition mwr (A : list (list (option K))) (i j : Z) (x : K) : res (list (list (option K))) :=
  row <- lget A i ;; row <- gwr row j x ;; lset A i row.
Definition matrix_product (N : Z) (Ar Ai Br Bi Cr Ci : list (list (option K)))
    : res (list (list (option K)) * list (list (option K))) :=
  for_ 0 N (fun i '(Cr, Ci) =>
    for_ 0 N (fun j '(Cr, Ci) =>
      Cr <- mwr Cr i j 0 ;; Ci <- mwr Ci i j 0 ;;
      for_ 0 N (fun k '(Cr, Ci) =>
        c <- mrd Cr i j ;; ar <- mrd Ar i k ;; br <- mrd Br k j ;; ai <- mrd Ai i k ;; bi <- mrd Bi k j ;;
        Cr <- mwr Cr i j (c + (ar * br - ai * bi)) ;;
        c <- mrd Ci i j ;;
        Ci <- mwr Ci i j (c + (ar * bi + ai * br)) ;;
        Ok (Cr, Ci)) (Cr, Ci)) (Cr, Ci)) (Cr, Ci).

(** linear_transform.h:86-92 mat_to_vecs *)
Definition mat_to_vecs (N : Z) (A V : list (list (option K))) : res (list (list (option K))) :=
  for_ 0 N (fun i V =>
    for_ 0 N (fun j V => k <- int_ (i + j) ;; k <- imod k N ;; x <- mrd A j k ;; mwr V i j x) V) V.

(** matrix.h:142-160 matrix_vector_product (three diagonals, zero flags not used).  [n] is N/2; the matrices are
    passed by value. *)
Definition mvp3 (n : Z) (zr zi : list (option K)) (Ar Ai : sdK) (Azr Azi : list (option K))
    : res (list (option K) * list (option K)) :=
  for_ 0 n (fun i '(Azr, Azi) =>
    '(sumr, sumi) <- for_ 0 3 (fun k '(sumr, sumi) =>
        o <- get_off Ar k ;; t <- int_ (i + o) ;; jr <- imod t n ;;
        o <- get_off Ai k ;; t <- int_ (i + o) ;; ji <- imod t n ;;
        ar <- get_vec Ar k i ;; ai <- get_vec Ai k i ;;
        zrj <- grd zr jr ;; zij <- grd zi ji ;;
        Ok (sumr + (ar * zrj - ai * zij), sumi + (ar * zij + ai * zrj))) (0, 0) ;;
    Azr <- gwr Azr i sumr ;; Azi <- gwr Azi i sumi ;; Ok (Azr, Azi)) (Azr, Azi).

(** matrix.h:176-179: search of the diagonal with offset [off3] among the first [count]; -1 if none. *)
Definition find_off (C : sdK) (count off3 : Z) : res Z :=
  for_ 0 count (fun k s3 =>
    if (s3 =? -1)%Z then o <- get_off C k ;; Ok (if (o =? off3)%Z then k else -1)%Z else Ok s3) (-1)%Z.

(** matrix.h:166-189 MatMul, real.  [C] is a different object from [A] and [B]. *)
Definition matmul (N S1 S2 : Z) (A B C : sdK) : res sdK :=
  C <- sd_setzero N (S1 * S2)%Z C ;;
  '(C, _) <- for_ 0 S1 (fun s1 '(C, count) =>
    for_ 0 S2 (fun s2 '(C, count) =>
      off1 <- get_off A s1 ;; off2 <- get_off B s2 ;;
      t <- int_ (off1 + off2) ;; off3 <- imod t N ;;
      s3 <- find_off C count off3 ;;
      '(C, s3, count) <-
         (if (s3 =? -1)%Z then
            C <- set_zero C count false ;; C <- set_off C count off3 ;; Ok (C, count, (count + 1)%Z)
          else Ok (C, s3, count)) ;;
      C <- for_ 0 N (fun i C =>
             c <- get_vec C s3 i ;; a <- get_vec A s1 i ;;
             t <- int_ (i + off1) ;; k <- imod t N ;; b <- get_vec B s2 k ;;
             set_vec C s3 i (c + a * b)) C ;;
      Ok (C, count)) (C, count)) (C, 0%Z) ;;
  Ok C.

(** matrix.h:206-211: the search of the complex version also asserts equality of the offsets. *)
Definition find_off2 (Cr Ci : sdK) (count off3 : Z) : res Z :=
  for_ 0 count (fun k s3 =>
    if (s3 =? -1)%Z then
      o <- get_off Cr k ;; o' <- get_off Ci k ;; assert_ (o =? o')%Z ;;;
      Ok (if (o =? off3)%Z then k else -1)%Z
    else Ok s3) (-1)%Z.

(** matrix.h:191-225 MatMul, complex.  [&&] and [||] evaluate their right operand only when needed. *)
Definition matmul2 (N S1 S2 : Z) (Ar Ai Br Bi Cr Ci : sdK) : res (sdK * sdK) :=
  Cr <- sd_setzero N (S1 * S2)%Z Cr ;; Ci <- sd_setzero N (S1 * S2)%Z Ci ;;
  '(Cr, Ci, _) <- for_ 0 S1 (fun s1 '(Cr, Ci, count) =>
    for_ 0 S2 (fun s2 '(Cr, Ci, count) =>
      z <- get_zero Ar s1 ;; za <- (if (z : bool) then get_zero Ai s1 else Ok false) ;;
      zab <- (if (za : bool) then Ok true
              else z <- get_zero Br s2 ;; if (z : bool) then get_zero Bi s2 else Ok false) ;;
      if (zab : bool) then Ok (Cr, Ci, count) else
      o <- get_off Ar s1 ;; o' <- get_off Ai s1 ;; assert_ (o =? o')%Z ;;;
      o <- get_off Br s2 ;; o' <- get_off Bi s2 ;; assert_ (o =? o')%Z ;;;
      off1 <- get_off Ar s1 ;; off2 <- get_off Br s2 ;;
      t <- int_ (off1 + off2) ;; off3 <- imod t N ;;
      s3 <- find_off2 Cr Ci count off3 ;;
      '(Cr, Ci, s3, count) <-
         (if (s3 =? -1)%Z then
            Cr <- set_zero Cr count false ;; Ci <- set_zero Ci count false ;;
            Cr <- set_off Cr count off3 ;; Ci <- set_off Ci count off3 ;; Ok (Cr, Ci, count, (count + 1)%Z)
          else Ok (Cr, Ci, s3, count)) ;;
      '(Cr, Ci) <- for_ 0 N (fun i '(Cr, Ci) =>
             t <- int_ (i + off1) ;; k <- imod t N ;;
             ar <- get_vec Ar s1 i ;; ai <- get_vec Ai s1 i ;; br <- get_vec Br s2 k ;; bi <- get_vec Bi s2 k ;;
             c <- get_vec Cr s3 i ;; Cr <- set_vec Cr s3 i (c + ar * br) ;;
             c <- get_vec Cr s3 i ;; Cr <- set_vec Cr s3 i (c - ai * bi) ;;
             c <- get_vec Ci s3 i ;; Ci <- set_vec Ci s3 i (c + ar * bi) ;;
             c <- get_vec Ci s3 i ;; Ci <- set_vec Ci s3 i (c + ai * br) ;;
             Ok (Cr, Ci)) (Cr, Ci) ;;
      Ok (Cr, Ci, count)) (Cr, Ci, count)) (Cr, Ci, 0%Z) ;;
  Ok (Cr, Ci).

(** matrix.h:230-243 RemoveClutter *)
Definition sd_remove_clutter (N S1 S2 : Z) (A B : sdK) : res sdK :=
  assert_ (S2 <? S1)%Z ;;;
  B <- sd_setzero N S2 B ;;
  B <- for_ 0 S2 (fun s B =>
         o <- get_off A s ;; B <- set_off B s o ;;
         B <- set_zero B s false ;;
         for_ 0 N (fun i B => x <- get_vec A s i ;; set_vec B s i x) B) B ;;
  for_ S2 S1 (fun s _ => z <- get_zero A s ;; assert_ (z : bool)) tt ;;;
  Ok B.

(** ** include/impl/message.h: a Message<LOGN> is its two arrays [r] and [i] of n = 2^(LOGN-1) doubles. *)
Definition msg := (list (option K) * list (option K))%type.

(** message.h:15-20 default constructor *)
Definition msg_new (n : Z) : res msg :=
  for_ 0 n (fun i '(r, im) => r <- gwr r i (0 : K) ;; im <- gwr im i (0 : K) ;; Ok (r, im)) (gfresh K n, gfresh K n).

(** message.h:30-36 add, 38-44 sub, 46-52 mul.  [z3] may be one of the inputs in add and sub; in mul it is a
    different object. *)
Definition msg_add (n : Z) (z1 z2 z3 : msg) : res msg :=
  for_ 0 n (fun i '(r, im) =>
    a <- grd (fst z1) i ;; b <- grd (fst z2) i ;; r <- gwr r i (a + b) ;;
    a <- grd (snd z1) i ;; b <- grd (snd z2) i ;; im <- gwr im i (a + b) ;; Ok (r, im)) z3.
Definition msg_sub (n : Z) (z1 z2 z3 : msg) : res msg :=
  for_ 0 n (fun i '(r, im) =>
    a <- grd (fst z1) i ;; b <- grd (fst z2) i ;; r <- gwr r i (a - b) ;;
    a <- grd (snd z1) i ;; b <- grd (snd z2) i ;; im <- gwr im i (a - b) ;; Ok (r, im)) z3.
Definition msg_mul (n : Z) (z1 z2 z3 : msg) : res msg :=
  for_ 0 n (fun i '(r, im) =>
    a <- grd (fst z1) i ;; b <- grd (fst z2) i ;; c <- grd (snd z1) i ;; d <- grd (snd z2) i ;;
    r <- gwr r i (a * b - c * d) ;; im <- gwr im i (a * d + c * b) ;; Ok (r, im)) z3.
(** message.h:46-52 mul with [z3] the same object as [z1]: the second line reads the new z1.r[i]. *)
Definition msg_mul_self (n : Z) (z1 z2 : msg) : res msg :=
  for_ 0 n (fun i '(r, im) =>
    a <- grd r i ;; b <- grd (fst z2) i ;; c <- grd im i ;; d <- grd (snd z2) i ;;
    r <- gwr r i (a * b - c * d) ;;
    a <- grd r i ;;
    im <- gwr im i (a * d + c * b) ;; Ok (r, im)) z1.

(** message.h:54-61 square_sum *)
Definition square_sum (n : Z) (z : msg) : res K :=
  for_ 0 n (fun i sum => a <- grd (fst z) i ;; b <- grd (snd z) i ;; Ok (sum + (a * a + b * b))) 0.

(** message.h:88-104 matrix_vector_product, [Kd] consecutive diagonals given as messages. *)
Definition msg_mvp_dense (n Kd : Z) (z : msg) (A : list msg) (Az : msg) : res msg :=
  for_ 0 n (fun i '(r, im) =>
    '(sumr, sumi) <- for_ 0 Kd (fun k '(sumr, sumi) =>
        t <- int_ (i + k) ;; j <- imod t n ;;
        Ak <- lget A k ;;
        ar <- grd (fst Ak) i ;; ai <- grd (snd Ak) i ;; zr <- grd (fst z) j ;; zi <- grd (snd z) j ;;
        Ok (sumr + (ar * zr - ai * zi), sumi + (ar * zi + ai * zr))) (0, 0) ;;
    r <- gwr r i sumr ;; im <- gwr im i sumi ;; Ok (r, im)) Az.

(** message.h:106-126 matrix_vector_product, SparseDiagonal with zero flags. *)
Definition msg_mvp (n S : Z) (z : msg) (Ar Ai : sdK) (Az : msg) : res msg :=
  for_ 0 n (fun i '(r, im) =>
    '(sumr, sumi) <- for_ 0 S (fun k '(sumr, sumi) =>
        zr <- get_zero Ar k ;;
        use <- (if negb zr then Ok true else zi <- get_zero Ai k ;; Ok (negb zi)) ;;
        if (use : bool) then
          o <- get_off Ar k ;; t <- int_ (i + o) ;; jr <- imod t n ;;
          o <- get_off Ai k ;; t <- int_ (i + o) ;; ji <- imod t n ;;
          ar <- get_vec Ar k i ;; ai <- get_vec Ai k i ;;
          zrj <- grd (fst z) jr ;; zij <- grd (snd z) ji ;;
          Ok (sumr + (ar * zrj - ai * zij), sumi + (ar * zij + ai * zrj))
        else Ok (sumr, sumi)) (0, 0) ;;
    r <- gwr r i sumr ;; im <- gwr im i sumi ;; Ok (r, im)) Az.

(** message.h:128-139 aggregate.  The inputs have n = N/2 slots, the output N = 2n. *)
Definition aggregate (n : Z) (z1 z2 z3 : msg) : res msg :=
  for_ 0 (2 * n) (fun i '(r, im) =>
    x <- (if (i <? n)%Z then grd (fst z1) i else grd (fst z2) i) ;; r <- gwr r i x ;;
    x <- (if (i <? n)%Z then grd (snd z1) i else grd (snd z2) i) ;; im <- gwr im i x ;; Ok (r, im)) z3.
End WithOps.
