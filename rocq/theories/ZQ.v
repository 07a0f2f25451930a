(** Model of include/HEAAN/arith/Z_Q.h and of the helpers it uses from include/util/util.h.

    A [Z_Q<LOGQ>] object is its array [data] of [(LOGQ+63)/64] cells (Z_Q.h:25).  [LOGQ] is a template
    parameter, here an ordinary argument.  Loop counters and index expressions of C type [int] are
    exact integers: they are bounded by the number of words of an object. *)
From Coq Require Import ZArith List Bool.
From Verif Require Import Base.
Import ListNotations.
Open Scope Z_scope.

(** util.h:42-45 [min] *)
Definition min_ (a b : Z) : Z := if a <? b then a else b.

(** Z_Q.h:25,32: number of words, [(LOGQ+63)/64] (C division truncates). *)
Definition len (LOGQ : Z) : Z := Z.quot (LOGQ + 63) 64.

(** Z_Q.h:26 default constructor: uninitialised words. *)
Definition zq_new (LOGQ : Z) : arr := fresh (len LOGQ).

(** Z_Q.h:116-124 copy constructor and operator=: [data[i]=B.data[i]] for all i.  [D] is the
    destination object.  Copying an object onto itself reads and writes the same words, which is the
    same loop with [D = B]. *)
Definition zq_copy (LOGQ : Z) (D B : arr) : res arr :=
  for_ 0 (len LOGQ) (fun i D => x <- rd B i ;; wr D i x) D.

(** Z_Q.h:202-208 remove_clutter *)
Definition remove_clutter (LOGQ : Z) (D : arr) : res arr :=
  let length := len LOGQ in
  let r := 64 * length - LOGQ in
  x <- rd D (length - 1) ;;
  x <- wshl x r ;;
  D <- wr D (length - 1) x ;;
  x <- rd D (length - 1) ;;
  x <- wshr x r ;;
  wr D (length - 1) x.

(** Z_Q.h:190-200 operator+=.  [alias] says that the argument [A] is the object itself ([x += x]), in
    which case every read of [A.data] reads the current contents of [data]. *)
Definition zq_add_gen (alias : bool) (LOGQ : Z) (D A : arr) : res arr :=
  let length := len LOGQ in
  '(D, _) <- for_ 0 length (fun i '(D, c) =>
       x <- rd D i ;;
       y <- rd (if alias then D else A) i ;;
       D <- wr D i (wadd x y) ;;
       x <- rd D i ;;
       y <- rd (if alias then D else A) i ;;
       let c_next := x <? y in
       D <- (if (c : bool) then x <- rd D i ;; wr D i (wadd x 1) else Ok D) ;;
       x <- rd D i ;;
       let c := (c && (x =? 0)) || c_next in
       Ok (D, c)) (D, false) ;;
  remove_clutter LOGQ D.

(** [D += A] for two different objects. *)
Definition zq_add := zq_add_gen false.
(** [D += D]. *)
Definition zq_add_self (LOGQ : Z) (D : arr) : res arr := zq_add_gen true LOGQ D D.

(** Z_Q.h:211-223 negate.  The second loop stops as soon as the carry is gone: its guard
    [c && i < length] is the [if] around the body of a loop over the same range. *)
Definition zq_negate (LOGQ : Z) (D : arr) : res arr :=
  let length := len LOGQ in
  let ones := W - 1 in
  D <- for_ 0 length (fun i D => x <- rd D i ;; wr D i (Z.lxor x ones)) D ;;
  D <- remove_clutter LOGQ D ;;
  x <- rd D 0 ;;
  D <- wr D 0 (wadd x 1) ;;
  x <- rd D 0 ;;
  let c := x =? 0 in
  '(D, _) <- for_ 1 length (fun i '(D, c) =>
       if (c : bool) then
         x <- rd D i ;;
         D <- wr D i (wadd x 1) ;;
         x <- rd D i ;;
         Ok (D, x =? 0)
       else Ok (D, c)) (D, c) ;;
  remove_clutter LOGQ D.

(** Z_Q.h:225-229 setzero *)
Definition zq_setzero (LOGQ : Z) (D : arr) : res arr :=
  for_ 0 (len LOGQ) (fun i D => wr D i 0) D.

(** Z_Q.h:231-236 operator-=; the argument is copied first, so [A] may be the object itself. *)
Definition zq_sub (LOGQ : Z) (D A : arr) : res arr :=
  negA <- zq_copy LOGQ (zq_new LOGQ) A ;;
  negA <- zq_negate LOGQ negA ;;
  zq_add LOGQ D negA.

(** Z_Q.h:238-250 mul; returns (lo, hi).  [a] and [b] are passed by value, so the outputs may be the
    storage the inputs came from. *)
Definition zq_mul64 (a b : Z) : res (Z * Z) :=
  ah <- wshr a 32 ;; al <- wshl a 32 ;; al <- wshr al 32 ;;
  bh <- wshr b 32 ;; bl <- wshl b 32 ;; bl <- wshr bl 32 ;;
  let cll := wmul al bl in
  let clh := wmul al bh in
  let chl := wmul ah bl in
  let chh := wmul ah bh in
  t1 <- wshr cll 32 ;; t2 <- wshl clh 32 ;; t2 <- wshr t2 32 ;;
  let chl := wadd chl (wadd t1 t2) in
  t3 <- wshr chl 32 ;; t4 <- wshr clh 32 ;;
  let chh := wadd chh (wadd t3 t4) in
  let hi := chh in
  t5 <- wshl cll 32 ;; t5 <- wshr t5 32 ;; t6 <- wshl chl 32 ;;
  let lo := wadd t5 t6 in
  Ok (lo, hi).

(** Z_Q.h:252-265 operator*=(uint64_t) *)
Definition zq_mul_word (LOGQ : Z) (D : arr) (a : Z) : res arr :=
  let length := len LOGQ in
  Hi <- wr (zq_new LOGQ) 0 0 ;;
  '(D, Hi) <- for_ 0 length (fun i '(D, Hi) =>
       x <- rd D i ;;
       if i <? length - 1 then
         '(lo, hi) <- zq_mul64 x a ;;
         Hi <- wr Hi (i + 1) hi ;;
         D <- wr D i lo ;;
         Ok (D, Hi)
       else
         '(lo, _) <- zq_mul64 x a ;;
         D <- wr D i lo ;;
         Ok (D, Hi)) (D, Hi) ;;
  zq_add LOGQ D Hi.

(** Z_Q.h:267-281 operator*=(const Z_Q&).  [*this] is only written by the last copy, so [B] may be the
    object itself. *)
Definition zq_mul (LOGQ : Z) (D B : arr) : res arr :=
  let length := len LOGQ in
  sum <- zq_setzero LOGQ (zq_new LOGQ) ;;
  '(sum, _) <- for_ 0 length (fun i '(sum, ABi) =>
       ABi <- zq_copy LOGQ ABi D ;;
       b <- rd B i ;;
       ABi <- zq_mul_word LOGQ ABi b ;;
       ABi <- for_down (length - 1) 0 (fun j ABi =>
                if i <=? j then x <- rd ABi (j - i) ;; wr ABi j x
                else wr ABi j 0) ABi ;;
       sum <- zq_add LOGQ sum ABi ;;
       Ok (sum, ABi)) (sum, zq_new LOGQ) ;;
  zq_copy LOGQ D sum.

(** Z_Q.h:284-289 is_bigger_than_halfQ *)
Definition zq_is_big (LOGQ : Z) (D : arr) : res bool :=
  let length := len LOGQ in
  let r := LOGQ - (length - 1) * 64 in
  x <- rd D (length - 1) ;;
  x <- wshr x (r - 1) ;;
  Ok (x =? 1).

(** Z_Q.h:292-309 resize.  [Ato] is the destination object (different from the source). *)
Definition zq_resize (LOGQfrom LOGQto : Z) (Afrom Ato : arr) : res arr :=
  is_negative <- zq_is_big LOGQfrom Afrom ;;
  Ato <- (if (is_negative : bool) then
            Afrom_abs <- zq_copy LOGQfrom (zq_new LOGQfrom) Afrom ;;
            Afrom_abs <- zq_negate LOGQfrom Afrom_abs ;;
            Ato <- zq_setzero LOGQto Ato ;;
            Ato <- for_ 0 (min_ (len LOGQfrom) (len LOGQto)) (fun i Ato =>
                     x <- rd Afrom_abs i ;; wr Ato i x) Ato ;;
            zq_negate LOGQto Ato
          else
            Ato <- zq_setzero LOGQto Ato ;;
            for_ 0 (min_ (len LOGQfrom) (len LOGQto)) (fun i Ato =>
              x <- rd Afrom i ;; wr Ato i x) Ato) ;;
  remove_clutter LOGQto Ato.

(** Z_Q.h:292-309 resize with both arguments the same object: every read of [Afrom] after
    [Ato.setzero()] sees the zeroed words. *)
Definition zq_resize_self (LOGQ : Z) (D : arr) : res arr :=
  is_negative <- zq_is_big LOGQ D ;;
  D <- (if (is_negative : bool) then
          Afrom_abs <- zq_copy LOGQ (zq_new LOGQ) D ;;
          Afrom_abs <- zq_negate LOGQ Afrom_abs ;;
          D <- zq_setzero LOGQ D ;;
          D <- for_ 0 (min_ (len LOGQ) (len LOGQ)) (fun i D =>
                 x <- rd Afrom_abs i ;; wr D i x) D ;;
          zq_negate LOGQ D
        else
          D <- zq_setzero LOGQ D ;;
          for_ 0 (min_ (len LOGQ) (len LOGQ)) (fun i D => x <- rd D i ;; wr D i x) D) ;;
  remove_clutter LOGQ D.

(** Z_Q.h:311-321 operator double, up to the conversion of the (sign, 64-bit word) pair to double:
    returns the integer whose image under the uint64_t-to-double conversion (and exact negation) is
    the result. *)
Definition zq_to_double_int (LOGQ : Z) (D : arr) : res Z :=
  val <- zq_copy LOGQ (zq_new LOGQ) D ;;
  is_negative <- zq_is_big LOGQ val ;;
  val <- (if (is_negative : bool) then zq_negate LOGQ val else Ok val) ;;
  w <- rd val 0 ;;
  Ok (if is_negative then - w else w).

(** Z_Q.h:323-331 max_valid_digit.  The early [return i] is the accumulated [Some i]. *)
Definition zq_max_valid_digit (LOGQ : Z) (D : arr) : res Z :=
  big <- zq_is_big LOGQ D ;;
  let invalid_digit := if (big : bool) then 4294967295 else 0 in
  r <- for_down (len LOGQ - 1) 0 (fun i (r : option Z) =>
         match r with
         | Some _ => Ok r
         | None => x <- rd D i ;; Ok (if x =? invalid_digit then None else Some i)
         end) None ;;
  Ok (match r with Some i => i | None => -1 end).

(** Z_Q.h:59-92 shift_right.  [B] is the destination object. *)
Definition zq_shift_right (LOGQfr LOGQto : Z) (A B : arr) : res arr :=
  if LOGQfr =? LOGQto then
    for_ 0 (len LOGQto) (fun i B => x <- rd A i ;; wr B i x) B
  else
    let q := Z.quot (LOGQfr - LOGQto) 64 in
    let r := Z.rem (LOGQfr - LOGQto) 64 in
    B <- for_ 0 (len LOGQto) (fun i B => x <- rd A (i + q) ;; wr B i x) B ;;
    B <- (if r >? 0 then
            Bextra <- (if negb (Z.quot (LOGQto + r + 63) 64 =? Z.quot (LOGQto + 63) 64)
                       then rd A (Z.quot (LOGQto + 63) 64 + q) else Ok 0) ;;
            Bextra <- wshl Bextra (64 - r) ;;
            '(B, _) <- for_down (Z.quot (LOGQto + 63) 64 - 1) 0 (fun i '(B, Bextra) =>
                 x <- rd B i ;; temp <- wshl x (64 - r) ;;
                 x <- rd B i ;; x <- wshr x r ;; B <- wr B i x ;;
                 x <- rd B i ;; B <- wr B i (wadd x Bextra) ;;
                 Ok (B, temp)) (B, Bextra) ;;
            Ok B
          else Ok B) ;;
    let idx := LOGQfr - LOGQto - 1 in
    x <- rd A (Z.quot idx 64) ;;
    x <- wshr x (Z.rem idx 64) ;;
    if Z.odd x then
      C <- for_ 0 (len LOGQto) (fun i C => wr C i 0) (zq_new LOGQto) ;;
      C <- wr C 0 1 ;;
      zq_add LOGQto B C
    else Ok B.

(** Z_Q.h:94-112 shift_left.  [B] is the destination object. *)
Definition zq_shift_left (LOGQfr LOGQto : Z) (A B : arr) : res arr :=
  let q := Z.quot (LOGQto - LOGQfr) 64 in
  let r := Z.rem (LOGQto - LOGQfr) 64 in
  B <- for_ 0 (len LOGQfr) (fun i B => x <- rd A i ;; wr B (i + q) x) B ;;
  B <- for_ 0 q (fun i B => wr B i 0) B ;;
  if r =? 0 then Ok B
  else
    '(B, Bextra) <- for_ 0 (len LOGQfr) (fun i '(B, Bextra) =>
         x <- rd B (i + q) ;; temp <- wshr x (64 - r) ;;
         x <- rd B (i + q) ;; x <- wshl x r ;; B <- wr B (i + q) x ;;
         x <- rd B (i + q) ;; B <- wr B (i + q) (wadd x Bextra) ;;
         Ok (B, temp)) (B, 0) ;;
    if negb (Z.quot (LOGQfr + r + 63) 64 =? Z.quot (LOGQfr + 63) 64)
    then wr B (Z.quot (LOGQfr + 63) 64 + q) Bextra
    else Ok B.

(** ** Strings.  A C string is the list of its character codes without the terminating NUL. *)

(** Z_Q.h:126-149 fr_str.  [A] is an [int] array of 520 cells, [B] a word array of [2*length] cells,
    both uninitialised.  [rem+=A[i]] converts the int to uint64_t.  The inner loop's [zero] flag and
    [rem] are carried along.  Every round writes [B[count]], so at most [2*length+1] rounds happen
    before the loop ends or runs out of bounds: that is the fuel. *)
Definition zq_fr_str (LOGQ : Z) (D : arr) (str : list Z) : res arr :=
  let n := Z.of_nat (length str) in
  A <- for_ 0 n (fun i A => ch <- lget str (n - 1 - i) ;; wr A i (ch - 48)) (fresh 520) ;;
  '(_, B, _, count) <-
     while_ (S (S (Z.to_nat (2 * len LOGQ))))
       (fun '(A, B, zero, count) => Ok (negb zero))
       (fun '(A, B, zero, count) =>
          '(A, rem, zero) <- for_down (n - 1) 0 (fun i '(A, rem, zero) =>
               let rem := wmul rem 10 in
               a <- rd A i ;;
               let rem := wadd rem a in
               x <- wshr rem 32 ;;
               A <- wr A i (to_int x) ;;
               a <- rd A i ;;
               let zero := if a =? 0 then zero else false in
               rem <- wshl rem 32 ;; rem <- wshr rem 32 ;;
               Ok (A, rem, zero)) (A, 0, true) ;;
          B <- wr B count rem ;;
          Ok (A, B, zero, count + 1))
       (A, fresh (len LOGQ * 2), false, 0) ;;
  B <- for_ count (2 * len LOGQ) (fun i B => wr B i 0) B ;;
  for_ 0 (len LOGQ) (fun i D =>
    b0 <- rd B (2 * i) ;; b1 <- rd B (2 * i + 1) ;; b1 <- wshl b1 32 ;;
    wr D i (wadd b0 b1)) D.

(** Z_Q.h:151-175 to_str.  [str] is the caller's character buffer. *)
Definition zq_to_str (LOGQ : Z) (D : arr) (str : arr) : res arr :=
  let length := Z.quot (LOGQ + 63) 64 in
  A <- for_ 0 length (fun i A =>
         x <- rd D i ;; y <- wshl x 32 ;; y <- wshr y 32 ;;
         A <- wr A (2 * i) y ;;
         y <- wshr x 32 ;;
         wr A (2 * i + 1) y) (fresh (2 * length)) ;;
  assert_ (LOGQ <=? 1300) ;;;
  '(_, B, _, count) <-
     while_ 522
       (fun '(A, B, zero, count) => Ok (negb zero))
       (fun '(A, B, zero, count) =>
          '(A, rem, zero) <- for_down (2 * length - 1) 0 (fun i '(A, rem, zero) =>
               rem <- wshl rem 32 ;;
               a <- rd A i ;;
               let rem := wadd rem a in
               x <- wdiv rem 10 ;;
               A <- wr A i x ;;
               a <- rd A i ;;
               let zero := if a =? 0 then zero else false in
               rem <- wmod rem 10 ;;
               Ok (A, rem, zero)) (A, 0, true) ;;
          B <- wr B count (to_int rem) ;;
          Ok (A, B, zero, count + 1))
       (A, fresh 520, false, 0) ;;
  str <- for_ 0 count (fun i str =>
           b <- rd B (count - 1 - i) ;; wr str i (48 + b)) str ;;
  wr str count 0.
