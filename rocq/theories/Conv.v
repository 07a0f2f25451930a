(** Model of include/HEAAN/arith/conv/conv.h and include/HEAAN/arith/conv.h. *)
From Coq Require Import ZArith List Bool.
From Verif Require Import Base ZQ Mod NTT CRT RQ.
Import ListNotations.
Open Scope Z_scope.

(** conv/conv.h:10-15 struct CONV.  The unique_ptr array is the list of the objects pointed to. *)
Record conv_t := { cv_crt : crt_t; cv_ntt : list ntt_t }.

(** conv/conv.h:25-30 constructor.  [ntt[i]] is null until assigned; the loop appends in index order. *)
Definition conv_new (L N : Z) (q : arr) : res conv_t :=
  crt <- crt_new L q ;;
  ntt <- for_ 0 L (fun i ntt => x <- rd q i ;; T <- ntt_new N x ;; Ok (ntt ++ [T])) [] ;;
  Ok {| cv_crt := crt; cv_ntt := ntt |}.

(** [uint64_t X[L][N]]: rows. *)
Definition rows := list arr.
Definition rows_new (L N : Z) : rows := repeat (fresh N) (Z.to_nat L).

(** conv/conv.h:53-63 icrt_polynomial, iterations in index order (see Properties_Par.v for the others). *)
Definition icrt_polynomial (M : conv_t) (L LOGQ N : Z) (A : poly) (A_rns : rows) : res rows :=
  for_ 0 N (fun i A_rns =>
    a <- lget A i ;;
    Ai_rns <- crt_icrt (cv_crt M) L LOGQ a (fresh L) ;;
    for_ 0 L (fun j A_rns =>
      x <- rd Ai_rns j ;;
      row <- lget A_rns j ;; row <- wr row i x ;; lset A_rns j row) A_rns) A_rns.

(** conv/conv.h:65-75 crt_polynomial *)
Definition crt_polynomial (M : conv_t) (L LOGQ N : Z) (A_rns : rows) (A : poly) : res poly :=
  for_ 0 N (fun i A =>
    Ai_rns <- for_ 0 L (fun j Ai_rns =>
                row <- lget A_rns j ;; x <- rd row i ;; wr Ai_rns j x) (fresh L) ;;
    pupd A i (fun a => crt_crt (cv_crt M) L LOGQ Ai_rns a)) A.

(** conv/conv.h:41-48: one iteration of the loop over the primes, on the rows [i]. *)
Definition conv_row (T : ntt_t) (N : Z) (A_row B_row C_row : arr) : res (arr * arr * arr) :=
  A_row <- ntt_fwd T N A_row ;;
  B_row <- ntt_fwd T N B_row ;;
  C_row <- for_ 0 N (fun j C_row =>
             a <- rd A_row j ;; b <- rd B_row j ;;
             c <- mul_mod a b (ntt_q T) ;; wr C_row j c) C_row ;;
  C_row <- ntt_inv T N C_row ;;
  Ok (A_row, B_row, C_row).

Definition conv_rows (M : conv_t) (L N : Z) (X : rows * rows * rows) : res (rows * rows * rows) :=
  for_ 0 L (fun i '(A_rns, B_rns, C_rns) =>
    T <- lget (cv_ntt M) i ;;
    A_row <- lget A_rns i ;; B_row <- lget B_rns i ;; C_row <- lget C_rns i ;;
    '(A_row, B_row, C_row) <- conv_row T N A_row B_row C_row ;;
    A_rns <- lset A_rns i A_row ;; B_rns <- lset B_rns i B_row ;; C_rns <- lset C_rns i C_row ;;
    Ok (A_rns, B_rns, C_rns)) X.

(** conv/conv.h:32-51 CONV::conv *)
Definition CONV_conv (M : conv_t) (L LOGQ N : Z) (A B C : poly) : res poly :=
  A_rns <- icrt_polynomial M L LOGQ N A (rows_new L N) ;;
  B_rns <- icrt_polynomial M L LOGQ N B (rows_new L N) ;;
  '(_, _, C_rns) <- conv_rows M L N (A_rns, B_rns, rows_new L N) ;;
  crt_polynomial M L LOGQ N C_rns C.

(** conv.h:39-142 Q_primes *)
Definition Q_primes : list Z :=
  [0xffffffffffc0001; 0xfffffffff840001; 0x1000000000980001; 0x1000000000b00001;
   0xfffffffff240001; 0x1000000000f00001; 0xffffffffe7c0001; 0xffffffffe740001;
   0x1000000001a00001; 0xffffffffe4c0001; 0xffffffffe440001; 0xffffffffe400001;
   0x1000000002340001; 0xffffffffdbc0001; 0xffffffffd840001; 0x1000000002940001;
   0xffffffffd680001; 0xffffffffd000001; 0xffffffffcf00001; 0xffffffffcdc0001;
   0xffffffffcc40001; 0x1000000003680001; 0x1000000003900001; 0xffffffffc300001;
   0x1000000003ec0001; 0xffffffffbf40001; 0xffffffffbdc0001; 0xffffffffb880001;
   0x1000000004d40001; 0x1000000004f80001; 0x1000000005040001; 0xffffffffaec0001;
   0x1000000005400001; 0x1000000005480001; 0x10000000054c0001; 0x1000000005640001;
   0xffffffffa380001; 0xffffffffa200001; 0xffffffffa0c0001; 0x10000000069c0001;
   0xffffffff9600001; 0x1000000006e00001; 0xffffffff91c0001; 0xffffffff8f40001;
   0x10000000075c0001; 0x1000000007640001; 0xffffffff8680001; 0x1000000007d40001;
   0x10000000080c0001; 0xffffffff7e40001; 0xffffffff7bc0001; 0x1000000008540001;
   0xffffffff76c0001; 0xffffffff7680001; 0x1000000008e40001; 0xffffffff6fc0001;
   0x1000000009240001; 0x1000000009300001; 0xffffffff6880001; 0x10000000098c0001;
   0x1000000009c00001; 0xffffffff6340001; 0xffffffff5d40001; 0x100000000a8c0001;
   0xffffffff54c0001; 0x100000000ab80001; 0x100000000aec0001; 0x100000000af40001;
   0xffffffff4d40001; 0x100000000b300001; 0x100000000b400001; 0x100000000b7c0001;
   0x100000000ba00001; 0xffffffff4380001; 0xffffffff3e80001; 0xffffffff37c0001;
   0xffffffff36c0001; 0x100000000d400001; 0x100000000d4c0001; 0x100000000db00001;
   0x100000000de00001; 0xffffffff2100001; 0x100000000df40001; 0x100000000e1c0001;
   0xffffffff1d80001; 0xffffffff1cc0001; 0x100000000e3c0001; 0x100000000e480001;
   0xffffffff1900001; 0xffffffff1740001; 0xffffffff15c0001; 0x100000000f140001;
   0xffffffff0e80001; 0x100000000f200001; 0x100000000f3c0001; 0xfffffffeff80001;
   0xfffffffeff40001; 0x1000000010100001; 0x1000000010a00001; 0xfffffffeefc0001;
   0x1000000011340001; 0xfffffffee8c0001].

(** conv.h:143 *)
Definition conv_L (LOGQ : Z) : Z := Z.quot (2 * LOGQ + 17 + 59) 60.

(** conv.h:34-151 conv(R_Q,R_Q,R_Q).  [cache] is the pair of function-local statics (theConv,
    theConv_initialized) of the instance conv<LOGQ,N>; the new cache is returned with the result. *)
Definition conv_call (LOGQ N : Z) (cache : option conv_t) (A B C : poly) : res (option conv_t * poly) :=
  M <- match cache with
       | None => conv_new (conv_L LOGQ) N (map Some Q_primes)
       | Some M => Ok M
       end ;;
  C <- CONV_conv M (conv_L LOGQ) LOGQ N A B C ;;
  Ok (Some M, C).

(** A call of conv on its own (first call of the process). *)
Definition conv_poly (LOGQ N : Z) (A B C : poly) : res poly :=
  '(_, C) <- conv_call LOGQ N None A B C ;; Ok C.

(** conv.h:34-151 on objects in memory: [a], [b], [c] are positions of the operands and of the output in
    [h], and may coincide.  A and B are only read in icrt_polynomial, C is only written in
    crt_polynomial, after that. *)
Definition conv_mem (LOGQ N : Z) (cache : option conv_t) (h : list poly) (a b c : Z) : res (option conv_t * list poly) :=
  M <- match cache with
       | None => conv_new (conv_L LOGQ) N (map Some Q_primes)
       | Some M => Ok M
       end ;;
  let L := conv_L LOGQ in
  A <- lget h a ;;
  A_rns <- icrt_polynomial M L LOGQ N A (rows_new L N) ;;
  B <- lget h b ;;
  B_rns <- icrt_polynomial M L LOGQ N B (rows_new L N) ;;
  '(_, _, C_rns) <- conv_rows M L N (A_rns, B_rns, rows_new L N) ;;
  C <- lget h c ;;
  C <- crt_polynomial M L LOGQ N C_rns C ;;
  h <- lset h c C ;;
  Ok (Some M, h).

(** conv.h:15-32 conv(int array, R_Q, R_Q): the body of the loop over [i], for [C[i]]. *)
Definition conv_s_coef (LOGQ N : Z) (s : arr) (A : poly) (i : Z) (c : arr) : res arr :=
  c <- zq_setzero LOGQ c ;;
  for_ 0 N (fun k c =>
    sk <- rd s k ;;
    if negb (sk =? 0) then
      let sign := sk =? 1 in
      '(temp, sign) <- (if k <=? i then t <- lget A (i - k) ;; Ok (t, sign)
                        else t <- lget A (N + i - k) ;; Ok (t, negb sign)) ;;
      if (sign : bool) then zq_add LOGQ c temp else zq_sub LOGQ c temp
    else Ok c) c.

(** conv.h:15-32; C is a different object from A. *)
Definition conv_s (LOGQ N : Z) (s : arr) (A C : poly) : res poly :=
  for_ 0 N (fun i C => pupd C i (conv_s_coef LOGQ N s A i)) C.

(** conv.h:15-32 with C the same object as A, iterations in index order.  When [temp] points to [C[i]]
    itself the operand of += is the target. *)
Definition conv_s_self (LOGQ N : Z) (s : arr) (A : poly) : res poly :=
  for_ 0 N (fun i A =>
    A <- pupd A i (zq_setzero LOGQ) ;;
    for_ 0 N (fun k A =>
      sk <- rd s k ;;
      if negb (sk =? 0) then
        let sign := sk =? 1 in
        let '(p, sign) := if k <=? i then (i - k, sign) else (N + i - k, negb sign) in
        temp <- lget A p ;;
        if (sign : bool) then
          pupd A i (fun c => if p =? i then zq_add_self LOGQ c else zq_add LOGQ c temp)
        else pupd A i (fun c => zq_sub LOGQ c temp)
      else Ok A) A) A.

(** conv.h:5-13 conv on int arrays.  Signed [int] overflow is undefined. *)
Definition conv_int (N : Z) (s1 s2 s3 : arr) : res arr :=
  for_ 0 N (fun i s3 =>
    s3 <- wr s3 i 0 ;;
    s3 <- for_ 0 (i + 1) (fun k s3 =>
            x <- rd s1 k ;; y <- rd s2 (i - k) ;; p <- int_ (x * y) ;;
            z <- rd s3 i ;; z <- int_ (z + p) ;; wr s3 i z) s3 ;;
    for_ (i + 1) N (fun k s3 =>
      x <- rd s1 k ;; y <- rd s2 (i + N - k) ;; p <- int_ (x * y) ;;
      z <- rd s3 i ;; z <- int_ (z - p) ;; wr s3 i z) s3) s3.
