(** Model of include/HEAAN/arith/R_Q.h.  The print functions (lines 50-74) are not modelled. *)
From Coq Require Import ZArith List Bool.
From Verif Require Import Base ZQ.
Import ListNotations.
Open Scope Z_scope.

(** R_Q.h:8-12: an [R_Q<LOGQ,N>] is the array [coeff[N]] of Z_Q objects; the default constructor leaves
    every word indeterminate. *)
Definition poly := list arr.
Definition rq_new (LOGQ N : Z) : poly := repeat (zq_new LOGQ) (Z.to_nat N).

(** An update of [coeff[i]] in place. *)
Definition pupd (D : poly) (i : Z) (f : arr -> res arr) : res poly :=
  x <- lget D i ;; y <- f x ;; lset D i y.

(** R_Q.h:13-14 copy constructor and operator= *)
Definition rq_copy (LOGQ N : Z) (D A : poly) : res poly :=
  for_ 0 N (fun i D => a <- lget A i ;; pupd D i (fun d => zq_copy LOGQ d a)) D.

(** R_Q.h:33-37 operator+=.  Operand B is a different object from the target. *)
Definition rq_add (LOGQ N : Z) (D B : poly) : res poly :=
  for_ 0 N (fun i D => b <- lget B i ;; pupd D i (fun d => zq_add LOGQ d b)) D.

(** R_Q.h:33-37 [D += D]: every coefficient is added to itself. *)
Definition rq_add_self (LOGQ N : Z) (D : poly) : res poly :=
  for_ 0 N (fun i D => pupd D i (fun d => zq_add_self LOGQ d)) D.

(** R_Q.h:38-42 operator-= *)
Definition rq_sub (LOGQ N : Z) (D B : poly) : res poly :=
  for_ 0 N (fun i D => b <- lget B i ;; pupd D i (fun d => zq_sub LOGQ d b)) D.

(** R_Q.h:44-48 operator*= (uint64_t) *)
Definition rq_mul_word (LOGQ N : Z) (D : poly) (a : Z) : res poly :=
  for_ 0 N (fun i D => pupd D i (fun d => zq_mul_word LOGQ d a)) D.

(** R_Q.h:76-80 setzero *)
Definition rq_setzero (LOGQ N : Z) (D : poly) : res poly :=
  for_ 0 N (fun i D => pupd D i (fun d => zq_setzero LOGQ d)) D.

(** R_Q.h:82-87 resize *)
Definition rq_resize (LOGQfrom LOGQto N : Z) (Afrom Ato : poly) : res poly :=
  for_ 0 N (fun i Ato => a <- lget Afrom i ;; pupd Ato i (fun d => zq_resize LOGQfrom LOGQto a d)) Ato.
