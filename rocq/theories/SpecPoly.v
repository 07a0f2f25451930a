(** Specification vocabulary for coefficient vectors. Nothing here refers to the model. *)
From Coq Require Import ZArith List Bool Lia.
From Verif Require Import Base Sums SpecZQ.
Open Scope Z_scope.

(** Coefficient [i] of a vector given as a list. *)
Definition coef (a : list Z) (i : Z) : Z := nth (Z.to_nat i) a 0.

(** Coefficient [i] of the product of a and b in Z[X]/(X^N+1). *)
Definition negconv (N : Z) (a b : Z -> Z) (i : Z) : Z :=
  zsum N (fun k => a k * (if k <=? i then b (i - k) else - b (N + i - k))).

(** [r] has the low [k] bits of [j] in opposite order. *)
Definition reversed (k j r : Z) : Prop :=
  0 <= r < 2 ^ k /\ forall i, 0 <= i < k -> Z.testbit r i = Z.testbit j (k - 1 - i).

(** The array [P] of N integer objects of width [LOGQ] holds the polynomial with coefficients [a 0 .. a (N-1)],
    modulo 2^LOGQ and in canonical form. *)
Definition holdsP (LOGQ N : Z) (P : list arr) (a : Z -> Z) : Prop :=
  Z.of_nat (length P) = N /\
  forall i A, 0 <= i < N -> nth_error P (Z.to_nat i) = Some A -> holds LOGQ A (a i).

(** N integer objects with arbitrary contents. *)
Definition objectP (LOGQ N : Z) (P : list arr) : Prop :=
  Z.of_nat (length P) = N /\ Forall (object LOGQ) P.

(** b(X) = a(X^g) modulo X^N+1: the coefficient of a at X^i is found in b at X^(g i), with the sign of
    X^N = -1. *)
Definition substituted (N g : Z) (a b : Z -> Z) : Prop := forall i, 0 <= i < N ->
  let j := (g * i) mod (2 * N) in a i = if j <? N then b j else - b (j - N).
