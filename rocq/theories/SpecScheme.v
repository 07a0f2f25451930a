(** Specification vocabulary for ciphertexts and keys.  Nothing here refers to the model. *)
From Coq Require Import ZArith List Bool.
From Verif Require Import Base Sums SpecZQ SpecPoly.
Open Scope Z_scope.

(** A pair of polynomials decrypts to [m] under the key [s] when m = ct0 + s*ct1 in Z_{2^LOGQ}[X]/(X^N+1). *)
Definition decrypts (LOGQ N : Z) (ct : list arr * list arr) (s m : Z -> Z) : Prop :=
  exists a b, holdsP LOGQ N (fst ct) a /\ holdsP LOGQ N (snd ct) b /\
    forall i, 0 <= i < N -> (a i + negconv N s b i) mod 2 ^ LOGQ = m i mod 2 ^ LOGQ.

(** Two polynomials with arbitrary contents. *)
Definition object2 (LOGQ N : Z) (ct : list arr * list arr) : Prop := objectP LOGQ N (fst ct) /\ objectP LOGQ N (snd ct).

(** The sum of the absolute values of the coefficients; for a ternary key, its number of nonzero coefficients. *)
Definition norm1 (N : Z) (s : Z -> Z) : Z := zsum N (fun k => Z.abs (s k)).

(** A vector of N coefficients -1, 0 and 1. *)
Definition ternary (N : Z) (s : list Z) : Prop :=
  length s = Z.to_nat N /\ Forall (fun x => x = -1 \/ x = 0 \/ x = 1) s.

(** Results of rand(): never negative, never above RAND_MAX. *)
Definition rand_stream (RAND_MAX : Z) (rnd : nat -> Z) : Prop := forall k, 0 <= rnd k <= RAND_MAX.

(** The number of coefficients satisfying a test. *)
Definition count (N : Z) (p : Z -> bool) : Z := zsum N (fun k => if p k then 1 else 0).
