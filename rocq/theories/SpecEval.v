(** What it means that a ciphertext carries given slots, and the errors of the evaluation of polynomials. *)
From Coq Require Import ZArith List Bool Reals.
From Verif Require Import Base Sums GSum DFT SpecZQ SpecPoly SpecScheme SpecDFT SpecEnc.
Open Scope Z_scope.

(** [ct] decrypts to a polynomial whose N/2 slots at scale [Delta] differ from [x] by at most [err]. *)
Definition carries (LOGQ N : Z) (s : Z -> Z) (ct : list arr * list arr) (Delta : R) (x : Z -> CC) (err : R) : Prop :=
  exists m, decrypts LOGQ N ct s m /\ forall j, 0 <= j < N / 2 -> (modulus (slots N Delta m j - x j)%num <= err)%R.

(** Errors in the slots, for dimension N, a key with h nonzero coefficients and scale Delta. *)
Section Errors.
Context (N h : Z) (Delta : R).
(** rescaling *)
Definition rescale_noise : R := (IZR N * IZR (1 + h) / (2 * Delta))%R.
(** multiplication, at scale Delta^2 *)
Definition mul_noise : R := (IZR N * IZR (8 * N + 1 + h) / (2 * (Delta * Delta)))%R.
(** 2x^2-1 of x with |x| <= M known up to t *)
Definition double_error (M t : R) : R := (4 * M * t + 2 * (t * t) + 2 * mul_noise + rescale_noise)%R.
(** x*y+z of x with |x| <= M known up to t, y and z with |y| <= B known up to l *)
Definition combine_error (M t B l : R) : R := (M * l + B * t + t * l + l + mul_noise + rescale_noise)%R.

(** T_(2^i) when |T_(2^i)| <= M i and x is known up to eps *)
Fixpoint angle_error (M : nat -> R) (eps : R) (i : nat) : R :=
  match i with O => eps | S i => double_error (M i) (angle_error M eps i) end.
(** polynomials with coefficients of size at most U in the products of the first i of the T_(2^b) *)
Fixpoint part_bound (M : nat -> R) (U : R) (i : nat) : R :=
  match i with O => U | S i => (part_bound M U i * (1 + M i))%R end.
Fixpoint poly_error (M : nat -> R) (U eps : R) (i : nat) : R :=
  match i with O => (1 / Delta)%R | S i => combine_error (M i) (angle_error M eps i) (part_bound M U i) (poly_error M U eps i) end.
End Errors.
