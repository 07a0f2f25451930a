(** Vocabulary for the conversion of Chebyshev coefficients in floating-point arithmetic, independent of the model's functions. *)
From Coq Require Import ZArith Reals.
Open Scope R_scope.

(** Error of the coefficients of 2^k products computed from 2^k Chebyshev coefficients of absolute value at most B *)
Definition convert_error (u eta : R) (k : nat) (B : R) : R := ((2 + 2 * u) ^ (k - 1) - 2 ^ (k - 1)) * B + ((2 + 2 * u) ^ (k - 1) - 1) * eta.
