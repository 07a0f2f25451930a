(** The errors of the evaluation of polynomials, of EvalMod and of the bootstrapping in an arithmetic with unit roundoff u and half the smallest
    subnormal number eta.  Nothing here refers to the model. *)
From Coq Require Import ZArith Reals.
From Verif Require Import SpecEval SpecMod.
Open Scope R_scope.

Section Errors.
Context (u eta : R).
(** Polynomials: the coefficients, of size at most U, are known up to u U + eta / Delta *)
Definition coefficient_error (Delta U : R) : R := u * U + eta / Delta.
Definition f_poly_error (N h : Z) (Delta : R) (M : nat -> R) (U e : R) (i : nat) : R :=
  poly_error N h Delta M (U + coefficient_error Delta U) e i + part_bound M (coefficient_error Delta U) i.

Section EvalMod.
Context (N h : Z) (Delta : R) (K : Z).
(** The factor 1/K and the number 1/(4K) are rounded: as if the input x with |x| <= K + 1 was known up to this *)
Definition f_em_in (e : R) : R := e + (u + IZR K * (eta / Delta)) * (e + IZR K + 2).
(** cos(3 pi t): the 32 coefficients are rounded twice *)
Definition f_em_cos_error (e : R) : R := em_cos_error N h Delta K (f_em_in e) + 64 * (u + eta).
Definition f_em_y_error (e : R) : R := angle_error N h Delta (fun _ => 1) (f_em_cos_error e) 4.
(** y / (12 pi), with the factor rounded *)
Definition f_em_times_error (e : R) : R := em_times_error N h Delta e + (u + eta) * (1 + e).
Definition f_evalmod_error (e : R) : R :=
  7 * f_em_times_error (f_em_y_error e) + em_square_error N h Delta (f_em_y_error e) / 36 + em_square_error N h Delta (f_em_y_error e) * f_em_times_error (f_em_y_error e)
  + mul_noise N h Delta + rescale_noise N h Delta.
End EvalMod.
End Errors.
