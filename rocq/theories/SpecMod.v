(** What EvalMod computes, and its errors.  Nothing here refers to the model. *)
From Coq Require Import ZArith Reals.
From Verif Require Import SpecEval.
Open Scope R_scope.

(** (1/2pi)(y + y^3/6) *)
Definition asin3 (y : R) : R := (y ^ 3 + 6 * y) / (12 * PI).
(** The function that EvalMod approximates *)
Definition evalmod_value (K : Z) (x : R) : R := asin3 (cos (48 * PI * ((x - / 4) / IZR K))).

Section Errors.
Context (N h : Z) (Delta : R) (K : Z).
(** (x - 1/4) / K, when x with |x| <= K + 1 is known up to e *)
Definition em_arg_error (e : R) : R := e / IZR K + (IZR K + 2) / Delta + rescale_noise N h Delta.
(** cos(3 pi t): evaluation of the polynomial, and its distance from the cosine *)
Definition em_cos_error (e : R) : R := poly_error N h Delta (fun _ => 1) (65 / 100) (em_arg_error e) 5 + 24 / IZR (10 ^ 15).
(** y = cos(48 pi t) *)
Definition em_y_error (e : R) : R := angle_error N h Delta (fun _ => 1) (em_cos_error e) 4.
(** y^2 + 6 and y / (12 pi), when y is known up to e *)
Definition em_square_error (e : R) : R := 2 * e + e * e + mul_noise N h Delta + rescale_noise N h Delta.
Definition em_times_error (e : R) : R := e / 36 + 2 / Delta + rescale_noise N h Delta.
Definition evalmod_error (e : R) : R :=
  7 * em_times_error (em_y_error e) + em_square_error (em_y_error e) / 36 + em_square_error (em_y_error e) * em_times_error (em_y_error e)
  + mul_noise N h Delta + rescale_noise N h Delta.
End Errors.
