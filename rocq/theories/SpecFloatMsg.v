(** Vocabulary for statements about messages, dense products and the quadratic transforms in floating-point arithmetic, independent of the
    model's functions. *)
From Coq Require Import ZArith Reals.
From Verif Require Import SpecFloat.
Open Scope R_scope.

(** rounding keeps the sign (as IEEE arithmetic does) *)
Definition keeps_sign (rnd : R -> R) : Prop := forall x, 0 <= x -> 0 <= rnd x.
(** Error of a sum of n products of complex numbers, if the moduli of the exact products add up to at most X *)
Definition dot_error (u eta : R) (n : Z) (X : R) : R := IZR n * (8 * u * X + 7 * eta).
(** Error of a sum of n squared moduli that add up to X *)
Definition square_error (u eta : R) (n : Z) (X : R) : R := IZR n * (6 * u * X + 5 * eta).
(** Error of its root Y *)
Definition root_error (u eta : R) (n : Z) (Y : R) : R := 8 * IZR n * u * Y + 4 * sqrt (IZR n * eta).
(** Error of a slot computed by the quadratic transform of N coefficients with sum of moduli X *)
Definition dft_error (u eta t : R) (N : Z) (X : R) : R := IZR N * (5 * u * X + 4 * eta) + 3 / 2 * table_error u eta t N * X.
(** Error of a coefficient computed by the quadratic inverse transform of n slots with sum of moduli X *)
Definition idft_error (u eta t : R) (n : Z) (X : R) : R :=
  let E := dot_error u eta n X + 3 / 2 * table_error u eta t (2 * n) * X in (11 / 10 * E + 3 * u * X) / IZR n + 2 * eta * (X + E + 1).
