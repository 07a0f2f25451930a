(** Vocabulary for statements about floating-point arithmetic, independent of the model's functions. *)
From Coq Require Import ZArith Reals.
From Verif Require Import Base Util RQ GSum DFT SpecMat SpecDFT SpecEnc.
From Verif Require Import Float.
Open Scope R_scope.

(** What is assumed of an arithmetic with rounding function [rnd], constant [pi] and library functions [co] and [si]:
    - up to the size [top] the error of rounding is at most u|x| + eta (u the unit roundoff, eta half the smallest subnormal number);
    - integers of 53 bits times powers of two are doubles, so they are not rounded;
    - the constant is the number pi up to the relative error u;
    - the library functions err by at most t on the angles from -7 to 7. *)
Record arithmetic (u eta top t : R) (rnd : R -> R) (pi : R) (co si : R -> R) : Prop := mkarith {
  ar_u : 0 <= u <= / 1024;
  ar_eta : 0 <= eta <= / 1024;
  ar_t : 0 <= t <= / 1024;
  ar_top : 8 <= top;
  ar_rnd : forall x, Rabs x <= top -> Rabs (rnd x - x) <= u * Rabs x + eta;
  ar_exact : forall m k : Z, (Z.abs m <= 2 ^ 53)%Z -> (0 <= k)%Z -> Rabs (IZR m * IZR (2 ^ k)) <= top -> rnd (IZR m * IZR (2 ^ k)) = IZR m * IZR (2 ^ k);
  ar_pi : Rabs (pi - PI) <= u * PI;
  ar_cos : forall x, Rabs x <= 7 -> Rabs (co x - cos x) <= t;
  ar_sin : forall x, Rabs x <= 7 -> Rabs (si x - sin x) <= t }.

(** Error of the entries cos(PI/N*k), sin(PI/N*k), k < 2N, of the tables *)
Definition table_error (u eta t : R) (N : Z) : R := t + 20 * u + 3 * IZR N * eta.
(** A butterfly on complex numbers of modulus at most X errs by at most lambda X + 32 eta *)
Definition lambda (u eta t : R) (N : Z) : R := 6 * table_error u eta t N + 20 * u.
(** Error after k layers of butterflies on numbers of modulus at most B *)
Definition fft_error (u eta t : R) (N : Z) (k : nat) (B : R) : R :=
  ((2 + lambda u eta t N) ^ k - 2 ^ k) * B + ((2 + lambda u eta t N) ^ k - 1) * (32 * eta).
(** Bound on the numbers that occur in k layers of butterflies *)
Definition fft_size (u eta t : R) (N : Z) (k : nat) (B : R) : R := (2 + lambda u eta t N) ^ k * (B + 32 * eta).
(** Error of a coefficient computed by the inverse transform, k = log2(N/2) *)
Definition ifft_error (u eta t : R) (N : Z) (k : nat) (B : R) : R := (fft_error u eta t N k B + 3 * u * fft_size u eta t N k B) / 2 ^ k + 2 * eta.

(** What earlier calls of fft, fftNR (of ifft, ifftNR) may have left in the function-static tables *)
Inductive f_fft_static (F : fpu) (LOGN : Z) : tables -> Prop :=
| f_fft_first : f_fft_static F LOGN None
| f_fft_next st m zr zi st' out : f_fft_static F LOGN st -> f_fft F LOGN st m zr zi = Ok (st', out) -> f_fft_static F LOGN st'
| f_fftNR_next st m zr zi st' out : f_fft_static F LOGN st -> f_fftNR F LOGN st m zr zi = Ok (st', out) -> f_fft_static F LOGN st'.
Inductive f_ifft_static (F : fpu) (LOGN : Z) : tables -> Prop :=
| f_ifft_first : f_ifft_static F LOGN None
| f_ifft_next st zr zi m st' out : f_ifft_static F LOGN st -> f_ifft F LOGN st zr zi m = Ok (st', out) -> f_ifft_static F LOGN st'
| f_ifftNR_next st zr zi m st' out : f_ifft_static F LOGN st -> f_ifftNR F LOGN st zr zi m = Ok (st', out) -> f_ifft_static F LOGN st'.

(** Error of Delta times a coefficient of size at most A known up to E, before it is rounded to an integer *)
Definition encode_error (u eta E A : R) (Delta : Z) : R := IZR Delta * (2 * E + 3 * (u + eta) * A) + eta.
(** Error of a coefficient c/Delta of size at most A computed by decode from K words, and by decode_log *)
Definition coeff_error (u eta : R) (K : Z) (A : R) : R := (5 * (u + eta) + 2 * IZR K * u) * A + 4 * IZR K * eta.
Definition coeff_log_error (u eta A : R) : R := (10 * u + 5 * eta) * A + eta.
