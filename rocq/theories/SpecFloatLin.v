(** Vocabulary for statements about linear transforms in floating-point arithmetic, independent of the model's functions. *)
From Coq Require Import ZArith List Bool Reals.
From Verif Require Import Base GSum DFT SpecZQ SpecPoly SpecScheme SpecMat SpecDFT SpecEnc SpecLin SpecFloat.
Open Scope Z_scope.

(** Error of the slots of a plaintext that encodes at the scale [Delta], when its coefficients are integers within 1/2+[e] of the scaled ones *)
Definition encoded_error (N Delta : Z) (e : R) : R := (IZR N * ((/ 2 + e) / IZR Delta))%R.
(** Error in slot [j] of a linear transform of the slots [z]: every diagonal contributes the error [h] of its encoded entries times a slot,
    and, if it rotates, the noise of a key switch in units of the scale [D0], times an entry. *)
Definition f_lt_error (N n E S : Z) (h : R) (A : Z -> Z -> CC) (o : Z -> Z) (zr zi : Z -> bool) (z : Z -> CC) (D0 : R) (j : Z) : R :=
  gsum (K := Rops) S (fun t => if zr t && zi t then 0%R else
    (h * modulus (z ((j + o t) mod n)%Z) + (modulus (A t j) + h) * (if o t =? 0 then 0 else IZR N * IZR E / (2 * D0)))%R).

(** Error of encode on numbers of modulus at most [B] before the coefficients are rounded to integers; k = log2(N/2) *)
Definition diag_error (u eta t : R) (N : Z) (k : nat) (B : R) (Delta : Z) : R := encode_error u eta (ifft_error u eta t N k B) B Delta.
(** numbers of modulus at most [B] can be encoded: no overflow of the arithmetic, of a machine word or of the modulus *)
Definition encodable (u eta top t : R) (LOGQ N : Z) (k : nat) (Delta : Z) (B : R) : Prop :=
  (0 <= B)%R /\ (4 * fft_size u eta t N k B + 1 <= top)%R /\
  (B * IZR Delta + diag_error u eta t N k B Delta + 1 < IZR (2 ^ 64))%R /\ (B * IZR Delta + diag_error u eta t N k B Delta + 1 < IZR (2 ^ LOGQ))%R.

(** Rounding errors in a row of a product of matrices of [S1] and [S2] diagonals; [X] bounds the sums of moduli in the rows of the product *)
Definition mm_round (u eta : R) (S1 S2 : Z) (X : R) : R := (IZR S1 * IZR S2 * (9 * u * (2 * X + 1) + 6 * eta))%R.
(** Error of the rows of a product of matrices with rows a1, a2 known up to r1, r2 *)
Definition mm_error (u eta : R) (S1 S2 : Z) (a1 r1 a2 r2 : R) : R := (r1 * (a2 + r2) + a1 * r2 + mm_round u eta S1 S2 ((a1 + r1) * (a2 + r2)))%R.
(** Error of the rows of the product of [k]+1 matrices of [S] diagonals each, computed from the right *)
Fixpoint prod_error (u eta : R) (S : Z) (k : nat) (a r : nat -> R) : R :=
  match k with
  | O => r O
  | Datatypes.S k' => mm_error u eta S (S ^ Z.of_nat k) (a k) (r k) (rprod k a) (prod_error u eta S k' a r)
  end.
(** the products of [k]+1 matrices do not overflow *)
Fixpoint prod_fits (u eta top : R) (S : Z) (k : nat) (a r : nat -> R) : Prop :=
  match k with
  | O => True
  | Datatypes.S k' => prod_fits u eta top S k' a r /\ (IZR S * IZR (S ^ Z.of_nat k) * (18 * u + 6 * eta) <= 1)%R /\
      (8 * ((a k + r k) * (rprod k a + prod_error u eta S k' a r)) + 5 <= top)%R
  end.
(** the same for the d-th product of G consecutive matrices *)
Definition group_error (u eta : R) (S : Z) (G : nat) (a r : nat -> R) (d : nat) : R := prod_error u eta S (G - 1) (fun k => a (G * d + k)%nat) (fun k => r (G * d + k)%nat).
Definition group_fits (u eta top : R) (S : Z) (G : nat) (a r : nat -> R) (d : nat) : Prop := prod_fits u eta top S (G - 1) (fun k => a (G * d + k)%nat) (fun k => r (G * d + k)%nat).
