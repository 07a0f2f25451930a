(** Vocabulary for statements about linear transforms of ciphertexts, independent of the model's functions. *)
From Coq Require Import ZArith List Bool Reals.
From Verif Require Import Base GSum DFT SpecZQ SpecPoly SpecScheme SpecMat SpecDFT SpecEnc.
Open Scope Z_scope.

(** scaled by 2^LOGDELTA and rounded, the number fits a machine word and the modulus *)
Definition entry_small (LOGQ LOGDELTA : Z) (z : CC) : Prop :=
  (modulus z * IZR (2 ^ LOGDELTA) < IZR (2 ^ 64) - / 2)%R /\ (modulus z * IZR (2 ^ LOGDELTA) < IZR (2 ^ LOGQ) - / 2)%R.
(** diagonals flagged zero in both parts count as zero *)
Definition live (zr zi : Z -> bool) (A : Z -> Z -> CC) (t j : Z) : CC := if zr t && zi t then 0%num else A t j.
(** bound for twice the error of a key switch *)
Definition noise (N : Z) (s : Z -> Z) : Z := 16 * N + 1 + norm1 N s.
(** Error in slot [j] of a linear transform of the slots [z]: every diagonal contributes the rounding of its entries,
    at most N/(2 Delta) per slot, times a slot, and, if it rotates, the noise of a key switch in units of the scale
    [D0], times an entry. *)
Definition lt_error (N n Delta E S : Z) (A : Z -> Z -> CC) (o : Z -> Z) (zr zi : Z -> bool) (z : Z -> CC) (D0 : R) (j : Z) : R :=
  gsum (K := Rops) S (fun t => if zr t && zi t then 0%R else
    (IZR N / (2 * IZR Delta) * modulus (z ((j + o t) mod n)%Z)
      + (modulus (A t j) + IZR N / (2 * IZR Delta)) * (if o t =? 0 then 0 else IZR N * IZR E / (2 * D0)))%R).

(** the first [d] of the matrices [M 0], [M 1], ... applied one after the other *)
Fixpoint chain (n : Z) (M : nat -> Z -> Z -> CC) (d : nat) (z : Z -> CC) : Z -> CC :=
  match d with O => z | S d => apply n (M d) (chain n M d z) end.
(** Bounds on the slots and their error after [d] transforms, where [a d] bounds the sums of the moduli of the entries
    in the rows of the d-th matrix, [dl] the sums of roundings in a row, [z0] the slots at the start and [k d] the noise
    of a key switch at the scale of step [d]. *)
Fixpoint size_after (a : nat -> R) (dl z0 : R) (k : nat -> R) (d : nat) : R :=
  match d with O => z0 | S d => ((a d + dl) * (size_after a dl z0 k d + k d))%R end.
Fixpoint error_after (a : nat -> R) (dl z0 : R) (k : nat -> R) (d : nat) : R :=
  match d with O => 0%R | S d => (a d * error_after a dl z0 k d + dl * size_after a dl z0 k d + (a d + dl) * k d)%R end.

(** [f 0] * ... * [f (k-1)] *)
Fixpoint rprod (k : nat) (f : nat -> R) : R := match k with O => 1%R | S k => (f k * rprod k f)%R end.
(** bound on the rows of the d-th product of G consecutive matrices *)
Definition group_rows (G : nat) (a : nat -> R) (d : nat) : R := rprod G (fun k => a (G * d + k)%nat).
(** bound on the entries of the d-th product of G consecutive matrices, the first of which has entries of modulus at most [b (G*d)] *)
Definition group_entries (G : nat) (a b : nat -> R) (d : nat) : R := (rprod (G - 1) (fun k => a (G * d + S k)%nat) * b (G * d)%nat)%R.
(** scaled by 2^LOGDELTA and rounded, numbers of modulus at most [b] fit a machine word and the modulus *)
Definition bound_small (LOGQ LOGDELTA : Z) (b : R) : Prop :=
  (b * IZR (2 ^ LOGDELTA) < IZR (2 ^ 64) - / 2)%R /\ (b * IZR (2 ^ LOGDELTA) < IZR (2 ^ LOGQ) - / 2)%R.
