(** Vocabulary for statements about encoding, independent of the model's functions. *)
From Coq Require Import ZArith List Bool Reals.
From Verif Require Import Base GSum DFT SpecZQ SpecPoly SpecMat SpecDFT.
Open Scope Z_scope.

(** size of a complex number *)
Definition modulus (z : CC) : R := sqrt (cre Rops z * cre Rops z + cim Rops z * cim Rops z)%R.
Definition conjugate (z : CC) : CC := mk Rops (cre Rops z) (- cim Rops z)%R.

(** the integer v is one of those nearest to x *)
Definition nearest (x : R) (v : Z) : Prop := (Rabs (IZR v - x) <= / 2)%R.

(** product in R[X]/(X^N+1) *)
Definition rnegconv (N : Z) (a b : Z -> R) (i : Z) : R :=
  gsum (K := Rops) N (fun k => (a k * (if k <=? i then b (i - k)%Z else - b (N + i - k)%Z))%R).
(** b(X) = a(X^g) modulo X^N+1, over the reals *)
Definition rsubstituted (N g : Z) (a b : Z -> R) : Prop := forall i, 0 <= i < N ->
  let j := (g * i) mod (2 * N) in a i = if j <? N then b j else (- b (j - N)%Z)%R.

(** the polynomial held by [P], read with signed coefficients *)
Definition signedP (LOGQ N : Z) (P : list arr) (c : Z -> Z) : Prop :=
  holdsP LOGQ N P c /\ forall i, 0 <= i < N -> - 2 ^ (LOGQ - 1) <= c i < 2 ^ (LOGQ - 1).
(** the slots of the integer polynomial c at scale Delta *)
Definition slots (N : Z) (Delta : R) (c : Z -> Z) (j : Z) : CC := slot N (fun i => (IZR (c i) / Delta)%R) j.
