(** Vocabulary for statements about CoeffToSlot and SlotToCoeff, independent of the functions that compute them. *)
From Coq Require Import ZArith List Bool Reals.
From Verif Require Import Base ZQ Core GSum Matrix DFT SpecZQ SpecPoly SpecScheme SpecMat SpecDFT SpecEnc SpecLin Bootstrap.
Open Scope Z_scope.

(** [r] is the number [j] of [L] bits read in the opposite direction *)
Definition reverses (L j r : Z) : Prop := 0 <= r < 2 ^ L /\ forall b, 0 <= b < L -> Z.testbit r b = Z.testbit j (L - 1 - b).

(** what earlier calls of CoeffToSlot (of SlotToCoeff) may have left in the function-static tables *)
Inductive cts_static (LOGQ LOGN LOGDELTA G : Z) : tables -> Prop :=
| cts_first : cts_static LOGQ LOGN LOGDELTA G None
| cts_next RM rnd stc st pos ct s ct0 ct1 stc' st' pos' ct0' ct1' : cts_static LOGQ LOGN LOGDELTA G stc ->
    CoeffToSlot LOGQ LOGN LOGDELTA RM rnd G stc st pos ct s ct0 ct1 = Ok (stc', st', pos', ct0', ct1') -> cts_static LOGQ LOGN LOGDELTA G stc'.
Inductive stc_static (LOGQ LOGN LOGDELTA G : Z) : stables -> Prop :=
| stc_first : stc_static LOGQ LOGN LOGDELTA G None
| stc_next RM rnd sts st pos ct0 ct1 s ct_ sts' st' pos' ct' : stc_static LOGQ LOGN LOGDELTA G sts ->
    SlotToCoeff LOGQ LOGN LOGDELTA RM rnd G sts st pos ct0 ct1 s ct_ = Ok (sts', st', pos', ct') -> stc_static LOGQ LOGN LOGDELTA G sts'.

(** Rounding of the entries of a row and noise of a key switch, in slots at the scale of step [d] (see [error_after]),
    for products of G matrices with 3 diagonals. *)
Definition row_rounding (N Delta : Z) (G : nat) : R := (IZR (3 ^ Z.of_nat G) * (IZR N / (2 * IZR Delta)))%R.
Definition switch_noise (N Delta E : Z) (D0 : R) (d : nat) : R := (IZR N * IZR E / (2 * (IZR Delta ^ d * D0)))%R.
(** Error in the slots after CoeffToSlot with D groups of G matrices of slots of modulus at most [z0]: the rows of a
    group have sum 2^(-1/D), the result is a sum of two transforms and a key switch. *)
Definition cts_rounding (N Delta E : Z) (G D : nat) (z0 D0 : R) : R :=
  (2 * error_after (fun _ => Rpower 2 (- / INR D)) (row_rounding N Delta G) z0 (switch_noise N Delta E D0) D)%R.
Definition cts_error (N Delta E : Z) (G D : nat) (z0 D0 : R) : R := (cts_rounding N Delta E G D z0 D0 + switch_noise N Delta E D0 D)%R.
(** Error in the slots after SlotToCoeff: the rows of a group have sum 2^G. *)
Definition stc_error (N Delta E : Z) (G D : nat) (z0 D0 : R) : R :=
  (2 * error_after (fun _ => 2 ^ G)%R (row_rounding N Delta G) z0 (switch_noise N Delta E D0) D)%R.
