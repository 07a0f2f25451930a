(** Vocabulary for statements about CoeffToSlot and SlotToCoeff in floating-point arithmetic. *)
From Coq Require Import ZArith List Bool Reals.
From Verif Require Import Base ZQ Core GSum Matrix DFT SpecZQ SpecPoly SpecScheme SpecMat SpecDFT SpecEnc SpecLin Bootstrap SpecBoot Float SpecFloat.
From Verif Require Import SpecFloatLin FloatLin.
Open Scope R_scope.

(** [lpow] computes powers with relative error at most [p] (for the arguments that occur) *)
Definition power_within (p : R) (lpow : R -> R -> R) : Prop :=
  0 <= p <= / 1024 /\ forall x y, 1 <= x <= IZR (2 ^ 27) -> 0 <= y <= 2 -> Rabs (lpow x y - Rpower x y) <= p * Rpower x y.
(** Error of the constant N^(-1/(LOGN-1)) computed with rounding errors *)
Definition factor_error (u eta p : R) (LOGN : Z) : R := p + 7 * u + (3 * IZR LOGN + 1) * eta.
(** Error of a row of a matrix of SlotToCoeff, and of CoeffToSlot *)
Definition stc_row_error (u eta t : R) (LOGN : Z) : R := 9 / 2 * table_error u eta t (2 ^ LOGN).
Definition cts_row_error (u eta t p : R) (LOGN : Z) : R := 9 / 2 * (table_error u eta t (2 ^ LOGN) + factor_error u eta p LOGN + u + eta).

(** the function-static tables of CoeffToSlot (of SlotToCoeff) as left by earlier calls with the same arithmetic *)
Inductive f_cts_static (F : fpu) (lpow : R -> R -> R) (LOGQ LOGN LOGDELTA G : Z) : tables -> Prop :=
| f_cts_first : f_cts_static F lpow LOGQ LOGN LOGDELTA G None
| f_cts_next RM rng stc st pos ct s ct0 ct1 stc' st' pos' ct0' ct1' : f_cts_static F lpow LOGQ LOGN LOGDELTA G stc ->
    f_CoeffToSlot F lpow LOGQ LOGN LOGDELTA RM rng G stc st pos ct s ct0 ct1 = Ok (stc', st', pos', ct0', ct1') -> f_cts_static F lpow LOGQ LOGN LOGDELTA G stc'.
Inductive f_stc_static (F : fpu) (LOGQ LOGN LOGDELTA G : Z) : stables -> Prop :=
| f_stc_first : f_stc_static F LOGQ LOGN LOGDELTA G None
| f_stc_next RM rng sts st pos ct0 ct1 s ct_ sts' st' pos' ct' : f_stc_static F LOGQ LOGN LOGDELTA G sts ->
    f_SlotToCoeff F LOGQ LOGN LOGDELTA RM rng G sts st pos ct0 ct1 s ct_ = Ok (sts', st', pos', ct') -> f_stc_static F LOGQ LOGN LOGDELTA G sts'.

(** Error of a row of a group of G matrices with 3 diagonals: [e] for the entries of the computed product, and the error of encode on
    3^G entries of modulus at most [B] *)
Definition f_row (N Delta : Z) (G : nat) (e ee : R) : R := e + IZR (3 ^ Z.of_nat G) * encoded_error N Delta ee.
(** As [cts_error] and [stc_error], with [dl] for the error of a row *)
Definition f_cts_rounding (N Delta E : Z) (D : nat) (dl z0 D0 : R) : R :=
  2 * error_after (fun _ => Rpower 2 (- / INR D)) dl z0 (switch_noise N Delta E D0) D.
Definition f_cts_error (N Delta E : Z) (D : nat) (dl z0 D0 : R) : R := f_cts_rounding N Delta E D dl z0 D0 + switch_noise N Delta E D0 D.
Definition f_stc_error (N Delta E : Z) (G D : nat) (dl z0 D0 : R) : R :=
  2 * error_after (fun _ => 2 ^ G) dl z0 (switch_noise N Delta E D0) D.

(** CoeffToSlot: the rows of a matrix have sum 2^(-1/(LOGN-1)) *)
Definition cts_group_error (u eta t p : R) (LOGN : Z) (G : nat) : R :=
  group_error u eta 3 G (fun _ => Rpower 2 (- / IZR (LOGN - 1))) (fun _ => cts_row_error u eta t p LOGN) 0.
Definition cts_group_fits (u eta top t p : R) (LOGN : Z) (G : nat) : Prop :=
  group_fits u eta top 3 G (fun _ => Rpower 2 (- / IZR (LOGN - 1))) (fun _ => cts_row_error u eta t p LOGN) 0.
(** SlotToCoeff: the rows of a matrix have sum 2 *)
Definition stc_group_error (u eta t : R) (LOGN : Z) (G : nat) : R := group_error u eta 3 G (fun _ => 2) (fun _ => stc_row_error u eta t LOGN) 0.
Definition stc_group_fits (u eta top t : R) (LOGN : Z) (G : nat) : Prop := group_fits u eta top 3 G (fun _ => 2) (fun _ => stc_row_error u eta t LOGN) 0.
