(** The errors of the bootstrapping with tables and coefficients computed in an arithmetic with unit roundoff u and half the smallest subnormal
    number eta, in units of q = 2^LOGq (compare SpecPipe.v).  Nothing here refers to the model. *)
From Coq Require Import ZArith Reals.
From Verif Require Import SpecLin SpecBoot SpecEval SpecMod SpecPipe SpecFloatBoot SpecFloatMod.
Open Scope Z_scope.

(** [dlc] and [dls] are the errors of the rows of a group of matrices of CoeffToSlot and of SlotToCoeff, after encoding. *)
Section Errors.
Context (u eta : R) (N h LOGq LDc LDs : Z) (G D : nat) (dlc dls : R) (B : Z) (dmax : R).
(** errors of the matrices of CoeffToSlot *)
Definition f_boot_rounding : R := f_cts_rounding N (2 ^ LDc) (boot_noise N h) D dlc (IZR N * (IZR B + dmax)) (boot_q LOGq).
(** error of EvalMod, with respect to the arguments with the errors of CoeffToSlot; the noise of the arguments is as in exact arithmetic *)
Definition f_boot_mod_error : R := (f_evalmod_error u eta N h (boot_q LOGq) 24 (boot_cts_noise N h LOGq LDc D) + 6 / 5 * PI ^ 4 * (dmax + f_boot_rounding) ^ 5)%R.
(** SlotToCoeff of the results of EvalMod, which have the errors of CoeffToSlot *)
Definition f_conventional_error : R :=
  (f_stc_error N (2 ^ LDs) (boot_noise N h) G D dls (dmax + f_boot_rounding + f_boot_mod_error) (boot_q LOGq) + 2 * (f_boot_rounding + f_boot_mod_error))%R.
(** SlotToCoeff of the differences of arguments and results of EvalMod, in which the errors of CoeffToSlot cancel *)
Definition f_proposed_error : R :=
  (f_stc_error N (2 ^ LDs) (boot_noise N h) G D dls (IZR B + (boot_cts_noise N h LOGq LDc D + f_boot_mod_error)) (boot_q LOGq) + 2 * (boot_cts_noise N h LOGq LDc D + f_boot_mod_error))%R.
End Errors.
