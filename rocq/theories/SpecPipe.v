(** The errors of the bootstrapping, in units of q = 2^LOGq.  Nothing here refers to the model. *)
From Coq Require Import ZArith Reals.
From Verif Require Import SpecLin SpecBoot SpecEval SpecMod.
Open Scope Z_scope.

(** Dimension N, key with h nonzero coefficients, scales of CoeffToSlot and SlotToCoeff, D groups of G matrices; the multiples I of q that
    mod_raise adds are at most [B] and the plaintext at most [dmax] times q. *)
Section Errors.
Context (N h LOGq LDc LDs : Z) (G D : nat) (B : Z) (dmax : R).
Definition boot_q : R := IZR (2 ^ LOGq).
Definition boot_noise : Z := 16 * N + 1 + h.
(** rounding errors of CoeffToSlot *)
Definition boot_rounding : R := cts_rounding N (2 ^ LDc) boot_noise G D (IZR N * (IZR B + dmax)) boot_q.
(** noise of CoeffToSlot and RS *)
Definition boot_cts_noise : R := (switch_noise N (2 ^ LDc) boot_noise boot_q D + rescale_noise N h boot_q)%R.
(** error of EvalMod, with respect to the arguments with their rounding errors *)
Definition boot_mod_error : R := (evalmod_error N h boot_q 24 boot_cts_noise + 6 / 5 * PI ^ 4 * (dmax + boot_rounding) ^ 5)%R.
(** SlotToCoeff of the results of EvalMod, which have the rounding errors of CoeffToSlot *)
Definition conventional_error : R :=
  (stc_error N (2 ^ LDs) boot_noise G D (dmax + boot_rounding + boot_mod_error) boot_q + 2 * (boot_rounding + boot_mod_error))%R.
(** SlotToCoeff of the differences of arguments and results of EvalMod, in which the rounding errors of CoeffToSlot cancel *)
Definition proposed_error : R :=
  (stc_error N (2 ^ LDs) boot_noise G D (IZR B + (boot_cts_noise + boot_mod_error)) boot_q + 2 * (boot_cts_noise + boot_mod_error))%R.
End Errors.
