(** C98: the experiments on the error of CoeffToSlot refuse a group size that does not divide LOGN-1. *)
From Coq Require Import ZArith List Bool Reals Lia.
From Verif Require Import Base BaseFacts Util ZQ RQ Rot Conv Core GSum Matrix DFT Encode Bootstrap Section3 Section4 CtsMeasure.
Import ListNotations.
Open Scope Z_scope.

Lemma constants_refused LOGN G H : G <> 0 -> ~ (G | LOGN - 1) -> cts_constants LOGN G H = Abort.
Proof.
  intros HG Hd. unfold cts_constants. rewrite (proj2 (Z.eqb_neq _ _) HG). cbn [negb guard bind].
  destruct (Z.eqb_spec (Z.rem (LOGN - 1) G) 0) as [E|E]; [|reflexivity]. destruct Hd. apply Z.rem_divide; auto.
Qed.

(** Before anything is drawn, encoded or printed *)
Theorem C98_divides LOGN G H : G <> 0 -> ~ (G | LOGN - 1) ->
  (forall LOGq LOGDELTA LDt, cts_expected LOGN G H LOGq LOGDELTA LDt = Abort /\ cts_expected_check LOGN G H LOGq LOGDELTA LDt = Abort) /\
  (forall LOGq LOGDELTA, design_delta_tilde LOGN G H LOGq LOGDELTA = Abort) /\
  (forall fuel LOGq LOGQ LOGDELTA LDt RM rnd stc st st2 pos z,
    measure_cts_error fuel LOGq LOGQ LOGN LOGDELTA LDt G H RM rnd stc st st2 pos z = Abort /\
    measure_sup_norm fuel LOGq LOGQ LOGN LOGDELTA LDt G H RM rnd stc st st2 pos z = Abort).
Proof.
  intros HG Hd. pose proof (constants_refused LOGN G H HG Hd) as E.
  unfold cts_expected, cts_expected_check, design_delta_tilde, measure_cts_error, measure_sup_norm. rewrite E. cbn [bind]. auto.
Qed.

(** LOGN = 9 with groups of 3 *)
Example C98_divides_case : design_delta_tilde 9 3 128 60 50 = Abort /\ cts_expected 9 3 128 60 50 24 = Abort.
Proof.
  assert (Hd : ~ (3 | 9 - 1)) by (intros [k Hk]; lia).
  destruct (C98_divides 9 3 128 ltac:(lia) Hd) as (H1 & H2 & _). split; [apply H2|apply H1].
Qed.
