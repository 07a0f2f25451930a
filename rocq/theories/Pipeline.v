(** Model of the two bootstrapping experiments (src/experiment/section4/proposal.cpp; src/test/bootstrap_test.cpp, evalqI_test.cpp and
    end_to_end_test.cpp run the same sequences with other constants).  The objects of the programs are distinct.  Messages, timers and the
    printing of intermediate errors are left out; encode and decode_log are modelled in Encode.v. *)
From Coq Require Import ZArith List Bool Reals.
From Verif Require Import Base ZQ RQ Conv Util Rot Core GSum Matrix DFT Encode LinTrans Bootstrap Poly EvalMod.
Open Scope Z_scope.

Section Pipeline.
(** The template parameters and constants (experiment/rns.h:10-22, proposal.cpp:6 and 73); RM and rnd are RAND_MAX and the stream of rand(). *)
Context (LOGq LOGQ LOGN LOGDELTA_cts LOGDELTA_boot LOGDELTA_stc G K RM : Z) (rnd : nat -> Z).
Definition boot_N : Z := 2 ^ LOGN.
Definition LOGQ_after_cts : Z := LOGQ - (LOGN - 1) / G * LOGDELTA_cts.
Definition LOGQ_after_evalmod : Z := LOGQ_after_cts - 12 * LOGDELTA_boot.
Definition LOGQ_after_stc : Z := LOGQ_after_evalmod - (LOGN - 1) / G * LOGDELTA_stc.

(** proposal.cpp:31-43 and 98-110: CoeffToSlot, RS and EvalMod of ct_modraise.  [stc] and [st] are the static tables of CoeffToSlot and of
    encode.  Returns them, the position in the stream of rand(), ct_ctsrs and ct_evalmod. *)
Definition boot_front (stc st : tables) (pos : nat) (ct_modraise : sq) (s : arr) : res (tables * tables * nat * (sq * sq) * (sq * sq)) :=
  let N := boot_N in
  '(stc, st, pos, c0, c1) <- CoeffToSlot LOGQ LOGN LOGDELTA_cts RM rnd G stc st pos ct_modraise s (sq_new LOGQ N) (sq_new LOGQ N) ;;
  r0 <- RS LOGQ LOGQ_after_cts N c0 (sq_new LOGQ_after_cts N) ;;
  r1 <- RS LOGQ LOGQ_after_cts N c1 (sq_new LOGQ_after_cts N) ;;
  '(pos, e0) <- EvalMod LOGQ_after_cts N LOGDELTA_boot K RM rnd pos r0 s (sq_new LOGQ_after_evalmod N) ;;
  '(pos, e1) <- EvalMod LOGQ_after_cts N LOGDELTA_boot K RM rnd pos r1 s (sq_new LOGQ_after_evalmod N) ;;
  Ok (stc, st, pos, (r0, r1), (e0, e1)).

(** proposal.cpp:45-51 and 119-125: SlotToCoeff and RS *)
Definition boot_back (sts : stables) (st : tables) (pos : nat) (c0 c1 : sq) (s : arr) : res (stables * tables * nat * sq) :=
  let N := boot_N in
  '(sts, st, pos, ct_stc) <- SlotToCoeff LOGQ_after_evalmod LOGN LOGDELTA_stc RM rnd G sts st pos c0 c1 s (sq_new LOGQ_after_evalmod N) ;;
  ct <- RS LOGQ_after_evalmod LOGQ_after_stc N ct_stc (sq_new LOGQ_after_stc N) ;;
  Ok (sts, st, pos, ct).

(** proposal.cpp:27-51: the conventional bootstrapping of [ct], up to ct_boot *)
Definition conventional_boot (stc : tables) (sts : stables) (st : tables) (pos : nat) (ct : sq) (s : arr) : res (tables * stables * tables * nat * sq) :=
  let N := boot_N in
  ct_modraise <- mod_raise LOGq LOGQ N ct (sq_new LOGQ N) ;;
  '(stc, st, pos, _, e) <- boot_front stc st pos ct_modraise s ;;
  '(sts, st, pos, ct_boot) <- boot_back sts st pos (fst e) (snd e) s ;;
  Ok (stc, sts, st, pos, ct_boot).

(** proposal.cpp:112-117, one element: resize(ct_ctsrs[i], ct_evalqI[i]); ct_evalqI[i] -= ct_evalmod[i]; *)
Definition evalqI (r e : sq) : res sq :=
  c <- sq_resize LOGQ_after_cts LOGQ_after_evalmod boot_N r (sq_new LOGQ_after_evalmod boot_N) ;; sq_sub LOGQ_after_evalmod boot_N c e.

(** proposal.cpp:94-130: the proposed bootstrapping of [ct], up to ct_boot *)
Definition proposed_boot (stc : tables) (sts : stables) (st : tables) (pos : nat) (ct : sq) (s : arr) : res (tables * stables * tables * nat * sq) :=
  let N := boot_N in
  ct_modraise <- mod_raise LOGq LOGQ N ct (sq_new LOGQ N) ;;
  '(stc, st, pos, r, e) <- boot_front stc st pos ct_modraise s ;;
  q0 <- evalqI (fst r) (fst e) ;;
  q1 <- evalqI (snd r) (snd e) ;;
  '(sts, st, pos, ct_qI) <- boot_back sts st pos q0 q1 s ;;
  ct_boot <- sq_resize LOGQ LOGQ_after_stc N ct_modraise (sq_new LOGQ_after_stc N) ;;
  ct_boot <- sq_sub LOGQ_after_stc N ct_boot ct_qI ;;
  Ok (stc, sts, st, pos, ct_boot).

(** proposal.cpp:25, 27-55, 58-60 (conventional) and 92, 94-134, 137-139 (proposed): encryption of the encoded message [pt], bootstrapping, decryption,
    e = pt - pt_out.  Returns e. *)
Definition boot_experiment (boot : tables -> stables -> tables -> nat -> sq -> arr -> res (tables * stables * tables * nat * sq))
    (stc : tables) (sts : stables) (st : tables) (pos : nat) (pt : poly) (s : arr) : res poly :=
  let N := boot_N in
  '(ct, pos) <- enc LOGq N RM rnd pt s (sq_new LOGq N) pos ;;
  '(stc, sts, st, pos, ct_boot) <- boot stc sts st pos ct s ;;
  pt_out <- dec LOGQ_after_stc N ct_boot s (rq_new LOGQ_after_stc N) ;;
  e <- rq_resize LOGq LOGQ_after_stc N pt (rq_new LOGQ_after_stc N) ;;
  rq_sub LOGQ_after_stc N e pt_out.
End Pipeline.
