(** Model of the measuring parts of src/experiment/section3/theorem_cts_error.cpp (measure_cts_error) and of
    src/experiment/section4/example_sup_norm.cpp (measure_sup_norm).  [double] is the type of real numbers and arithmetic is exact.
    Printing is left out: the functions return the numbers that are printed.  The random message is the parameter [z]. *)
From Coq Require Import ZArith List Bool Reals.
From Verif Require Import Base Util ZQ RQ Rot Conv Core GSum Matrix DFT Encode Bootstrap Section3 Section4.
Import ListNotations.
Open Scope Z_scope.

(** Z_Q.h:311-321 operator double with exact conversion of the word to double *)
Definition zq_double (LOGQ : Z) (D : arr) : res R := v <- zq_to_double_int LOGQ D ;; Ok (IZR v).

(** theorem_cts_error.cpp:65-68 ([off] = 0) and 69-72 ([off] = N/2), example_sup_norm.cpp:108-115: z_cts_exact[0].r and z_cts_exact[1].r.
    The index is computed in uint32_t. *)
Definition cts_wanted (LOGQ LOGN Delta off : Z) (pt : poly) (r : rarr) : res rarr :=
  for_ 0 (Z.quot (2 ^ LOGN) 2) (fun i r =>
    b <- bitReverse i (LOGN - 1) ;;
    p <- lget pt ((b + off) mod 2 ^ 32) ;;
    val_double <- zq_double LOGQ p ;;
    gwr r i (val_double / IZR Delta)%R) r.

(** theorem_cts_error.cpp:40-41, 52-75, example_sup_norm.cpp:77-78, 95-118: from the raised ciphertext ct to z_amb, e[0] and e[1].  [stc], [st] and [st2]
    are the static tables of CoeffToSlot, ifftNR and fftNR.  The loop over i = 0, 1 of lines 59-62 is written out; measure_sup_norm does not use z_amb. *)
Definition cts_errors (LOGQ LOGN LOGDELTA LOGDELTA_boot_tilde G RM : Z) (rnd : nat -> Z) (stc st st2 : tables) (pos : nat) (ct : sq) (s : arr)
    : res (tables * tables * tables * nat * ((rarr * rarr) * (rarr * rarr) * (rarr * rarr))) :=
  let N := 2 ^ LOGN in
  let n := Z.quot N 2 in
  let Delta := 2 ^ LOGDELTA in
  pt <- dec LOGQ N ct s (rq_new LOGQ N) ;;
  z_amb <- msg_new (K := Rops) n ;;
  '(st2, z_amb) <- decode LOGQ LOGN st2 pt Delta (fst z_amb) (snd z_amb) ;;
  z0 <- msg_new (K := Rops) n ;; z1 <- msg_new (K := Rops) n ;;
  x0 <- msg_new (K := Rops) n ;; x1 <- msg_new (K := Rops) n ;;
  e0 <- msg_new (K := Rops) n ;; e1 <- msg_new (K := Rops) n ;;
  '(stc, st, pos, ct0, ct1) <- CoeffToSlot LOGQ LOGN LOGDELTA_boot_tilde RM rnd G stc st pos ct s (sq_new LOGQ N) (sq_new LOGQ N) ;;
  guard (negb (G =? 0)) ;;;
  scale <- int_ (LOGDELTA + Z.quot (LOGN - 1) G * LOGDELTA_boot_tilde) ;;
  pt0 <- dec LOGQ N ct0 s (rq_new LOGQ N) ;;
  '(st2, z0) <- decode_log LOGQ LOGN st2 pt0 scale (fst z0) (snd z0) ;;
  pt1 <- dec LOGQ N ct1 s (rq_new LOGQ N) ;;
  '(st2, z1) <- decode_log LOGQ LOGN st2 pt1 scale (fst z1) (snd z1) ;;
  xr0 <- cts_wanted LOGQ LOGN Delta 0 pt (fst x0) ;;
  xr1 <- cts_wanted LOGQ LOGN Delta (Z.quot N 2) pt (fst x1) ;;
  e0 <- msg_sub (K := Rops) n z0 (xr0, snd x0) e0 ;;
  e1 <- msg_sub (K := Rops) n z1 (xr1, snd x1) e1 ;;
  Ok (stc, st, st2, pos, (z_amb, e0, e1)).

(** theorem_cts_error.cpp:25-39 and example_sup_norm.cpp:63-76: keygen, encode, enc and the resize to LOGQ.  Returns s, pt_q and ct. *)
Definition cts_input (fuel : nat) (LOGq LOGQ LOGN LOGDELTA H RM : Z) (rnd : nat -> Z) (st : tables) (pos : nat) (z : rarr * rarr) : res (tables * nat * (arr * poly * sq)) :=
  let N := 2 ^ LOGN in
  '(s, pos) <- keygen fuel N rnd H (fresh N) pos ;;
  '(st, pt_q) <- encode LOGq LOGN st (fst z) (snd z) (2 ^ LOGDELTA) (rq_new LOGq N) ;;
  '(ct_q, pos) <- enc LOGq N RM rnd pt_q s (sq_new LOGq N) pos ;;
  ct <- sq_resize LOGq LOGQ N ct_q (sq_new LOGQ N) ;;
  Ok (st, pos, (s, pt_q, ct)).

(** theorem_cts_error.cpp:6-82 measure_cts_error: C1, the expected and measured norms of z_amb and the expected and measured norms of e_whole.
    The check of lines 84-92 is [cts_expected_check]. *)
Definition measure_cts_error (fuel : nat) (LOGq LOGQ LOGN LOGDELTA LOGDELTA_boot_tilde G H RM : Z) (rnd : nat -> Z) (stc st st2 : tables) (pos : nat) (z : rarr * rarr)
    : res (tables * tables * tables * nat * (R * (R * R) * (R * R))) :=
  let n := Z.quot (2 ^ LOGN) 2 in
  '(_, _, C1) <- cts_constants LOGN G H ;;
  '(st, pos, (s, pt_q, ct)) <- cts_input fuel LOGq LOGQ LOGN LOGDELTA H RM rnd st pos z ;;
  '(stc, st, st2, pos, (z_amb, e0, e1)) <- cts_errors LOGQ LOGN LOGDELTA LOGDELTA_boot_tilde G RM rnd stc st st2 pos ct s ;;
  z_amb_measured <- msg_norm n z_amb ;;
  e_whole <- msg_new (K := Rops) (2 * n) ;;
  e_whole <- aggregate (K := Rops) n e0 e1 e_whole ;;
  e_expected <- cts_expected LOGN G H LOGq LOGDELTA LOGDELTA_boot_tilde ;;
  e_measured <- msg_norm (2 * n) e_whole ;;
  Ok (stc, st, st2, pos, (C1, (z_amb_expected LOGN H LOGq LOGDELTA, z_amb_measured), (e_expected, e_measured))).

(** example_sup_norm.cpp:81-90: pt_per_Delta_norm and pt_per_Delta_sup_norm *)
Definition pt_norms (LOGq N Delta : Z) (pt_q : poly) : res (R * R) :=
  '(norm, sup) <- for_ 0 N (fun i '(norm, sup) =>
      p <- lget pt_q i ;;
      val <- zq_double LOGq p ;;
      let a := (Rabs val / IZR Delta)%R in
      let sup := if Rlt_dec sup a then a else sup in
      Ok (norm + a * a, sup)%R) (0%R, 0%R) ;;
  Ok (sqrt norm, sup).

(** example_sup_norm.cpp:44-129 measure_sup_norm: C1 and the four pairs (bound or expected number, measured number) *)
Definition measure_sup_norm (fuel : nat) (LOGq LOGQ LOGN LOGDELTA LOGDELTA_boot_tilde G H RM : Z) (rnd : nat -> Z) (stc st st2 : tables) (pos : nat) (z : rarr * rarr)
    : res (tables * tables * tables * nat * (R * (R * R) * (R * R) * (R * R))) :=
  let N := 2 ^ LOGN in
  let n := Z.quot N 2 in
  let C2 := 5%R in
  '(_, _, C1) <- cts_constants LOGN G H ;;
  '(st, pos, (s, pt_q, ct)) <- cts_input fuel LOGq LOGQ LOGN LOGDELTA H RM rnd st pos z ;;
  '(norm, sup) <- pt_norms LOGq N (2 ^ LOGDELTA) pt_q ;;
  '(stc, st, st2, pos, (z_amb, e0, e1)) <- cts_errors LOGQ LOGN LOGDELTA LOGDELTA_boot_tilde G RM rnd stc st st2 pos ct s ;;
  e_whole <- msg_new (K := Rops) (2 * n) ;;
  e_whole <- aggregate (K := Rops) n e0 e1 e_whole ;;
  e_expected <- cts_expected LOGN G H LOGq LOGDELTA LOGDELTA_boot_tilde ;;
  e_measured <- msg_norm (2 * n) e_whole ;;
  e_sup <- msg_sup_norm (2 * n) e_whole ;;
  Ok (stc, st, st2, pos, (C1, (norm / sqrt (IZR N) * C2, sup)%R, (e_expected, e_measured), (e_expected / sqrt (IZR N) * C2, e_sup)%R)).
