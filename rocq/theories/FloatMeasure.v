(** Model of src/experiment/section4/measure_b_evalmod.cpp in floating-point arithmetic. *)
From Coq Require Import ZArith List Bool Reals.
From Verif Require Import Base Util RQ Core GSum Matrix DFT SpecMat Section4 Float FloatMod FloatMsg FloatSetup.
Import ListNotations.
Open Scope Z_scope.

Section Fp.
(** [lpow] is std::pow *)
Context (F : fpu) (lpow : R -> R -> R).

(** measure_b_evalmod.cpp:17-29: z and z_evalmod_exact; the ints i, j and eps_num are converted without rounding *)
Definition f_evalmod_messages (N : Z) : res ((rarr * rarr) * (rarr * rarr)) :=
  let n := Z.quot N 2 in
  z <- msg_new (K := Rops) n ;;
  x <- msg_new (K := Rops) n ;;
  let q_per_Delta := lpow 2 10 in
  '(zr, xr, idx) <- for_ (-24) 25 (fun i st =>
      for_ (- eps_num N) (eps_num N + 1) (fun j '(zr, xr, idx) =>
        d <- f_div F (IZR j) (IZR (eps_num N)) ;;
        zr <- gwr zr idx (rnd F (rnd F (IZR i * q_per_Delta) + d)) ;;
        d <- f_div F (IZR j) (IZR (eps_num N)) ;;
        xr <- gwr xr idx d ;;
        idx <- int_ (idx + 1) ;;
        Ok (zr, xr, idx)) st) (fst z, fst x, 0) ;;
  Ok ((zr, snd z), (xr, snd x)).

(** measure_b_evalmod.cpp:6-53, as measure_b_evalmod of Section4.v with rounded operations.  Returns z_evalmod and the number printed. *)
Definition f_measure_b_evalmod (fuel : nat) (LOGQ LOGN LOGDELTA LOGDELTA_boot K H RM : Z) (rng : nat -> Z) (st st2 : tables) (pos : nat) : res (tables * tables * nat * ((rarr * rarr) * R)) :=
  let N := 2 ^ LOGN in
  let n := Z.quot N 2 in
  '(s, pos) <- keygen fuel N rng H (fresh N) pos ;;
  '(z, x) <- f_evalmod_messages N ;;
  '(st, pt) <- f_encode F LOGQ LOGN st (fst z) (snd z) (2 ^ LOGDELTA) (rq_new LOGQ N) ;;
  '(ct, pos) <- enc LOGQ N RM rng pt s (sq_new LOGQ N) pos ;;
  let LOGQ_after := LOGQ - 12 * LOGDELTA_boot in
  '(pos, c) <- for_ 0 2 (fun _ '(pos, c) => f_EvalMod F LOGQ N LOGDELTA_boot K RM rng pos ct s c) (pos, sq_new LOGQ_after N) ;;
  pt <- dec LOGQ_after N c s (rq_new LOGQ_after N) ;;
  y <- msg_new (K := Rops) n ;;
  '(st2, y) <- f_decode_log F LOGQ_after LOGN st2 pt LOGDELTA (fst y) (snd y) ;;
  e <- msg_new (K := Rops) n ;;
  e <- msg_sub (K := Fops F) n x y e ;;
  ei <- for_ 0 n (fun i ei => gwr ei i 0%R) (snd e) ;;
  b <- f_sup_norm F n (fst e, ei) ;;
  Ok (st, st2, pos, (y, b)).
End Fp.
