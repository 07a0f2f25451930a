(** A number for the error of EvalMod in floating-point arithmetic. *)
From Coq Require Import ZArith Reals Lra Lia.
From Verif Require Import SpecEval SpecMod EvalModBound.
From Verif Require Import SpecFloatMod.
Open Scope R_scope.

Section B.
Context (u eta : R) (N h : Z) (Delta : R) (K : Z) (e d : R).
Hypothesis (Hu : 0 <= u) (Heta : 0 <= eta) (Hw : u + eta <= / IZR (8 * 10 ^ 15)).
Hypothesis (HN : (2 <= N)%Z) (Hh : (0 <= h)%Z) (HD : 0 < Delta) (HK : (1 <= K)%Z) (He : 0 <= e).
Hypothesis (Hd : em_arg_error N h Delta K (f_em_in u eta Delta K e) + 2 * mul_noise N h Delta <= d) (Hd8 : d <= / IZR (10 ^ 8)).
Let m := mul_noise N h Delta.
Let rs := rescale_noise N h Delta.
Let e' := f_em_in u eta Delta K e.
Lemma f_em_in_nonneg : 0 <= e'.
Proof.
  unfold e', f_em_in. assert (HK1 : 1 <= IZR K) by (apply IZR_le; lia). assert (0 <= eta / Delta) by (apply Rmult_le_pos; [lra|apply Rlt_le, Rinv_0_lt_compat; lra]).
  assert (0 <= IZR K * (eta / Delta)) by (apply Rmult_le_pos; lra). assert (0 <= (u + IZR K * (eta / Delta)) * (e + IZR K + 2)) by (apply Rmult_le_pos; lra). lra.
Qed.
Lemma f_y_bound : 0 <= f_em_y_error u eta N h Delta K e <= 1302000 * d + 9 / IZR (10 ^ 12).
Proof.
  pose proof f_em_in_nonneg as He'. pose proof (d_pos N h Delta K e' d HN Hh HD HK He' Hd) as P. pose proof (polys N h Delta K e' d HN Hh HD HK He' Hd Hd8) as L.
  pose proof (dbl N h Delta K e' d HN Hh HD HK He' Hd) as DB.
  change (IZR (8 * 10 ^ 15)) with 8000000000000000 in Hw. change (IZR (10 ^ 8)) with 100000000 in Hd8. change (IZR (10 ^ 12)) with 1000000000000.
  unfold f_em_y_error, f_em_cos_error, em_cos_error. fold e'. change (IZR (10 ^ 15)) with 1000000000000000. set (l5 := poly_error _ _ _ _ _ _ 5) in *.
  set (g := l5 + 24 / 1000000000000000 + 64 * (u + eta)). assert (G : 0 <= g <= 5070 * d + 32 / 1000000000000000) by (unfold g; lra).
  cbn [angle_error].
  pose proof (DB g (/ 10000) ltac:(lra)) as G1. set (g1 := double_error N h Delta 1 g) in *.
  pose proof (DB g1 (/ 4000) ltac:(lra)) as G2. set (g2 := double_error N h Delta 1 g1) in *.
  pose proof (DB g2 (/ 1000) ltac:(lra)) as G3. set (g3 := double_error N h Delta 1 g2) in *.
  pose proof (DB g3 (/ 250) ltac:(lra)) as G4. lra.
Qed.
Theorem f_evalmod_error_bound : 0 <= f_evalmod_error u eta N h Delta K e <= 340000 * d + 3 / IZR (10 ^ 12).
Proof.
  pose proof f_em_in_nonneg as He'. pose proof (facts N h Delta K e' HN Hh HD HK He') as (F1 & F2 & F3 & F4). pose proof (d_pos N h Delta K e' d HN Hh HD HK He' Hd) as P. pose proof f_y_bound as Y.
  fold m in Hd, F1. fold rs in F2, F4. fold e' in Hd. unfold f_evalmod_error, f_em_times_error, em_times_error, em_square_error. set (y := f_em_y_error u eta N h Delta K e) in *. fold m rs.
  change (IZR (8 * 10 ^ 15)) with 8000000000000000 in Hw. change (IZR (10 ^ 8)) with 100000000 in Hd8. change (IZR (10 ^ 12)) with 1000000000000 in *.
  assert (3 / Delta = 3 * (1 / Delta)) by (field; lra). assert (2 / Delta = 2 * (1 / Delta)) by (field; lra).
  assert (Y1 : y <= 1 / 70) by lra. pose proof (prod_le y y (1 / 70) ltac:(lra) ltac:(lra)). pose proof (Rmult_le_pos _ _ (proj1 Y) (proj1 Y)).
  assert (W1 : 0 <= (u + eta) * (1 + y) <= / 8000000000000000 * 2) by (split; [apply Rmult_le_pos; lra|apply Rmult_le_compat; lra]).
  set (q := 2 * y + y * y + m + rs) in *. set (tt := y / 36 + 2 / Delta + rs + (u + eta) * (1 + y)).
  assert (Q : 0 <= q <= 203 / 100 * y + d) by (unfold q; lra). assert (T : 0 <= tt <= y / 36 + 3 * d + / 4000000000000000) by (unfold tt; lra).
  pose proof (prod_le tt q (1 / 2000) ltac:(lra) ltac:(lra)) as TQ. rewrite (Rmult_comm tt q) in TQ. pose proof (Rmult_le_pos _ _ (proj1 Q) (proj1 T)). lra.
Qed.
End B.
