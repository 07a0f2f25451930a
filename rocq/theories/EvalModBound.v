(** A number for the error of EvalMod. *)
From Coq Require Import ZArith Reals Lra Lia.
From Verif Require Import SpecEval SpecMod.
Open Scope R_scope.

Section B.
Context (N h : Z) (Delta : R) (K : Z) (e d : R).
Hypothesis (HN : (2 <= N)%Z) (Hh : (0 <= h)%Z) (HD : 0 < Delta) (HK : (1 <= K)%Z) (He : 0 <= e).
Hypothesis (Hd : em_arg_error N h Delta K e + 2 * mul_noise N h Delta <= d) (Hd8 : d <= / IZR (10 ^ 8)).
Let m := mul_noise N h Delta.
Let rs := rescale_noise N h Delta.

Lemma m_pos : 0 <= m.
Proof.
  unfold m, mul_noise. apply Rmult_le_pos; [apply Rmult_le_pos; apply IZR_le; lia|]. apply Rlt_le, Rinv_0_lt_compat. apply Rmult_lt_0_compat; [lra|]. apply Rmult_lt_0_compat; lra.
Qed.
Lemma rs_big : 1 / Delta <= rs.
Proof.
  unfold rs, rescale_noise. replace (IZR N * IZR (1 + h) / (2 * Delta)) with (IZR N * IZR (1 + h) / 2 * / Delta) by (field; lra). unfold Rdiv at 1.
  apply Rmult_le_compat_r; [apply Rlt_le, Rinv_0_lt_compat; lra|]. assert (2 <= IZR N) by (apply IZR_le; lia). assert (1 <= IZR (1 + h)) by (apply IZR_le; lia). nra.
Qed.
Lemma inv_pos : 0 < 1 / Delta.
Proof. unfold Rdiv. rewrite Rmult_1_l. apply Rinv_0_lt_compat. lra. Qed.
Lemma arg_low : 3 / Delta + rs <= em_arg_error N h Delta K e.
Proof.
  unfold em_arg_error. fold rs. assert (1 <= IZR K) by (apply IZR_le; lia).
  assert (0 <= e / IZR K) by (apply Rmult_le_pos; [lra|apply Rlt_le, Rinv_0_lt_compat; lra]).
  assert (3 / Delta <= (IZR K + 2) / Delta) by (apply Rmult_le_compat_r; [apply Rlt_le, Rinv_0_lt_compat; lra|lra]). lra.
Qed.
Definition facts := conj m_pos (conj rs_big (conj inv_pos arg_low)).
Lemma prod_le a b A : 0 <= b -> a <= A -> a * b <= A * b.
Proof. intros. apply Rmult_le_compat_r; lra. Qed.

Lemma dbl t b : 0 <= t <= b -> 0 <= double_error N h Delta 1 t <= 4 * t + 2 * b * t + d.
Proof.
  intros Ht. pose proof facts as (F1 & F2 & F3 & F4). unfold double_error. fold m rs. fold m in Hd. pose proof (prod_le t t b ltac:(lra) ltac:(lra)). nra.
Qed.
Lemma comb t l B b : 0 <= t <= b -> 0 <= l -> 0 <= B -> 0 <= combine_error N h Delta 1 t B l <= 2 * l + B * t + b * l + d.
Proof.
  intros Ht Hl HB. pose proof facts as (F1 & F2 & F3 & F4). unfold combine_error. fold m rs. fold m in Hd. pose proof (prod_le t l b ltac:(lra) ltac:(lra)).
  pose proof (Rmult_le_pos _ _ (proj1 Ht) Hl). pose proof (Rmult_le_pos _ _ HB (proj1 Ht)). lra.
Qed.
Let a := angle_error N h Delta (fun _ => 1) (em_arg_error N h Delta K e).
Let l := poly_error N h Delta (fun _ => 1) (65 / 100) (em_arg_error N h Delta K e).
Lemma d_pos : 0 < d.
Proof. pose proof facts as (F1 & F2 & F3 & F4). fold m in Hd. assert (3 / Delta = 3 * (1 / Delta)) by (field; lra). lra. Qed.
Lemma angles : 0 <= a 0 <= d /\ 0 <= a 1 <= 51 / 10 * d /\ 0 <= a 2 <= 22 * d /\ 0 <= a 3 <= 90 * d /\ 0 <= a 4 <= 362 * d.
Proof.
  pose proof facts as (F1 & F2 & F3 & F4). pose proof d_pos as P. fold m in Hd. assert (3 / Delta = 3 * (1 / Delta)) by (field; lra).
  assert (A0 : 0 <= a 0 <= d) by (unfold a; cbn [angle_error]; lra).
  assert (A1 : 0 <= a 1 <= 51 / 10 * d) by (pose proof (dbl (a 0) (/ 1000) ltac:(lra)) as G; change (double_error N h Delta 1 (a 0)) with (a 1) in G; lra).
  assert (A2 : 0 <= a 2 <= 22 * d) by (pose proof (dbl (a 1) (/ 1000) ltac:(lra)) as G; change (double_error N h Delta 1 (a 1)) with (a 2) in G; lra).
  assert (A3 : 0 <= a 3 <= 90 * d) by (pose proof (dbl (a 2) (/ 1000) ltac:(lra)) as G; change (double_error N h Delta 1 (a 2)) with (a 3) in G; lra).
  assert (A4 : 0 <= a 4 <= 362 * d) by (pose proof (dbl (a 3) (/ 1000) ltac:(lra)) as G; change (double_error N h Delta 1 (a 3)) with (a 4) in G; lra).
  tauto.
Qed.
Lemma polys : 0 <= l 5 <= 5070 * d.
Proof.
  pose proof facts as (F1 & F2 & F3 & F4). pose proof d_pos as P. pose proof angles as (A0 & A1 & A2 & A3 & A4). fold m in Hd. assert (3 / Delta = 3 * (1 / Delta)) by (field; lra).
  assert (L0 : 0 <= l 0 <= d) by (unfold l; cbn [poly_error]; lra).
  assert (B : forall i, l (S i) = combine_error N h Delta 1 (a i) (part_bound (fun _ => 1) (65 / 100) i) (l i)) by reflexivity.
  assert (L1 : 0 <= l 1 <= 366 / 100 * d) by (rewrite B; cbn [part_bound]; pose proof (comb (a 0) (l 0) (65 / 100) (/ 1000) ltac:(lra) ltac:(lra) ltac:(lra)); lra).
  assert (L2 : 0 <= l 2 <= 15 * d) by (rewrite B; cbn [part_bound]; pose proof (comb (a 1) (l 1) (65 / 100 * (1 + 1)) (/ 1000) ltac:(lra) ltac:(lra) ltac:(lra)); lra).
  assert (L3 : 0 <= l 3 <= 89 * d) by (rewrite B; cbn [part_bound]; pose proof (comb (a 2) (l 2) (65 / 100 * (1 + 1) * (1 + 1)) (/ 1000) ltac:(lra) ltac:(lra) ltac:(lra)); lra).
  assert (L4 : 0 <= l 4 <= 648 * d) by (rewrite B; cbn [part_bound]; pose proof (comb (a 3) (l 3) (65 / 100 * (1 + 1) * (1 + 1) * (1 + 1)) (/ 1000) ltac:(lra) ltac:(lra) ltac:(lra)); lra).
  rewrite B; cbn [part_bound]; pose proof (comb (a 4) (l 4) (65 / 100 * (1 + 1) * (1 + 1) * (1 + 1) * (1 + 1)) (/ 1000) ltac:(lra) ltac:(lra) ltac:(lra)); lra.
Qed.
Lemma y_bound : 0 <= em_y_error N h Delta K e <= 1302000 * d + 7 / IZR (10 ^ 12).
Proof.
  pose proof d_pos as P. pose proof polys as L. unfold em_y_error, em_cos_error. fold l. set (g := l 5 + 24 / IZR (10 ^ 15)). assert (G : 0 <= g <= 5070 * d + 24 / IZR (10 ^ 15)) by (unfold g; lra).
  cbn [angle_error].
  pose proof (dbl g (/ 10000) ltac:(lra)) as G1. set (g1 := double_error N h Delta 1 g) in *.
  pose proof (dbl g1 (/ 4000) ltac:(lra)) as G2. set (g2 := double_error N h Delta 1 g1) in *.
  pose proof (dbl g2 (/ 1000) ltac:(lra)) as G3. set (g3 := double_error N h Delta 1 g2) in *.
  pose proof (dbl g3 (/ 250) ltac:(lra)) as G4. lra.
Qed.
Theorem evalmod_error_bound : evalmod_error N h Delta K e <= 340000 * d + 2 / IZR (10 ^ 12).
Proof.
  pose proof facts as (F1 & F2 & F3 & F4). pose proof d_pos as P. pose proof y_bound as Y. fold m in Hd. unfold evalmod_error, em_times_error, em_square_error. set (y := em_y_error N h Delta K e) in *. fold m rs.
  assert (3 / Delta = 3 * (1 / Delta)) by (field; lra). assert (2 / Delta = 2 * (1 / Delta)) by (field; lra).
  assert (Y1 : y <= 1 / 70) by lra. pose proof (prod_le y y (1 / 70) ltac:(lra) ltac:(lra)). pose proof (Rmult_le_pos _ _ (proj1 Y) (proj1 Y)).
  set (q := 2 * y + y * y + m + rs) in *. set (t := y / 36 + 2 / Delta + rs).
  assert (Q : 0 <= q <= 203 / 100 * y + d) by (unfold q; lra). assert (T : 0 <= t <= y / 36 + 3 * d) by (unfold t; lra).
  pose proof (prod_le t q (1 / 2000) ltac:(lra) ltac:(lra)) as TQ. rewrite (Rmult_comm t q) in TQ. lra.
Qed.
End B.

(** The error is not negative *)
Section Nonneg.
Context (N h : Z) (Delta : R).
Hypothesis (HN : (2 <= N)%Z) (Hh : (0 <= h)%Z) (HD : 0 < Delta).
Lemma rescale_nonneg : 0 <= rescale_noise N h Delta.
Proof. pose proof (rs_big N h Delta HN Hh HD). pose proof (inv_pos Delta HD). lra. Qed.
Lemma angle_nonneg M eps i : (forall i, 0 <= M i) -> 0 <= eps -> 0 <= angle_error N h Delta M eps i.
Proof.
  intros HM He. pose proof rescale_nonneg as H1. pose proof (m_pos N h Delta HN Hh HD) as H2. induction i as [|i IH]; cbn [angle_error]; [exact He|]. unfold double_error. specialize (HM i).
  assert (0 <= M i * angle_error N h Delta M eps i) by (apply Rmult_le_pos; lra). assert (0 <= angle_error N h Delta M eps i * angle_error N h Delta M eps i) by (apply Rmult_le_pos; lra). lra.
Qed.
Lemma poly_nonneg M U eps i : (forall i, 0 <= M i) -> 0 <= U -> 0 <= eps -> 0 <= part_bound M U i /\ 0 <= poly_error N h Delta M U eps i.
Proof.
  intros HM HU He. pose proof rescale_nonneg as H1. pose proof (m_pos N h Delta HN Hh HD) as H2. pose proof (inv_pos Delta HD) as H3. induction i as [|i [I1 I2]]; cbn [part_bound poly_error]; [lra|].
  pose proof (angle_nonneg M eps i HM He) as HA. specialize (HM i). split; [apply Rmult_le_pos; lra|]. unfold combine_error.
  set (l := poly_error N h Delta M U eps i) in *. set (a := angle_error N h Delta M eps i) in *. set (b := part_bound M U i) in *.
  assert (0 <= M i * l) by (apply Rmult_le_pos; lra). assert (0 <= b * a) by (apply Rmult_le_pos; lra). assert (0 <= a * l) by (apply Rmult_le_pos; lra). lra.
Qed.
Lemma evalmod_error_nonneg K e : (1 <= K)%Z -> 0 <= e -> 0 <= evalmod_error N h Delta K e.
Proof.
  intros HK He. pose proof rescale_nonneg as H1. pose proof (m_pos N h Delta HN Hh HD) as H2. pose proof (inv_pos Delta HD) as H3. pose proof (arg_low N h Delta K e HD HK He) as H4.
  assert (HA : 0 <= em_arg_error N h Delta K e) by lra.
  assert (HC : 0 <= em_cos_error N h Delta K e).
  { unfold em_cos_error. destruct (poly_nonneg (fun _ => 1) (65 / 100) (em_arg_error N h Delta K e) 5) as [_ P]; [intros _; lra|lra|lra|]. change (10 ^ 15)%Z with 1000000000000000%Z. lra. }
  assert (HY : 0 <= em_y_error N h Delta K e) by (apply angle_nonneg; [intros _; lra|exact HC]). set (y := em_y_error N h Delta K e) in *.
  assert (HS : 0 <= em_square_error N h Delta y) by (unfold em_square_error; assert (0 <= y * y) by (apply Rmult_le_pos; lra); lra).
  assert (HT : 0 <= em_times_error N h Delta y) by (unfold em_times_error; lra).
  unfold evalmod_error. fold y. assert (0 <= em_square_error N h Delta y * em_times_error N h Delta y) by (apply Rmult_le_pos; lra). lra.
Qed.
End Nonneg.
