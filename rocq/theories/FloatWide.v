(** EvalMod a little outside the interval of its approximation, in floating-point arithmetic: |x - 1/4| <= 1.0105 K. *)
From Coq Require Import ZArith List Bool Lia Reals Lra Ring.
From Verif Require Import Base BaseFacts Sums ZQ ZQFacts RQ RQFacts Conv ConvFacts Rot Core CoreFacts Util UtilFacts GSum Matrix MatrixFacts DFT DFTTheory DFTFacts FFTFacts
  SpecZQ SpecPoly SpecPolyFacts SpecScheme SpecMat SpecDFT SpecEnc SlotFacts Encode EncodeFacts PolyRing PolyCong Noise Properties_DFT Properties_Conv Properties_Core Properties_Plain LinTrans LinTransFacts LinSlots BootSlots
  SpecCheb Poly ChebFacts SpecEval EvalFacts EvalPoly Properties_Poly PiBound CosTaylor PolyZ CosApprox SpecMod ModApprox EvalMod EvalModFacts EvalModBound Properties_EvalMod Float SpecFloat FloatNum Binary64 Properties_Float FloatBootNum.
From Verif Require Import WideCos WideMod FloatMod SpecFloatMod FloatModFacts FloatModBound Properties_FloatMod.
Import ListNotations.
Open Scope Z_scope.
Add Ring RCfwi : HR.

(** The errors, as in SpecFloatMod.v, with the bounds of WideMod.v *)
Section Errors.
Context (u eta : R) (N h : Z) (Delta : R) (K : Z).
Definition f_wide_cos_error (e : R) : R := (wide_cos_error N h Delta K (f_em_in u eta Delta K e) + 310 * (u + eta))%R.
Definition f_wide_y_error (e : R) : R := angle_error N h Delta (fun _ => 1%R) (f_wide_cos_error e) 4.
Definition f_wide_error (e : R) : R :=
  (7 * f_em_times_error u eta N h Delta (f_wide_y_error e) + em_square_error N h Delta (f_wide_y_error e) / 36 + em_square_error N h Delta (f_wide_y_error e) * f_em_times_error u eta N h Delta (f_wide_y_error e)
  + mul_noise N h Delta + rescale_noise N h Delta)%R.
End Errors.

Section B.
Open Scope R_scope.
Context (u eta : R) (N h : Z) (Delta : R) (K : Z) (e d : R).
Hypothesis (Hu : 0 <= u) (Heta : 0 <= eta) (Hw : u + eta <= / IZR (8 * 10 ^ 15)).
Hypothesis (HN : (2 <= N)%Z) (Hh : (0 <= h)%Z) (HD : 0 < Delta) (HK : (1 <= K)%Z) (He : 0 <= e).
Hypothesis (Hd : em_arg_error N h Delta K (f_em_in u eta Delta K e) + 2 * mul_noise N h Delta <= d) (Hd8 : d <= / IZR (10 ^ 8)).
Let m := mul_noise N h Delta.
Let rs := rescale_noise N h Delta.
Let e' := f_em_in u eta Delta K e.
Lemma f_win_nonneg : 0 <= e'.
Proof. apply (f_em_in_nonneg u eta Delta K e); auto. Qed.
Let a := angle_error N h Delta wide_bound (em_arg_error N h Delta K e').
Let l := poly_error N h Delta wide_bound (65 / 100) (em_arg_error N h Delta K e').
(** wangles and wpolys of WideMod.v for d <= 1/10^8 *)
Lemma fwangles : 0 <= a 0 <= d /\ 0 <= a 1 <= 506 / 100 * d /\ 0 <= a 2 <= 222 / 10 * d /\ 0 <= a 3 <= 1053 / 10 * d /\ 0 <= a 4 <= 740 * d.
Proof.
  pose proof f_win_nonneg as He'. pose proof (wfacts N h Delta K e' HN Hh HD HK He') as (F1 & F2 & F3 & F4). pose proof (wd_pos N h Delta K e' d HN Hh HD HK He' Hd) as P.
  pose proof (wdbl N h Delta K e' d HN Hh HD HK He' Hd) as DB. fold m in Hd, F1. fold rs in F2, F4. fold e' in Hd. assert (3 / Delta = 3 * (1 / Delta)) by (field; lra). change (IZR (10 ^ 8)) with 100000000 in Hd8.
  assert (A0 : 0 <= a 0 <= d) by (unfold a; cbn [angle_error]; lra).
  assert (A1 : 0 <= a 1 <= 506 / 100 * d) by (pose proof (DB (wide_bound 0) (a 0) (/ 10000) ltac:(unfold wide_bound, wide; cbn [nth]; lra) ltac:(lra)) as G; change (double_error N h Delta (wide_bound 0) (a 0)) with (a 1) in G; unfold wide_bound, wide in G; cbn [nth] in G; lra).
  assert (A2 : 0 <= a 2 <= 222 / 10 * d) by (pose proof (DB (wide_bound 1) (a 1) (/ 10000) ltac:(unfold wide_bound, wide; cbn [nth]; lra) ltac:(lra)) as G; change (double_error N h Delta (wide_bound 1) (a 1)) with (a 2) in G; unfold wide_bound, wide in G; cbn [nth] in G; lra).
  assert (A3 : 0 <= a 3 <= 1053 / 10 * d) by (pose proof (DB (wide_bound 2) (a 2) (/ 10000) ltac:(unfold wide_bound, wide; cbn [nth]; lra) ltac:(lra)) as G; change (double_error N h Delta (wide_bound 2) (a 2)) with (a 3) in G; unfold wide_bound, wide in G; cbn [nth] in G; lra).
  assert (A4 : 0 <= a 4 <= 740 * d) by (pose proof (DB (wide_bound 3) (a 3) (/ 10000) ltac:(unfold wide_bound, wide; cbn [nth]; lra) ltac:(lra)) as G; change (double_error N h Delta (wide_bound 3) (a 3)) with (a 4) in G; unfold wide_bound, wide in G; cbn [nth] in G; lra).
  tauto.
Qed.
Lemma fwpolys : 0 <= l 5 <= 17300 * d.
Proof.
  pose proof f_win_nonneg as He'. pose proof (wfacts N h Delta K e' HN Hh HD HK He') as (F1 & F2 & F3 & F4). pose proof (wd_pos N h Delta K e' d HN Hh HD HK He' Hd) as P. pose proof fwangles as (A0 & A1 & A2 & A3 & A4).
  pose proof (wcomb N h Delta K e' d HN Hh HD HK He' Hd) as CB. fold m in Hd, F1. fold rs in F2, F4. fold e' in Hd. assert (3 / Delta = 3 * (1 / Delta)) by (field; lra). change (IZR (10 ^ 8)) with 100000000 in Hd8.
  pose proof wparts as (B0 & B1 & B2 & B3 & B4).
  assert (L0 : 0 <= l 0 <= d) by (unfold l; cbn [poly_error]; lra).
  assert (B : forall i, l (S i) = combine_error N h Delta (wide_bound i) (a i) (part_bound wide_bound (65 / 100) i) (l i)) by reflexivity.
  assert (X : forall i c M, 0 <= M -> wide_bound i = M -> 0 <= a i <= / 10000 -> 0 <= l i -> 0 <= part_bound wide_bound (65 / 100) i <= c ->
     0 <= l (S i) <= (1 + M) * l i + c * a i + / 10000 * l i + d).
  { intros i c M HM EM Ha Hl Hc. rewrite B, EM. pose proof (CB M (a i) (l i) (part_bound wide_bound (65 / 100) i) (/ 10000) HM Ha Hl (proj1 Hc)) as G.
    assert (part_bound wide_bound (65 / 100) i * a i <= c * a i) by (apply Rmult_le_compat_r; lra). lra. }
  assert (L1 : 0 <= l 1 <= 368 / 100 * d) by (pose proof (X 0%nat _ (2021 / 2000) ltac:(lra) eq_refl ltac:(lra) ltac:(lra) B0); lra).
  assert (L2 : 0 <= l 2 <= 152 / 10 * d) by (pose proof (X 1%nat _ (10423 / 10000) ltac:(lra) eq_refl ltac:(lra) ltac:(lra) B1); lra).
  assert (L3 : 0 <= l 3 <= 94 * d) by (pose proof (X 2%nat _ (1173 / 1000) ltac:(lra) eq_refl ltac:(lra) ltac:(lra) B2); lra).
  assert (L4 : 0 <= l 4 <= 872 * d) by (pose proof (X 3%nat _ (1752 / 1000) ltac:(lra) eq_refl ltac:(lra) ltac:(lra) B3); lra).
  pose proof (X 4%nat _ (514 / 100) ltac:(lra) eq_refl ltac:(lra) ltac:(lra) B4); lra.
Qed.
Lemma fwy_bound : 0 <= f_wide_y_error u eta N h Delta K e <= 4510000 * d + 3 / IZR (10 ^ 10).
Proof.
  pose proof f_win_nonneg as He'. pose proof (wd_pos N h Delta K e' d HN Hh HD HK He' Hd) as P. pose proof fwpolys as L.
  pose proof (wdbl N h Delta K e' d HN Hh HD HK He' Hd) as DB. change (IZR (10 ^ 8)) with 100000000 in Hd8. change (IZR (8 * 10 ^ 15)) with 8000000000000000 in Hw. change (IZR (10 ^ 10)) with 10000000000.
  unfold f_wide_y_error, f_wide_cos_error, wide_cos_error. fold e'. fold l. change (IZR (10 ^ 14)) with 100000000000000.
  set (g := l 5 + 74 / 100000000000000 + 310 * (u + eta)). assert (G : 0 <= g <= 17300 * d + 78 / 100000000000000) by (unfold g; lra).
  cbn [angle_error].
  pose proof (DB 1 g (/ 5000) ltac:(lra) ltac:(lra)) as G1. set (g1 := double_error N h Delta 1 g) in *.
  pose proof (DB 1 g1 (/ 1200) ltac:(lra) ltac:(lra)) as G2. set (g2 := double_error N h Delta 1 g1) in *.
  pose proof (DB 1 g2 (/ 330) ltac:(lra) ltac:(lra)) as G3. set (g3 := double_error N h Delta 1 g2) in *.
  pose proof (DB 1 g3 (/ 80) ltac:(lra) ltac:(lra)) as G4. lra.
Qed.
Theorem f_wide_error_bound : 0 <= f_wide_error u eta N h Delta K e <= 1160000 * d + 9 / IZR (10 ^ 11).
Proof.
  pose proof f_win_nonneg as He'. pose proof (wfacts N h Delta K e' HN Hh HD HK He') as (F1 & F2 & F3 & F4). pose proof (wd_pos N h Delta K e' d HN Hh HD HK He' Hd) as P. pose proof fwy_bound as Y.
  fold m in Hd, F1. fold rs in F2, F4. fold e' in Hd. unfold f_wide_error, f_em_times_error, em_times_error, em_square_error. set (y := f_wide_y_error u eta N h Delta K e) in *. fold m rs.
  change (IZR (8 * 10 ^ 15)) with 8000000000000000 in Hw. change (IZR (10 ^ 8)) with 100000000 in Hd8. change (IZR (10 ^ 11)) with 100000000000. change (IZR (10 ^ 10)) with 10000000000 in Y.
  assert (3 / Delta = 3 * (1 / Delta)) by (field; lra). assert (2 / Delta = 2 * (1 / Delta)) by (field; lra).
  assert (Y1 : y <= 1 / 22) by lra. pose proof (prod_le y y (1 / 22) ltac:(lra) ltac:(lra)). pose proof (Rmult_le_pos _ _ (proj1 Y) (proj1 Y)).
  assert (W1 : 0 <= (u + eta) * (1 + y) <= / 8000000000000000 * 2) by (split; [apply Rmult_le_pos; lra|apply Rmult_le_compat; lra]).
  set (q := 2 * y + y * y + m + rs) in *. set (tt := y / 36 + 2 / Delta + rs + (u + eta) * (1 + y)).
  assert (Q : 0 <= q <= 205 / 100 * y + d) by (unfold q; lra). assert (T : 0 <= tt <= y / 36 + 3 * d + / 4000000000000000) by (unfold tt; lra).
  pose proof (prod_le tt q (1 / 700) ltac:(lra) ltac:(lra)) as TQ. rewrite (Rmult_comm tt q) in TQ. pose proof (Rmult_le_pos _ _ (proj1 Q) (proj1 T)). lra.
Qed.
End B.
Open Scope Z_scope.

Section Ar.
Context (F : fpu) (u eta top t : R) (ar : arithmetic u eta top t (rnd F) (dpi F) (lcos F) (lsin F)).
Context (Htop : (IZR (2 ^ 62) <= top)%R).

Theorem C129_EvalMod_keys_wide : forall LOGN LD Q K s key ct r e p, evalmod_params LOGN LD Q K -> K <= 71 -> em_keys LOGN LD Q s key ->
  (forall j, Rabs (r j - / 4) <= wide * IZR K)%R -> carries Q (2 ^ LOGN) s ct (IZR (2 ^ LD)) (fun j => real (r j)) e -> object2 (Q - 12 * LD) (2 ^ LOGN) p ->
  exists p', f_EvalMod_keys F Q (2 ^ LOGN) LD K ct (key 1) (key 2) (key 3) (key 4) (key 5) (key 6) (key 7) (key 8) (key 9) (key 10) (key 11) p = Ok p' /\
    carries (Q - 12 * LD) (2 ^ LOGN) s p' (IZR (2 ^ LD)) (fun j => real (evalmod_value K (r j)))
      (f_wide_error u eta (2 ^ LOGN) (norm1 (2 ^ LOGN) s) (IZR (2 ^ LD)) K e).
Proof.
  intros LOGN LD Q K s key ct r e p [HL HLD [HK HK4] HQ HW] HK71 Hkey Hr Hct Hp. set (N := 2 ^ LOGN) in *. set (Delta := IZR (2 ^ LD)) in *. set (h := norm1 N s).
  assert (HLD' : 1 <= LD <= 63) by lia. pose proof (HDelta LD HLD') as HD; fold Delta in HD. pose proof (pow_LD LD HLD') as HpLD.
  assert (HN : 2 <= N) by (unfold N; change 2 with (2 ^ 1) at 1; apply Z.pow_le_mono_r; lia). assert (HK1 : (1 <= IZR K)%R) by (apply IZR_le; lia).
  assert (W1 : forall i, 1 <= i <= 11 -> widths (Q - i * LD)) by (intros; apply HW; auto). assert (W2 : forall i, 1 <= i <= 11 -> widths (2 * (Q - i * LD))) by (intros; apply HW; auto).
  assert (Hr1 : forall j, 0 <= j < N / 2 -> (Rabs (r j) <= IZR K + 1)%R).
  { intros j _. specialize (Hr j). replace (r j) with ((r j - / 4) + / 4)%R by ring. eapply Rle_trans; [apply Rabs_triang|]. rewrite (Rabs_right (/ 4)) by lra. assert (IZR K <= 71)%R by (apply IZR_le; lia). unfold wide in Hr. lra. }
  destruct (f_em_scale_ok F u eta top t ar LOGN LD HL HLD s Htop Q K ct r e ltac:(lia) HK Hr1 Hct) as (ct1 & E1 & H1). fold N Delta h in E1, H1.
  destruct (f_em_shift_ok F u eta top t ar LOGN LD HL HLD s Htop (Q - LD) K ct1 _ _ ltac:(lia) HK HK4 H1) as (ct1' & E2 & H2). fold N Delta in H2.
  set (tt := fun j => ((r j - / 4) / IZR K)%R).
  assert (Ht : forall j, (Rabs (tt j) <= wide)%R).
  { intros j. specialize (Hr j). unfold tt, Rdiv. rewrite Rabs_mult, (Rabs_right (/ IZR K)) by (apply Rle_ge, Rlt_le, Rinv_0_lt_compat; lra). apply Rmult_le_reg_r with (IZR K); [lra|]. rewrite Rmult_assoc, Rinv_l; lra. }
  set (e' := f_em_in u eta Delta K e).
  assert (H2' : carries (Q - LD) N s ct1' Delta (fun j => real (tt j)) (em_arg_error N h Delta K e')).
  { eapply carries_ext; [| |exact H2].
    - intros j Hj. apply (f_equal real). unfold tt. field. lra.
    - unfold em_arg_error, e', f_em_in. right. field. lra. }
  destruct (f_eval_poly_holds F u eta top t ar true LOGN LD (Q - LD) s (key 1) [key 2; key 3; key 4; key 5] wide_bound (65 / 100)%R (65 / 100)%R (2 * (u + eta)) (em_arg_error N h Delta K e') (f_evalmod_u F) evalmod_u (fun j => real (tt j)) ct1' (sq_new (Q - 6 * LD) N) 4)
    as (ct2 & E3 & H3).
  { constructor; auto; try lia.
    - cbn [length]. lia.
    - intros i Hi. cbn [length] in Hi. replace (Q - LD - LD * i) with (Q - (i + 1) * LD) by ring. apply HW. lia.
    - intros i evk E. assert (Hi : (i < 5)%nat) by (assert (nth_error [key 1; key 2; key 3; key 4; key 5] i <> None) as G by congruence; apply nth_error_Some in G; exact G).
      replace (Q - LD - LD * Z.of_nat i) with (Q - (Z.of_nat i + 1) * LD) by ring.
      replace evk with (key (Z.of_nat i + 1)); [apply Hkey; lia|]. do 5 (destruct i as [|i]; [cbn in E; injection E as <-; reflexivity|]). lia.
    - eapply Forall_impl; [|exact evalmod_u_bound]. intros v Hv. split; [exact Hv|discriminate].
    - fold Delta. split; (apply Rlt_trans with Delta; [lra|]); apply IZR_lt; [lia|]. apply Z.pow_lt_mono_r; lia.
    - intros b Hb j Hj. apply wide_slots; [apply Ht|exact Hb].
    - cbn [length]. replace (Q - LD - LD * Z.of_nat 5) with (Q - 6 * LD) by ring. apply new_object2; fold N; lia. }
  { fold Delta. assert (Delta <= IZR (2 ^ 62))%R by (apply IZR_le, Z.pow_le_mono_r; lia). lra. }
  { exact (f_evalmod_near F u eta top t ar Delta HD). }
  { reflexivity. } { lia. } { reflexivity. }
  fold N Delta h in E3, H3. change (Z.of_nat 5) with 5 in H3. replace (Q - LD - LD * 5) with (Q - 6 * LD) in H3 by ring.
  assert (H3' : carries (Q - 6 * LD) N s ct2 Delta (fun j => real (cos (3 * PI * tt j))) (f_wide_cos_error u eta N h Delta K e)).
  { apply (carries_near LOGN s _ _ _ _ (fun j => real (cos (3 * PI * tt j))) _ (74 / IZR (10 ^ 14))) in H3; [|intros j Hj; apply wide_poly; apply Ht].
    eapply carries_ext; [intros; reflexivity| |exact H3]. unfold f_wide_cos_error, wide_cos_error. fold e'. pose proof (ar_u _ _ _ _ _ _ _ _ ar). pose proof (ar_eta _ _ _ _ _ _ _ _ ar). cbn [part_bound]. unfold wide_bound, wide. cbn [nth]. lra. }
  clear H3. pose proof (fun (i : Z) (T : sq) (a : Z -> R) (er : R) (Hi : 1 <= i <= 11) => carries_angle LOGN LD HL HLD s (Q - i * LD) T (key i) a er ltac:(nia) (W1 i Hi) (W2 i Hi) (Hkey i Hi)) as AN.
  fold N Delta h in AN.
  destruct (AN 6 ct2 _ _ ltac:(lia) H3') as (ct3 & E4 & H4). replace (Q - 6 * LD - LD) with (Q - 7 * LD) in E4, H4 by ring.
  destruct (AN 7 ct3 _ _ ltac:(lia) H4) as (ct4 & E5 & H5). replace (Q - 7 * LD - LD) with (Q - 8 * LD) in E5, H5 by ring.
  destruct (AN 8 ct4 _ _ ltac:(lia) H5) as (ct5 & E6 & H6). replace (Q - 8 * LD - LD) with (Q - 9 * LD) in E6, H6 by ring.
  destruct (AN 9 ct5 _ _ ltac:(lia) H6) as (ct6 & E7 & H7). replace (Q - 9 * LD - LD) with (Q - 10 * LD) in E7, H7 by ring.
  set (y := fun j => cos (48 * PI * tt j)).
  assert (H7' : carries (Q - 10 * LD) N s ct6 Delta (fun j => real (y j)) (f_wide_y_error u eta N h Delta K e)).
  { eapply carries_ext; [|apply Rle_refl|exact H7]. intros j Hj. cbv beta. apply (f_equal real). unfold y. f_equal. ring. }
  clear H4 H5 H6 H7 AN. assert (Hy : forall j, (Rabs (y j) <= 1)%R) by (intros; apply Rabs_le, COS_bound).
  destruct (em_square6_ok LOGN LD HL HLD s (Q - 10 * LD) ct6 (key 10) y _ ltac:(lia) (W1 10 ltac:(lia)) (W2 10 ltac:(lia)) (Hkey 10 ltac:(lia)) (fun j _ => Hy j) H7') as (ct7 & E8 & H8).
  destruct (f_em_times_ok F u eta top t ar LOGN LD HL HLD s Htop (Q - 10 * LD) ct6 y _ ltac:(lia) (fun j _ => Hy j) H7') as (ct8 & E9 & H9).
  fold N Delta h in E8, H8, E9, H9. replace (Q - 10 * LD - LD) with (Q - 11 * LD) in H8, H9 by ring.
  destruct (PI_macro_near LOGN LD HLD s) as (_ & _ & P36).
  assert (M7 : forall j, 0 <= j < N / 2 -> (modulus (real (y j * y j + 6)) <= 7)%R).
  { intros j _. rewrite modulus_real. pose proof (COS_bound (48 * PI * tt j)) as CB. fold (y j) in CB. rewrite Rabs_right by nra. nra. }
  assert (M8 : forall j, 0 <= j < N / 2 -> (modulus (real (y j / (12 * PI))) <= / 36)%R).
  { intros j _. rewrite modulus_real. unfold Rdiv. rewrite Rabs_mult, (Rabs_right (/ (12 * PI))) by (apply Rle_ge, Rlt_le, Rinv_0_lt_compat; lra).
    replace (/ 36)%R with (1 * / 36)%R by ring. apply Rmult_le_compat; [apply Rabs_pos|apply Rlt_le, Rinv_0_lt_compat; lra|apply Hy|apply Rinv_le_contravar; lra]. }
  destruct (carries_Mul LOGN HL s (Q - 11 * LD) ct7 ct8 (key 11) (sq_new (Q - 11 * LD) N) Delta Delta _ _ _ _ _ _ (W1 11 ltac:(lia)) (W2 11 ltac:(lia)) (Hkey 11 ltac:(lia))
      ltac:(apply new_object2; lia) ltac:(lra) ltac:(lra) M7 M8 H8 H9) as (ct9 & E10 & H10). fold N h in E10, H10.
  replace (Delta * Delta)%R with (Delta * IZR (2 ^ (Q - 11 * LD - (Q - 12 * LD))))%R in H10 at 1 by (replace (Q - 11 * LD - (Q - 12 * LD)) with LD by ring; reflexivity).
  destruct (carries_RS LOGN HL s (Q - 11 * LD) (Q - 12 * LD) ct9 p Delta _ _ ltac:(lia) ltac:(lra) Hp H10) as (p' & E11 & H11). fold N h in E11, H11.
  exists p'. split.
  - unfold f_EvalMod_keys. rewrite E1. cbn [bind]. rewrite E2. cbn [bind]. unfold f_eval_poly_deg31. change 16 with (2 ^ Z.of_nat 4). rewrite E3. cbn [bind]. rewrite E4. cbn [bind]. rewrite E5. cbn [bind]. rewrite E6. cbn [bind]. rewrite E7. cbn [bind].
    rewrite E8. cbn [bind]. rewrite E9. cbn [bind]. rewrite E10. cbn [bind]. exact E11.
  - eapply carries_ext; [| |exact H11].
    + intros j Hj. cbv beta. unfold evalmod_value, asin3. fold (tt j). fold (y j). pose proof PI_RGT_0. set (v := y j). clearbody v. apply RC_eq; cbn; field; lra.
    + unfold f_wide_error. unfold mul_noise at 1. right. field. lra.
Qed.

Theorem C129_EvalMod_wide : forall LOGN LD Q K RM rng pos s ct r e p, evalmod_params LOGN LD Q K -> K <= 71 -> rand_stream RM rng -> ternary (2 ^ LOGN) s ->
  (forall j, Rabs (r j - / 4) <= wide * IZR K)%R -> carries Q (2 ^ LOGN) (coef s) ct (IZR (2 ^ LD)) (fun j => real (r j)) e -> object2 (Q - 12 * LD) (2 ^ LOGN) p ->
  exists pos' p', f_EvalMod F Q (2 ^ LOGN) LD K RM rng pos ct (map Some s) p = Ok (pos', p') /\
    carries (Q - 12 * LD) (2 ^ LOGN) (coef s) p' (IZR (2 ^ LD)) (fun j => real (evalmod_value K (r j)))
      (f_wide_error u eta (2 ^ LOGN) (norm1 (2 ^ LOGN) (coef s)) (IZR (2 ^ LD)) K e).
Proof.
  intros LOGN LD Q K RM rng pos s ct r e p HP HK71 Hrnd Hs Hr Hct Hp. pose proof HP as [HL HLD _ HQ HW]. set (N := 2 ^ LOGN) in *.
  assert (HN : 2 <= N <= 2 ^ 17) by (unfold N; split; [change 2 with (2 ^ 1) at 1|]; apply Z.pow_le_mono_r; lia).
  pose proof Hs as [Hsl Hst].
  destruct (C33_conv_int_ternary N s s (fresh N) ltac:(lia) Hsl Hsl ltac:(apply fresh_length) Hst Hst) as (s2 & Es & Hl2 & Hs2).
  assert (Hb2 : Forall (fun x => Z.abs x < 2 ^ 31) s2).
  { apply Forall_forall. intros x Hx. destruct (In_nth s2 x 0 Hx) as (n & Hn & <-). destruct (Hs2 (Z.of_nat n) ltac:(lia)) as [_ B]. unfold coef in B. rewrite Nat2Z.id in B. lia. }
  assert (GK : forall i ps, 1 <= i <= 11 -> exists k ps', em_key Q N LD RM rng (map Some s) (map Some s2) i ps = Ok (k, ps') /\ switching_key (Q - i * LD) N k (negconv N (coef s) (coef s)) (coef s)).
  { intros i ps Hi. assert (1 <= Q - i * LD) by nia.
    destruct (C38_swkgen (Q - i * LD) N RM rng s2 s (sq_new (2 * (Q - i * LD)) N) ps ltac:(lia) ltac:(lia) Hrnd Hl2 Hb2 Hs ltac:(apply new_object2; lia)) as (k & ps' & E & Hk).
    exists k, ps'. split; [exact E|]. destruct Hk as (er & He & Hd). exists er. split; [exact He|]. eapply decrypts_mod; [|exact Hd]. intros j Hj. cbv beta. rewrite (proj1 (Hs2 j Hj)). reflexivity. }
  destruct (GK 1 pos ltac:(lia)) as (k1 & p1 & E1 & K1). destruct (GK 2 p1 ltac:(lia)) as (k2 & p2 & E2 & K2). destruct (GK 3 p2 ltac:(lia)) as (k3 & p3 & E3 & K3).
  destruct (GK 4 p3 ltac:(lia)) as (k4 & p4 & E4 & K4). destruct (GK 5 p4 ltac:(lia)) as (k5 & p5 & E5 & K5). destruct (GK 6 p5 ltac:(lia)) as (k6 & p6 & E6 & K6).
  destruct (GK 7 p6 ltac:(lia)) as (k7 & p7 & E7 & K7). destruct (GK 8 p7 ltac:(lia)) as (k8 & p8 & E8 & K8). destruct (GK 9 p8 ltac:(lia)) as (k9 & p9 & E9 & K9).
  destruct (GK 10 p9 ltac:(lia)) as (k10 & p10 & E10 & K10). destruct (GK 11 p10 ltac:(lia)) as (k11 & p11 & E11 & K11).
  set (key := fun i => nth (Z.to_nat i) [k1; k1; k2; k3; k4; k5; k6; k7; k8; k9; k10; k11] k1).
  assert (HK : em_keys LOGN LD Q (coef s) key).
  { intros i Hi. fold N. assert (i = 1 \/ i = 2 \/ i = 3 \/ i = 4 \/ i = 5 \/ i = 6 \/ i = 7 \/ i = 8 \/ i = 9 \/ i = 10 \/ i = 11) as D by lia.
    destruct D as [->|[->|[->|[->|[->|[->|[->|[->|[->|[->| ->]]]]]]]]]]; assumption. }
  destruct (C129_EvalMod_keys_wide LOGN LD Q K (coef s) key ct r e p HP HK71 HK Hr Hct Hp) as (p' & E & H'). fold N in E, H'.
  exists p11, p'. split; [|exact H'].
  unfold f_EvalMod. rewrite Es. cbn [bind]. cbv zeta. rewrite E1. cbn [bind]. rewrite E2. cbn [bind]. rewrite E3. cbn [bind]. rewrite E4. cbn [bind]. rewrite E5. cbn [bind]. rewrite E6. cbn [bind].
  rewrite E7. cbn [bind]. rewrite E8. cbn [bind]. rewrite E9. cbn [bind]. rewrite E10. cbn [bind]. rewrite E11. cbn [bind].
  change (f_EvalMod_keys F Q N LD K ct k1 k2 k3 k4 k5 k6 k7 k8 k9 k10 k11 p = Ok p') in E. rewrite E. reflexivity.
Qed.

(** With K = 24 it subtracts the nearest integer. *)
Theorem C129_nearest : forall LOGN LD Q RM rng pos s ct I d dmax e p, evalmod_params LOGN LD Q 24 -> rand_stream RM rng -> ternary (2 ^ LOGN) s ->
  (forall j, Rabs (IZR (I j) + d j - / 4) <= 24252 / 1000)%R -> (forall j, Rabs (d j) <= dmax)%R ->
  carries Q (2 ^ LOGN) (coef s) ct (IZR (2 ^ LD)) (fun j => real (IZR (I j) + d j)) e -> object2 (Q - 12 * LD) (2 ^ LOGN) p ->
  exists pos' p', f_EvalMod F Q (2 ^ LOGN) LD 24 RM rng pos ct (map Some s) p = Ok (pos', p') /\
    carries (Q - 12 * LD) (2 ^ LOGN) (coef s) p' (IZR (2 ^ LD)) (fun j => real (d j))
      (f_wide_error u eta (2 ^ LOGN) (norm1 (2 ^ LOGN) (coef s)) (IZR (2 ^ LD)) 24 e + 6 / 5 * PI ^ 4 * dmax ^ 5).
Proof.
  intros LOGN LD Q RM rng pos s ct I d dmax e p HP Hrnd Hs Hr Hd Hct Hp.
  destruct (C129_EvalMod_wide LOGN LD Q 24 RM rng pos s ct (fun j => IZR (I j) + d j)%R e p HP ltac:(lia) Hrnd Hs ltac:(intros j; unfold wide; specialize (Hr j); lra) Hct Hp) as (pos' & p' & E & H').
  exists pos', p'. split; [exact E|]. apply (carries_near LOGN (coef s) _ _ _ _ (fun j => real (d j)) _ (6 / 5 * PI ^ 4 * dmax ^ 5)) in H'; [exact H'|].
  intros j Hj. cbv beta. rewrite real_minus, modulus_real. eapply Rle_trans; [apply C72_value|].
  apply Rmult_le_compat_l; [apply Rmult_le_pos; [lra|apply pow_le, Rlt_le, PI_RGT_0]|]. apply pow_incr. split; [apply Rabs_pos|apply Hd].
Qed.
End Ar.

(** ** In double precision *)
Theorem C129_EvalMod_double : forall F, double F -> forall LOGN LD Q RM rng pos s ct I d dmax e delta p, evalmod_params LOGN LD Q 24 -> rand_stream RM rng -> ternary (2 ^ LOGN) s ->
  (forall j, Rabs (IZR (I j) + d j - / 4) <= 24252 / 1000)%R -> (forall j, Rabs (d j) <= dmax)%R ->
  carries Q (2 ^ LOGN) (coef s) ct (IZR (2 ^ LD)) (fun j => real (IZR (I j) + d j)) e -> object2 (Q - 12 * LD) (2 ^ LOGN) p ->
  let N := IZR (2 ^ LOGN) in let h := norm1 (2 ^ LOGN) (coef s) in let Delta := IZR (2 ^ LD) in
  (e / 24 + 26 / Delta + N * IZR (1 + h) / (2 * Delta) + N * (8 * N + IZR (1 + h)) / (Delta * Delta) + 2 / IZR (10 ^ 16) <= delta)%R -> (delta <= / IZR (10 ^ 8))%R ->
  exists pos' p', f_EvalMod F Q (2 ^ LOGN) LD 24 RM rng pos ct (map Some s) p = Ok (pos', p') /\
    carries (Q - 12 * LD) (2 ^ LOGN) (coef s) p' Delta (fun j => real (d j)) (1160000 * delta + 9 / IZR (10 ^ 11) + 117 * dmax ^ 5).
Proof.
  intros F HF LOGN LD Q RM rng pos s ct I d dmax e delta p HP Hrnd Hs Hr Hd Hct Hp N h Delta H1 H2.
  destruct (C129_nearest F u64 eta64 top64 t64 HF (top64_big 62 ltac:(lia)) LOGN LD Q RM rng pos s ct I d dmax e p HP Hrnd Hs Hr Hd Hct Hp) as (pos' & p' & E & H'). exists pos', p'. split; [exact E|].
  eapply carries_ext; [reflexivity| |exact H']. destruct HP as [HL HLD _ _ _].
  assert (HN : 2 <= 2 ^ LOGN) by (change 2 with (2 ^ 1) at 1; apply Z.pow_le_mono_r; lia). pose proof (HDelta LD ltac:(lia)) as HDl. fold Delta in HDl.
  pose proof (err_nonneg LOGN HL (coef s) _ _ _ _ _ Hct) as He. assert (Hh : 0 <= h) by (apply norm1_nonneg; lia).
  pose proof u_small as Hu. pose proof eta_pos as Heta. pose proof (eta_u 10 ltac:(lia) ltac:(lia)) as Heu. change (2 ^ 10) with 1024 in Heu.
  assert (HN2 : (2 <= N)%R) by (apply IZR_le; lia). assert (Hh1 : (1 <= IZR (1 + h))%R) by (apply IZR_le; lia).
  assert (Hi : (0 < / Delta)%R) by (apply Rinv_0_lt_compat; lra). assert (Hi2 : (/ Delta <= / 2)%R) by (apply Rinv_le_contravar; lra).
  assert (T1 : (0 <= N * IZR (1 + h) / (2 * Delta))%R) by (apply Rmult_le_pos; [apply Rmult_le_pos; lra|apply Rlt_le, Rinv_0_lt_compat; lra]).
  assert (T2 : (0 <= N * (8 * N + IZR (1 + h)) / (Delta * Delta))%R) by (apply Rmult_le_pos; [apply Rmult_le_pos; lra|apply Rlt_le, Rinv_0_lt_compat; apply Rmult_lt_0_compat; lra]).
  assert (T3 : (0 <= 26 / Delta)%R) by (unfold Rdiv; lra).
  change (10 ^ 8) with 100000000 in *. change (10 ^ 16) with 10000000000000000 in H1. assert (e <= 1)%R by lra.
  assert (Hed : (0 <= eta64 / Delta <= eta64 / 2)%R) by (split; [apply Rmult_le_pos; lra|apply Rmult_le_compat_l; lra]).
  assert (Hin : (0 <= (u64 / 24 + eta64 / Delta) * (e + 26) <= 2 / 10000000000000000)%R).
  { split; [apply Rmult_le_pos; lra|]. apply Rle_trans with (u64 / 23 * 27)%R; [|lra]. apply Rmult_le_compat; lra. }
  apply Rplus_le_compat.
  - fold h Delta. apply (proj2 (A:=(0 <= f_wide_error u64 eta64 (2 ^ LOGN) h Delta 24 e)%R)). apply f_wide_error_bound; try lia; try lra.
    + change (8 * 10 ^ 15) with 8000000000000000. lra.
    + eapply Rle_trans; [|exact H1]. unfold em_arg_error, rescale_noise, mul_noise, f_em_in. fold h Delta N.
      replace (IZR (8 * 2 ^ LOGN + 1 + h)) with (8 * N + IZR (1 + h))%R by (unfold N; rewrite !plus_IZR, mult_IZR; ring).
      match goal with |- (?a <= ?b)%R => replace a with (e / 24 + 26 / Delta + N * IZR (1 + h) / (2 * Delta) + N * (8 * N + IZR (1 + h)) / (Delta * Delta) + (u64 / 24 + eta64 / Delta) * (e + 26))%R by (field; lra) end. lra.
  - assert (P : (6 / 5 * PI ^ 4 <= 117)%R).
    { destruct PI_bounds as [P1 P2]. pose proof PI_RGT_0. assert (PI <= 3.1416)%R by lra. assert (PI * PI <= 9.86966)%R by nra. assert (0 <= PI * PI)%R by nra. nra. }
    apply Rmult_le_compat_r; [|exact P]. apply pow_le. eapply Rle_trans; [apply Rabs_pos|apply (Hd 0)].
Qed.


(** The slots are -24 - 1/1024, which is outside of the interval of C112 *)
Example C129_case RM rng pos : rand_stream RM rng -> exists pos' p',
  f_EvalMod F64 700 4 50 24 RM rng pos wm_ex_ct (map Some [1; 0; -1; 0]) (sq_new 100 4) = Ok (pos', p') /\
  carries 100 4 (coef [1; 0; -1; 0]) p' (IZR (2 ^ 50)) (fun _ => real (- / 1024)) (2 / 100000).
Proof.
  intros Hrnd. destruct (C129_EvalMod_double F64 C87_binary64 2 50 700 RM rng pos [1; 0; -1; 0] wm_ex_ct (fun _ => -24) (fun _ => (- / 1024)%R) (/ 1024)%R 0%R (/ IZR (10 ^ 11))%R (sq_new 100 4) (em_ex_params 24 ltac:(lia)) Hrnd) as (pos' & p' & E & H').
  - split; [reflexivity|]. repeat constructor; lia.
  - intros _. rewrite Rabs_left; lra.
  - intros _. rewrite Rabs_left; lra.
  - apply wm_ex_carries.
  - apply new_object2; lia.
  - change (norm1 (2 ^ 2) (coef [1; 0; -1; 0])) with 2. change (2 ^ 2) with 4. change (2 ^ 50) with 1125899906842624. change (10 ^ 11) with 100000000000. change (10 ^ 16) with 10000000000000000. change (1 + 2) with 3. lra.
  - change (10 ^ 11) with 100000000000. change (10 ^ 8) with 100000000. lra.
  - exists pos', p'. split; [exact E|]. eapply (carries_ext 2); [reflexivity| |exact H']. cbn [pow]. change (10 ^ 11) with 100000000000. lra.
Qed.
