(** The composition of cosine, doubling and the cubic of EvalMod as a function of real numbers. *)
From Coq Require Import ZArith Reals Lra Lia.
From Verif Require Import CosTaylor SpecMod.
Open Scope R_scope.

Definition asin_gap (x : R) : R := x - sin x - sin x ^ 3 / 6.
Lemma d_gap x : derivable_pt_lim asin_gap x ((1 - cos x) ^ 2 * (2 + cos x) / 2).
Proof.
  replace ((1 - cos x) ^ 2 * (2 + cos x) / 2) with (1 - cos x - (/ 6) * (INR 3 * sin x ^ 2 * cos x)).
  2: { pose proof (sin2_cos2 x) as H. unfold Rsqr in H. replace (sin x ^ 2) with (1 - cos x * cos x) by (cbn; lra). cbn. field. }
  apply (d_ext (fun x => (x - sin x) - / 6 * sin x ^ 3)). { intros y. unfold asin_gap. field. }
  apply (derivable_pt_lim_minus (fun x => x - sin x) (fun x => / 6 * sin x ^ 3)).
  - apply (derivable_pt_lim_minus id sin); [apply derivable_pt_lim_id|apply derivable_pt_lim_sin].
  - apply (derivable_pt_lim_scal (fun x => sin x ^ 3) (/ 6)).
    apply (derivable_pt_lim_comp sin (fun y => y ^ 3) x (cos x) (INR 3 * sin x ^ 2)); [apply derivable_pt_lim_sin|apply (derivable_pt_lim_pow (sin x) 3)].
Qed.
Lemma gap_pos x : 0 <= x -> 0 <= asin_gap x <= 3 / 40 * x ^ 5.
Proof.
  intros Hx. assert (Z : asin_gap 0 = 0) by (unfold asin_gap; rewrite sin_0; field). split.
  - rewrite <- Z. apply (grows asin_gap _ x d_gap); auto. intros c Hc. pose proof (COS_bound c). apply Rmult_le_pos; [|lra]. apply Rmult_le_pos; [apply pow2_ge_0|lra].
  - assert (D : forall c, derivable_pt_lim (fun x => 3 / 40 * x ^ 5 - asin_gap x) c (3 / 40 * (INR 5 * c ^ 4) - (1 - cos c) ^ 2 * (2 + cos c) / 2)).
    { intros c. apply (derivable_pt_lim_minus (fun x => 3 / 40 * x ^ 5) asin_gap); [|apply d_gap].
      apply (derivable_pt_lim_scal (fun x => x ^ 5) (3 / 40)). apply (derivable_pt_lim_pow c 5). }
    pose proof (grows (fun x => 3 / 40 * x ^ 5 - asin_gap x) _ x D) as G. cbv beta in G. rewrite Z in G.
    assert (0 <= 3 / 40 * x ^ 5 - asin_gap x); [|lra]. replace 0 with (3 / 40 * 0 ^ 5 - 0) by (cbn; ring). apply G; auto.
    intros c Hc. pose proof (cos_taylor 0 c) as T. unfold ctaylor, cterm in T. cbn [sum_f_R0] in T. change (2 * 0)%nat with O in T. change (2 * 1)%nat with 2%nat in T. cbn [pow fact Nat.mul Nat.add INR] in T.
    pose proof (COS_bound c) as B. assert (0 <= 1 - cos c <= c * c / 2).
    { pose proof (Rle_abs (- (cos c - 1 * (1 / 1)))) as A. rewrite Rabs_Ropp in A. replace (1 * (1 / 1)) with 1 in * by field. replace (c * (c * 1) / (1 + 1)) with (c * c / 2) in T by field. lra. }
    assert ((1 - cos c) ^ 2 <= (c * c / 2) ^ 2) by (apply pow_incr; auto).
    assert (0 <= (1 - cos c) ^ 2) by apply pow2_ge_0. assert ((1 - cos c) ^ 2 * (2 + cos c) <= (c * c / 2) ^ 2 * 3) by (apply Rmult_le_compat; lra).
    replace (INR 5 * c ^ 4) with (20 * (c * c / 2) ^ 2) by (cbn; field). lra.
Qed.
Theorem asin_bound x : Rabs (x - sin x - sin x ^ 3 / 6) <= 3 / 40 * Rabs x ^ 5.
Proof.
  unfold Rabs at 2. destruct (Rcase_abs x) as [H|H].
  - pose proof (gap_pos (- x) ltac:(lra)) as G. unfold asin_gap in G. rewrite sin_neg in G.
    replace (x - sin x - sin x ^ 3 / 6) with (- (- x - - sin x - (- sin x) ^ 3 / 6)) by field. rewrite Rabs_Ropp, Rabs_right; lra.
  - pose proof (gap_pos x ltac:(lra)) as G. unfold asin_gap in G. rewrite Rabs_right; lra.
Qed.

Lemma sin_periodZ x (k : Z) : sin (x + 2 * IZR k * PI) = sin x.
Proof.
  destruct (Z.le_gt_cases 0 k) as [H|H].
  - rewrite <- (Z2Nat.id k H), <- INR_IZR_INZ. apply sin_period.
  - rewrite <- (sin_period (x + 2 * IZR k * PI) (Z.to_nat (- k))). f_equal. rewrite INR_IZR_INZ, Z2Nat.id by lia. rewrite opp_IZR. ring.
Qed.
Theorem mod_approx (I : Z) (d : R) : Rabs (asin3 (sin (2 * PI * (IZR I + d))) - d) <= 6 / 5 * PI ^ 4 * Rabs d ^ 5.
Proof.
  replace (2 * PI * (IZR I + d)) with (2 * PI * d + 2 * IZR I * PI) by ring. rewrite sin_periodZ. pose proof (asin_bound (2 * PI * d)) as H. pose proof PI_RGT_0 as P.
  unfold asin3. set (y := sin (2 * PI * d)) in *. rewrite Rabs_mult, (Rabs_right (2 * PI)) in H by lra.
  replace ((y ^ 3 + 6 * y) / (12 * PI) - d) with (- ((2 * PI * d - y - y ^ 3 / 6) / (2 * PI))) by (field; lra).
  rewrite Rabs_Ropp. unfold Rdiv at 1. rewrite Rabs_mult, (Rabs_right (/ (2 * PI))) by (apply Rle_ge, Rlt_le, Rinv_0_lt_compat; lra).
  apply Rmult_le_reg_r with (2 * PI); [lra|]. rewrite Rmult_assoc, Rinv_l, Rmult_1_r by lra. eapply Rle_trans; [exact H|]. rewrite Rpow_mult_distr. right. field.
Qed.
Lemma cos_shift x : cos (2 * PI * (x - / 4)) = sin (2 * PI * x).
Proof. replace (2 * PI * (x - / 4)) with (2 * PI * x - PI / 2) by field. rewrite cos_minus, cos_PI2, sin_PI2. ring. Qed.
