(** C111-C112: the evaluation of polynomials and EvalMod in floating-point arithmetic. *)
From Coq Require Import ZArith List Bool Lia Reals Lra Ring.
From Verif Require Import Base BaseFacts Sums ZQ ZQFacts RQ RQFacts Conv ConvFacts Rot Core CoreFacts Util UtilFacts GSum Matrix MatrixFacts DFT DFTTheory DFTFacts FFTFacts
  SpecZQ SpecPoly SpecPolyFacts SpecScheme SpecMat SpecDFT SpecEnc SlotFacts Encode EncodeFacts PolyRing PolyCong Noise Properties_DFT Properties_Conv Properties_Core Properties_Plain LinTrans LinTransFacts LinSlots BootSlots
  SpecCheb Poly ChebFacts SpecEval EvalFacts EvalPoly Properties_Poly PiBound CosTaylor PolyZ CosApprox SpecMod ModApprox EvalMod EvalModFacts EvalModBound Properties_EvalMod Float SpecFloat FloatNum Binary64 Properties_Float FloatBootNum.
From Verif Require Import FloatMod SpecFloatMod FloatModFacts FloatModBound.
Import ListNotations.
Open Scope Z_scope.
Add Ring RCpfm : HR.

Section Ar.
Context (F : fpu) (u eta top t : R) (ar : arithmetic u eta top t (rnd F) (dpi F) (lcos F) (lsin F)).

(** ** C111: polynomials *)
(** What is assumed in addition to the hypotheses of C62: the coefficients are at most [U], and not negative for the functions without sign handling. *)
Definition f_coefficients (sg : bool) (LD : Z) (U : R) (us : list R) : Prop :=
  (U * IZR (2 ^ LD) <= top)%R /\ Forall (fun x => (Rabs x <= U)%R /\ (sg = false -> (0 <= x)%R)) us.
Lemma f_eval_poly_spec sg LOGN LD Q s evk1 evks M U err us x ct p K :
  eval_setting sg LOGN LD Q s (evk1 :: evks) M (U + coefficient_error u eta (IZR (2 ^ LD)) U) err us x ct p -> f_coefficients sg LD U us ->
  length evks = K -> (1 <= K)%nat -> length us = (2 ^ S K)%nat ->
  exists p', f_eval_poly F sg Q (2 ^ LOGN) LD (2 ^ Z.of_nat K) (map Some us) ct evk1 evks p = Ok p' /\
    carries (Q - LD * Z.of_nat (S K)) (2 ^ LOGN) s p' (IZR (2 ^ LD)) (fun j => product_value (S K) (rcoef us) (x j))
      (f_poly_error u eta (2 ^ LOGN) (norm1 (2 ^ LOGN) s) (IZR (2 ^ LD)) M U err (S K)).
Proof.
  intros ES [HU Hus] HK HK1 Hl. apply (f_eval_poly_holds F u eta top t ar sg LOGN LD Q s evk1 evks M _ U (coefficient_error u eta (IZR (2 ^ LD)) U) err us us); auto.
  clear - Hus. induction Hus as [|x us [H1 H2] _ IH]; constructor; [|exact IH]. split; [exact H1|]. split; [exact H2|]. intros x' Hx'. split; [exact Hx'|].
  replace x' with (x + (x' - x))%R by ring. eapply Rle_trans; [apply Rabs_triang|]. unfold coefficient_error. lra.
Qed.
Theorem C111_deg3 : forall LOGN LD Q s e1 e2 M U err us x ct p,
  eval_setting false LOGN LD Q s [e1; e2] M (U + coefficient_error u eta (IZR (2 ^ LD)) U) err us x ct p -> f_coefficients false LD U us -> length us = 4%nat ->
  exists p', f_eval_poly_deg3 F Q (2 ^ LOGN) LD (map Some us) ct e1 e2 p = Ok p' /\
    carries (Q - LD * 2) (2 ^ LOGN) s p' (IZR (2 ^ LD)) (fun j => product_value 2 (rcoef us) (x j))
      (f_poly_error u eta (2 ^ LOGN) (norm1 (2 ^ LOGN) s) (IZR (2 ^ LD)) M U err 2).
Proof. intros. apply (f_eval_poly_spec false LOGN LD Q s e1 [e2] M U err us x ct p 1); auto. Qed.
Theorem C111_deg7 : forall LOGN LD Q s e1 e2 e3 M U err us x ct p,
  eval_setting false LOGN LD Q s [e1; e2; e3] M (U + coefficient_error u eta (IZR (2 ^ LD)) U) err us x ct p -> f_coefficients false LD U us -> length us = 8%nat ->
  exists p', f_eval_poly_deg7 F Q (2 ^ LOGN) LD (map Some us) ct e1 e2 e3 p = Ok p' /\
    carries (Q - LD * 3) (2 ^ LOGN) s p' (IZR (2 ^ LD)) (fun j => product_value 3 (rcoef us) (x j))
      (f_poly_error u eta (2 ^ LOGN) (norm1 (2 ^ LOGN) s) (IZR (2 ^ LD)) M U err 3).
Proof. intros. apply (f_eval_poly_spec false LOGN LD Q s e1 [e2; e3] M U err us x ct p 2); auto. Qed.
Theorem C111_deg15 : forall LOGN LD Q s e1 e2 e3 e4 M U err us x ct p,
  eval_setting false LOGN LD Q s [e1; e2; e3; e4] M (U + coefficient_error u eta (IZR (2 ^ LD)) U) err us x ct p -> f_coefficients false LD U us -> length us = 16%nat ->
  exists p', f_eval_poly_deg15 F Q (2 ^ LOGN) LD (map Some us) ct e1 e2 e3 e4 p = Ok p' /\
    carries (Q - LD * 4) (2 ^ LOGN) s p' (IZR (2 ^ LD)) (fun j => product_value 4 (rcoef us) (x j))
      (f_poly_error u eta (2 ^ LOGN) (norm1 (2 ^ LOGN) s) (IZR (2 ^ LD)) M U err 4).
Proof. intros. apply (f_eval_poly_spec false LOGN LD Q s e1 [e2; e3; e4] M U err us x ct p 3); auto. Qed.
Theorem C111_deg31 : forall LOGN LD Q s e1 e2 e3 e4 e5 M U err us x ct p,
  eval_setting true LOGN LD Q s [e1; e2; e3; e4; e5] M (U + coefficient_error u eta (IZR (2 ^ LD)) U) err us x ct p -> f_coefficients true LD U us -> length us = 32%nat ->
  exists p', f_eval_poly_deg31 F Q (2 ^ LOGN) LD (map Some us) ct e1 e2 e3 e4 e5 p = Ok p' /\
    carries (Q - LD * 5) (2 ^ LOGN) s p' (IZR (2 ^ LD)) (fun j => product_value 5 (rcoef us) (x j))
      (f_poly_error u eta (2 ^ LOGN) (norm1 (2 ^ LOGN) s) (IZR (2 ^ LD)) M U err 5).
Proof. intros. apply (f_eval_poly_spec true LOGN LD Q s e1 [e2; e3; e4; e5] M U err us x ct p 4); auto. Qed.
Theorem C111_deg63 : forall LOGN LD Q s e1 e2 e3 e4 e5 e6 M U err us x ct p,
  eval_setting true LOGN LD Q s [e1; e2; e3; e4; e5; e6] M (U + coefficient_error u eta (IZR (2 ^ LD)) U) err us x ct p -> f_coefficients true LD U us -> length us = 64%nat ->
  exists p', f_eval_poly_deg63 F Q (2 ^ LOGN) LD (map Some us) ct e1 e2 e3 e4 e5 e6 p = Ok p' /\
    carries (Q - LD * 6) (2 ^ LOGN) s p' (IZR (2 ^ LD)) (fun j => product_value 6 (rcoef us) (x j))
      (f_poly_error u eta (2 ^ LOGN) (norm1 (2 ^ LOGN) s) (IZR (2 ^ LD)) M U err 6).
Proof. intros. apply (f_eval_poly_spec true LOGN LD Q s e1 [e2; e3; e4; e5; e6] M U err us x ct p 5); auto. Qed.
Theorem C111_deg127 : forall LOGN LD Q s e1 e2 e3 e4 e5 e6 e7 M U err us x ct p,
  eval_setting true LOGN LD Q s [e1; e2; e3; e4; e5; e6; e7] M (U + coefficient_error u eta (IZR (2 ^ LD)) U) err us x ct p -> f_coefficients true LD U us -> length us = 128%nat ->
  exists p', f_eval_poly_deg127 F Q (2 ^ LOGN) LD (map Some us) ct e1 e2 e3 e4 e5 e6 e7 p = Ok p' /\
    carries (Q - LD * 7) (2 ^ LOGN) s p' (IZR (2 ^ LD)) (fun j => product_value 7 (rcoef us) (x j))
      (f_poly_error u eta (2 ^ LOGN) (norm1 (2 ^ LOGN) s) (IZR (2 ^ LD)) M U err 7).
Proof. intros. apply (f_eval_poly_spec true LOGN LD Q s e1 [e2; e3; e4; e5; e6; e7] M U err us x ct p 6); auto; lia. Qed.

(** ** C112: EvalMod *)
Lemma evalmod_u_644 : Forall (fun x => (Rabs x <= 644 / 1000)%R) evalmod_u.
Proof.
  rewrite evalmod_u_eq. apply Forall_forall. intros v Hv. apply in_map_iff in Hv. destruct Hv as (z & <- & Hz).
  assert (B : forallb (fun z => (Z.abs z <=? 644 * 10 ^ 14)%Z) cos_u17 = true) by (vm_compute; reflexivity). rewrite forallb_forall in B. specialize (B z Hz).
  apply Z.leb_le in B. apply IZR_le in B. rewrite abs_IZR in B. unfold Rdiv at 1. rewrite Rabs_mult, (Rabs_right (/ IZR (10 ^ 17))) by (apply Rle_ge, Rlt_le, Rinv_0_lt_compat, IZR_lt; reflexivity).
  apply Rmult_le_reg_r with (IZR (10 ^ 17)); [apply IZR_lt; reflexivity|]. rewrite Rmult_assoc, Rinv_l by (apply IZR_neq; discriminate).
  change (10 ^ 17) with 100000000000000000. change (644 * 10 ^ 14) with 64400000000000000 in B. lra.
Qed.
(** the literals, rounded *)
Lemma f_evalmod_near Delta : (2 <= Delta)%R -> Forall2 (fun w x => (Rabs x <= 65 / 100)%R /\ (true = false -> (0 <= x)%R) /\
  forall x', (Rabs (x' - x) <= u * (65 / 100) + eta / Delta)%R -> (Rabs (x' - w) <= 2 * (u + eta))%R /\ (Rabs x' <= 65 / 100)%R) evalmod_u (f_evalmod_u F).
Proof.
  intros HD. pose proof (ar_u _ _ _ _ _ _ _ _ ar) as Hu. pose proof (ar_eta _ _ _ _ _ _ _ _ ar) as Heta. pose proof (ar_top _ _ _ _ _ _ _ _ ar) as H8.
  assert (Hed : (0 <= eta / Delta <= eta / 2)%R).
  { split; [apply Rmult_le_pos; [lra|apply Rlt_le, Rinv_0_lt_compat; lra]|]. apply Rmult_le_compat_l; [lra|]. apply Rinv_le_contravar; lra. }
  unfold f_evalmod_u. induction evalmod_u_644 as [|w l Hw _ IH]; cbn [map]; [constructor|]. constructor; [|exact IH].
  pose proof (ar_rnd _ _ _ _ _ _ _ _ ar w ltac:(lra)) as A. assert (B : (u * Rabs w <= u * (644 / 1000))%R) by (apply Rmult_le_compat_l; lra).
  split; [|split; [discriminate|]].
  - replace (rnd F w) with (w + (rnd F w - w))%R by ring. eapply Rle_trans; [apply Rabs_triang|]. lra.
  - intros x' Hx'. assert (C : (Rabs (x' - w) <= u * (65 / 100) + eta / Delta + (u * (644 / 1000) + eta))%R).
    { replace (x' - w)%R with ((x' - rnd F w) + (rnd F w - w))%R by ring. eapply Rle_trans; [apply Rabs_triang|]. lra. }
    split; [lra|]. replace x' with (w + (x' - w))%R by ring. eapply Rle_trans; [apply Rabs_triang|]. lra.
Qed.
Context (Htop : (IZR (2 ^ 62) <= top)%R).

Theorem C112_EvalMod_keys : forall LOGN LD Q K s key ct r e p, evalmod_params LOGN LD Q K -> em_keys LOGN LD Q s key ->
  (forall j, Rabs (r j - / 4) <= IZR K)%R -> carries Q (2 ^ LOGN) s ct (IZR (2 ^ LD)) (fun j => real (r j)) e -> object2 (Q - 12 * LD) (2 ^ LOGN) p ->
  exists p', f_EvalMod_keys F Q (2 ^ LOGN) LD K ct (key 1) (key 2) (key 3) (key 4) (key 5) (key 6) (key 7) (key 8) (key 9) (key 10) (key 11) p = Ok p' /\
    carries (Q - 12 * LD) (2 ^ LOGN) s p' (IZR (2 ^ LD)) (fun j => real (evalmod_value K (r j)))
      (f_evalmod_error u eta (2 ^ LOGN) (norm1 (2 ^ LOGN) s) (IZR (2 ^ LD)) K e).
Proof.
  intros LOGN LD Q K s key ct r e p [HL HLD [HK HK4] HQ HW] Hkey Hr Hct Hp. set (N := 2 ^ LOGN) in *. set (Delta := IZR (2 ^ LD)) in *. set (h := norm1 N s).
  assert (HLD' : 1 <= LD <= 63) by lia. pose proof (HDelta LD HLD') as HD; fold Delta in HD. pose proof (pow_LD LD HLD') as HpLD.
  assert (HN : 2 <= N) by (unfold N; change 2 with (2 ^ 1) at 1; apply Z.pow_le_mono_r; lia). assert (HK1 : (1 <= IZR K)%R) by (apply IZR_le; lia).
  assert (W1 : forall i, 1 <= i <= 11 -> widths (Q - i * LD)) by (intros; apply HW; auto). assert (W2 : forall i, 1 <= i <= 11 -> widths (2 * (Q - i * LD))) by (intros; apply HW; auto).
  assert (Hr1 : forall j, 0 <= j < N / 2 -> (Rabs (r j) <= IZR K + 1)%R).
  { intros j _. specialize (Hr j). replace (r j) with ((r j - / 4) + / 4)%R by ring. eapply Rle_trans; [apply Rabs_triang|]. rewrite (Rabs_right (/ 4)) by lra. lra. }
  destruct (f_em_scale_ok F u eta top t ar LOGN LD HL HLD s Htop Q K ct r e ltac:(lia) HK Hr1 Hct) as (ct1 & E1 & H1). fold N Delta h in E1, H1.
  destruct (f_em_shift_ok F u eta top t ar LOGN LD HL HLD s Htop (Q - LD) K ct1 _ _ ltac:(lia) HK HK4 H1) as (ct1' & E2 & H2). fold N Delta in H2.
  set (tt := fun j => ((r j - / 4) / IZR K)%R).
  assert (Ht : forall j, (-1 <= tt j <= 1)%R).
  { intros j. specialize (Hr j). unfold tt. assert (Rabs ((r j - / 4) / IZR K) <= 1)%R.
    { unfold Rdiv. rewrite Rabs_mult, (Rabs_right (/ IZR K)) by (apply Rle_ge, Rlt_le, Rinv_0_lt_compat; lra). apply Rmult_le_reg_r with (IZR K); [lra|]. rewrite Rmult_assoc, Rinv_l; lra. }
    split; [pose proof (Rle_abs (- ((r j - / 4) / IZR K))) as A; rewrite Rabs_Ropp in A; lra|pose proof (Rle_abs ((r j - / 4) / IZR K)); lra]. }
  set (e' := f_em_in u eta Delta K e).
  assert (H2' : carries (Q - LD) N s ct1' Delta (fun j => real (tt j)) (em_arg_error N h Delta K e')).
  { eapply carries_ext; [| |exact H2].
    - intros j Hj. apply (f_equal real). unfold tt. field. lra.
    - unfold em_arg_error, e', f_em_in. right. field. lra. }
  destruct (f_eval_poly_holds F u eta top t ar true LOGN LD (Q - LD) s (key 1) [key 2; key 3; key 4; key 5] (fun _ => 1%R) (65 / 100)%R (65 / 100)%R (2 * (u + eta)) (em_arg_error N h Delta K e') (f_evalmod_u F) evalmod_u (fun j => real (tt j)) ct1' (sq_new (Q - 6 * LD) N) 4)
    as (ct2 & E3 & H3).
  { constructor; auto; try lia.
    - cbn [length]. lia.
    - intros i Hi. cbn [length] in Hi. replace (Q - LD - LD * i) with (Q - (i + 1) * LD) by ring. apply HW. lia.
    - intros i evk E. assert (Hi : (i < 5)%nat) by (assert (nth_error [key 1; key 2; key 3; key 4; key 5] i <> None) as G by congruence; apply nth_error_Some in G; exact G).
      replace (Q - LD - LD * Z.of_nat i) with (Q - (Z.of_nat i + 1) * LD) by ring.
      replace evk with (key (Z.of_nat i + 1)); [apply Hkey; lia|]. do 5 (destruct i as [|i]; [cbn in E; injection E as <-; reflexivity|]). lia.
    - eapply Forall_impl; [|exact evalmod_u_bound]. intros v Hv. split; [exact Hv|discriminate].
    - fold Delta. split; (apply Rlt_trans with Delta; [lra|]); apply IZR_lt; [lia|]. apply Z.pow_lt_mono_r; lia.
    - intros b Hb j Hj. apply C62_real_slots. apply Ht.
    - cbn [length]. replace (Q - LD - LD * Z.of_nat 5) with (Q - 6 * LD) by ring. apply new_object2; fold N; lia. }
  { fold Delta. assert (Delta <= IZR (2 ^ 62))%R by (apply IZR_le, Z.pow_le_mono_r; lia). lra. }
  { exact (f_evalmod_near Delta HD). }
  { reflexivity. } { lia. } { reflexivity. }
  fold N Delta h in E3, H3. change (Z.of_nat 5) with 5 in H3. replace (Q - LD - LD * 5) with (Q - 6 * LD) in H3 by ring.
  assert (H3' : carries (Q - 6 * LD) N s ct2 Delta (fun j => real (cos (3 * PI * tt j))) (f_em_cos_error u eta N h Delta K e)).
  { apply (carries_near LOGN s _ _ _ _ (fun j => real (cos (3 * PI * tt j))) _ (24 / IZR (10 ^ 15))) in H3; [|intros j Hj; apply evalmod_poly; apply Ht].
    eapply carries_ext; [intros; reflexivity| |exact H3]. unfold f_em_cos_error, em_cos_error. fold e'. cbn [part_bound]. lra. }
  clear H3. pose proof (fun (i : Z) (T : sq) (a : Z -> R) (er : R) (Hi : 1 <= i <= 11) => carries_angle LOGN LD HL HLD s (Q - i * LD) T (key i) a er ltac:(nia) (W1 i Hi) (W2 i Hi) (Hkey i Hi)) as AN.
  fold N Delta h in AN.
  destruct (AN 6 ct2 _ _ ltac:(lia) H3') as (ct3 & E4 & H4). replace (Q - 6 * LD - LD) with (Q - 7 * LD) in E4, H4 by ring.
  destruct (AN 7 ct3 _ _ ltac:(lia) H4) as (ct4 & E5 & H5). replace (Q - 7 * LD - LD) with (Q - 8 * LD) in E5, H5 by ring.
  destruct (AN 8 ct4 _ _ ltac:(lia) H5) as (ct5 & E6 & H6). replace (Q - 8 * LD - LD) with (Q - 9 * LD) in E6, H6 by ring.
  destruct (AN 9 ct5 _ _ ltac:(lia) H6) as (ct6 & E7 & H7). replace (Q - 9 * LD - LD) with (Q - 10 * LD) in E7, H7 by ring.
  set (y := fun j => cos (48 * PI * tt j)).
  assert (H7' : carries (Q - 10 * LD) N s ct6 Delta (fun j => real (y j)) (f_em_y_error u eta N h Delta K e)).
  { eapply carries_ext; [|apply Rle_refl|exact H7]. intros j Hj. cbv beta. apply (f_equal real). unfold y. f_equal. ring. }
  clear H4 H5 H6 H7 AN. assert (Hy : forall j, (Rabs (y j) <= 1)%R) by (intros; apply Rabs_le, COS_bound).
  destruct (em_square6_ok LOGN LD HL HLD s (Q - 10 * LD) ct6 (key 10) y _ ltac:(lia) (W1 10 ltac:(lia)) (W2 10 ltac:(lia)) (Hkey 10 ltac:(lia)) (fun j _ => Hy j) H7') as (ct7 & E8 & H8).
  destruct (f_em_times_ok F u eta top t ar LOGN LD HL HLD s Htop (Q - 10 * LD) ct6 y _ ltac:(lia) (fun j _ => Hy j) H7') as (ct8 & E9 & H9).
  fold N Delta h in E8, H8, E9, H9. replace (Q - 10 * LD - LD) with (Q - 11 * LD) in H8, H9 by ring.
  destruct (PI_macro_near LOGN LD HLD s) as (_ & _ & P36).
  assert (M7 : forall j, 0 <= j < N / 2 -> (modulus (real (y j * y j + 6)) <= 7)%R).
  { intros j _. rewrite modulus_real. pose proof (COS_bound (48 * PI * tt j)) as CB. fold (y j) in CB. rewrite Rabs_right by nra. nra. }
  assert (M8 : forall j, 0 <= j < N / 2 -> (modulus (real (y j / (12 * PI))) <= / 36)%R).
  { intros j _. rewrite modulus_real. unfold Rdiv. rewrite Rabs_mult, (Rabs_right (/ (12 * PI))) by (apply Rle_ge, Rlt_le, Rinv_0_lt_compat; lra).
    replace (/ 36)%R with (1 * / 36)%R by ring. apply Rmult_le_compat; [apply Rabs_pos|apply Rlt_le, Rinv_0_lt_compat; lra|apply Hy|apply Rinv_le_contravar; lra]. }
  destruct (carries_Mul LOGN HL s (Q - 11 * LD) ct7 ct8 (key 11) (sq_new (Q - 11 * LD) N) Delta Delta _ _ _ _ _ _ (W1 11 ltac:(lia)) (W2 11 ltac:(lia)) (Hkey 11 ltac:(lia))
      ltac:(apply new_object2; lia) ltac:(lra) ltac:(lra) M7 M8 H8 H9) as (ct9 & E10 & H10). fold N h in E10, H10.
  replace (Delta * Delta)%R with (Delta * IZR (2 ^ (Q - 11 * LD - (Q - 12 * LD))))%R in H10 at 1 by (replace (Q - 11 * LD - (Q - 12 * LD)) with LD by ring; reflexivity).
  destruct (carries_RS LOGN HL s (Q - 11 * LD) (Q - 12 * LD) ct9 p Delta _ _ ltac:(lia) ltac:(lra) Hp H10) as (p' & E11 & H11). fold N h in E11, H11.
  exists p'. split.
  - unfold f_EvalMod_keys. rewrite E1. cbn [bind]. rewrite E2. cbn [bind]. unfold f_eval_poly_deg31. change 16 with (2 ^ Z.of_nat 4). rewrite E3. cbn [bind]. rewrite E4. cbn [bind]. rewrite E5. cbn [bind]. rewrite E6. cbn [bind]. rewrite E7. cbn [bind].
    rewrite E8. cbn [bind]. rewrite E9. cbn [bind]. rewrite E10. cbn [bind]. exact E11.
  - eapply carries_ext; [| |exact H11].
    + intros j Hj. cbv beta. unfold evalmod_value, asin3. fold (tt j). fold (y j). pose proof PI_RGT_0. set (v := y j). clearbody v. apply RC_eq; cbn; field; lra.
    + unfold f_evalmod_error. unfold mul_noise at 1. right. field. lra.
Qed.

(** With the secret key, EvalMod makes its own evaluation keys. *)
Theorem C112_EvalMod : forall LOGN LD Q K RM rng pos s ct r e p, evalmod_params LOGN LD Q K -> rand_stream RM rng -> ternary (2 ^ LOGN) s ->
  (forall j, Rabs (r j - / 4) <= IZR K)%R -> carries Q (2 ^ LOGN) (coef s) ct (IZR (2 ^ LD)) (fun j => real (r j)) e -> object2 (Q - 12 * LD) (2 ^ LOGN) p ->
  exists pos' p', f_EvalMod F Q (2 ^ LOGN) LD K RM rng pos ct (map Some s) p = Ok (pos', p') /\
    carries (Q - 12 * LD) (2 ^ LOGN) (coef s) p' (IZR (2 ^ LD)) (fun j => real (evalmod_value K (r j)))
      (f_evalmod_error u eta (2 ^ LOGN) (norm1 (2 ^ LOGN) (coef s)) (IZR (2 ^ LD)) K e).
Proof.
  intros LOGN LD Q K RM rng pos s ct r e p HP Hrnd Hs Hr Hct Hp. pose proof HP as [HL HLD _ HQ HW]. set (N := 2 ^ LOGN) in *.
  assert (HN : 2 <= N <= 2 ^ 17) by (unfold N; split; [change 2 with (2 ^ 1) at 1|]; apply Z.pow_le_mono_r; lia).
  pose proof Hs as [Hsl Hst].
  destruct (C33_conv_int_ternary N s s (fresh N) ltac:(lia) Hsl Hsl ltac:(apply fresh_length) Hst Hst) as (s2 & Es & Hl2 & Hs2).
  assert (Hb2 : Forall (fun x => Z.abs x < 2 ^ 31) s2).
  { apply Forall_forall. intros x Hx. destruct (In_nth s2 x 0 Hx) as (n & Hn & <-). destruct (Hs2 (Z.of_nat n) ltac:(lia)) as [_ B]. unfold coef in B. rewrite Nat2Z.id in B. lia. }
  assert (GK : forall i ps, 1 <= i <= 11 -> exists k ps', em_key Q N LD RM rng (map Some s) (map Some s2) i ps = Ok (k, ps') /\ switching_key (Q - i * LD) N k (negconv N (coef s) (coef s)) (coef s)).
  { intros i ps Hi. assert (1 <= Q - i * LD) by nia.
    destruct (C38_swkgen (Q - i * LD) N RM rng s2 s (sq_new (2 * (Q - i * LD)) N) ps ltac:(lia) ltac:(lia) Hrnd Hl2 Hb2 Hs ltac:(apply new_object2; lia)) as (k & ps' & E & Hk).
    exists k, ps'. split; [exact E|]. destruct Hk as (er & He & Hd). exists er. split; [exact He|]. eapply decrypts_mod; [|exact Hd]. intros j Hj. cbv beta. rewrite (proj1 (Hs2 j Hj)). reflexivity. }
  destruct (GK 1 pos ltac:(lia)) as (k1 & p1 & E1 & K1). destruct (GK 2 p1 ltac:(lia)) as (k2 & p2 & E2 & K2). destruct (GK 3 p2 ltac:(lia)) as (k3 & p3 & E3 & K3).
  destruct (GK 4 p3 ltac:(lia)) as (k4 & p4 & E4 & K4). destruct (GK 5 p4 ltac:(lia)) as (k5 & p5 & E5 & K5). destruct (GK 6 p5 ltac:(lia)) as (k6 & p6 & E6 & K6).
  destruct (GK 7 p6 ltac:(lia)) as (k7 & p7 & E7 & K7). destruct (GK 8 p7 ltac:(lia)) as (k8 & p8 & E8 & K8). destruct (GK 9 p8 ltac:(lia)) as (k9 & p9 & E9 & K9).
  destruct (GK 10 p9 ltac:(lia)) as (k10 & p10 & E10 & K10). destruct (GK 11 p10 ltac:(lia)) as (k11 & p11 & E11 & K11).
  set (key := fun i => nth (Z.to_nat i) [k1; k1; k2; k3; k4; k5; k6; k7; k8; k9; k10; k11] k1).
  assert (HK : em_keys LOGN LD Q (coef s) key).
  { intros i Hi. fold N. assert (i = 1 \/ i = 2 \/ i = 3 \/ i = 4 \/ i = 5 \/ i = 6 \/ i = 7 \/ i = 8 \/ i = 9 \/ i = 10 \/ i = 11) as D by lia.
    destruct D as [->|[->|[->|[->|[->|[->|[->|[->|[->|[->| ->]]]]]]]]]]; assumption. }
  destruct (C112_EvalMod_keys LOGN LD Q K (coef s) key ct r e p HP HK Hr Hct Hp) as (p' & E & H'). fold N in E, H'.
  exists p11, p'. split; [|exact H'].
  unfold f_EvalMod. rewrite Es. cbn [bind]. cbv zeta. rewrite E1. cbn [bind]. rewrite E2. cbn [bind]. rewrite E3. cbn [bind]. rewrite E4. cbn [bind]. rewrite E5. cbn [bind]. rewrite E6. cbn [bind].
  rewrite E7. cbn [bind]. rewrite E8. cbn [bind]. rewrite E9. cbn [bind]. rewrite E10. cbn [bind]. rewrite E11. cbn [bind].
  change (f_EvalMod_keys F Q N LD K ct k1 k2 k3 k4 k5 k6 k7 k8 k9 k10 k11 p = Ok p') in E. rewrite E. reflexivity.
Qed.

(** With K = 24 it subtracts the nearest integer. *)
Theorem C112_nearest : forall LOGN LD Q RM rng pos s ct I d dmax e p, evalmod_params LOGN LD Q 24 -> rand_stream RM rng -> ternary (2 ^ LOGN) s ->
  (forall j, Rabs (IZR (I j) + d j - / 4) <= 24)%R -> (forall j, Rabs (d j) <= dmax)%R ->
  carries Q (2 ^ LOGN) (coef s) ct (IZR (2 ^ LD)) (fun j => real (IZR (I j) + d j)) e -> object2 (Q - 12 * LD) (2 ^ LOGN) p ->
  exists pos' p', f_EvalMod F Q (2 ^ LOGN) LD 24 RM rng pos ct (map Some s) p = Ok (pos', p') /\
    carries (Q - 12 * LD) (2 ^ LOGN) (coef s) p' (IZR (2 ^ LD)) (fun j => real (d j))
      (f_evalmod_error u eta (2 ^ LOGN) (norm1 (2 ^ LOGN) (coef s)) (IZR (2 ^ LD)) 24 e + 6 / 5 * PI ^ 4 * dmax ^ 5).
Proof.
  intros LOGN LD Q RM rng pos s ct I d dmax e p HP Hrnd Hs Hr Hd Hct Hp.
  destruct (C112_EvalMod LOGN LD Q 24 RM rng pos s ct (fun j => IZR (I j) + d j)%R e p HP Hrnd Hs Hr Hct Hp) as (pos' & p' & E & H').
  exists pos', p'. split; [exact E|]. apply (carries_near LOGN (coef s) _ _ _ _ (fun j => real (d j)) _ (6 / 5 * PI ^ 4 * dmax ^ 5)) in H'; [exact H'|].
  intros j Hj. cbv beta. rewrite real_minus, modulus_real. eapply Rle_trans; [apply C72_value|].
  apply Rmult_le_compat_l; [apply Rmult_le_pos; [lra|apply pow_le, Rlt_le, PI_RGT_0]|]. apply pow_incr. split; [apply Rabs_pos|apply Hd].
Qed.
End Ar.

(** ** In double precision *)
(** the rounding of 1/24, of the 32 coefficients and of 1/(12 pi) adds 2/10^16 to the error of the argument and 1/10^12 to that of the result *)
Theorem C112_EvalMod_double : forall F, double F -> forall LOGN LD Q RM rng pos s ct I d dmax e delta p, evalmod_params LOGN LD Q 24 -> rand_stream RM rng -> ternary (2 ^ LOGN) s ->
  (forall j, Rabs (IZR (I j) + d j - / 4) <= 24)%R -> (forall j, Rabs (d j) <= dmax)%R ->
  carries Q (2 ^ LOGN) (coef s) ct (IZR (2 ^ LD)) (fun j => real (IZR (I j) + d j)) e -> object2 (Q - 12 * LD) (2 ^ LOGN) p ->
  let N := IZR (2 ^ LOGN) in let h := norm1 (2 ^ LOGN) (coef s) in let Delta := IZR (2 ^ LD) in
  (e / 24 + 26 / Delta + N * IZR (1 + h) / (2 * Delta) + N * (8 * N + IZR (1 + h)) / (Delta * Delta) + 2 / IZR (10 ^ 16) <= delta)%R -> (delta <= / IZR (10 ^ 8))%R ->
  exists pos' p', f_EvalMod F Q (2 ^ LOGN) LD 24 RM rng pos ct (map Some s) p = Ok (pos', p') /\
    carries (Q - 12 * LD) (2 ^ LOGN) (coef s) p' Delta (fun j => real (d j)) (340000 * delta + 3 / IZR (10 ^ 12) + 117 * dmax ^ 5).
Proof.
  intros F HF LOGN LD Q RM rng pos s ct I d dmax e delta p HP Hrnd Hs Hr Hd Hct Hp N h Delta H1 H2.
  destruct (C112_nearest F u64 eta64 top64 t64 HF (top64_big 62 ltac:(lia)) LOGN LD Q RM rng pos s ct I d dmax e p HP Hrnd Hs Hr Hd Hct Hp) as (pos' & p' & E & H'). exists pos', p'. split; [exact E|].
  eapply carries_ext; [reflexivity| |exact H']. destruct HP as [HL HLD _ _ _].
  assert (HN : 2 <= 2 ^ LOGN) by (change 2 with (2 ^ 1) at 1; apply Z.pow_le_mono_r; lia). pose proof (HDelta LD ltac:(lia)) as HDl. fold Delta in HDl.
  pose proof (err_nonneg LOGN HL (coef s) _ _ _ _ _ Hct) as He. assert (Hh : 0 <= h) by (apply norm1_nonneg; lia).
  pose proof u_small as Hu. pose proof eta_pos as Heta. pose proof (eta_u 10 ltac:(lia) ltac:(lia)) as Heu. change (2 ^ 10) with 1024 in Heu.
  assert (HN2 : (2 <= N)%R) by (apply IZR_le; lia). assert (Hh1 : (1 <= IZR (1 + h))%R) by (apply IZR_le; lia).
  assert (Hi : (0 < / Delta)%R) by (apply Rinv_0_lt_compat; lra). assert (Hi2 : (/ Delta <= / 2)%R) by (apply Rinv_le_contravar; lra).
  assert (T1 : (0 <= N * IZR (1 + h) / (2 * Delta))%R) by (apply Rmult_le_pos; [apply Rmult_le_pos; lra|apply Rlt_le, Rinv_0_lt_compat; lra]).
  assert (T2 : (0 <= N * (8 * N + IZR (1 + h)) / (Delta * Delta))%R) by (apply Rmult_le_pos; [apply Rmult_le_pos; lra|apply Rlt_le, Rinv_0_lt_compat; apply Rmult_lt_0_compat; lra]).
  assert (T3 : (0 <= 26 / Delta)%R) by (unfold Rdiv; lra).
  change (10 ^ 8) with 100000000 in *. change (10 ^ 16) with 10000000000000000 in H1. assert (e <= 1)%R by lra.
  assert (Hed : (0 <= eta64 / Delta <= eta64 / 2)%R) by (split; [apply Rmult_le_pos; lra|apply Rmult_le_compat_l; lra]).
  assert (Hin : (0 <= (u64 / 24 + eta64 / Delta) * (e + 26) <= 2 / 10000000000000000)%R).
  { split; [apply Rmult_le_pos; lra|]. apply Rle_trans with (u64 / 23 * 27)%R; [|lra]. apply Rmult_le_compat; lra. }
  apply Rplus_le_compat.
  - fold h Delta. apply (proj2 (A:=(0 <= f_evalmod_error u64 eta64 (2 ^ LOGN) h Delta 24 e)%R)). apply f_evalmod_error_bound; try lia; try lra.
    + change (8 * 10 ^ 15) with 8000000000000000. lra.
    + eapply Rle_trans; [|exact H1]. unfold em_arg_error, rescale_noise, mul_noise, f_em_in. fold h Delta N.
      replace (IZR (8 * 2 ^ LOGN + 1 + h)) with (8 * N + IZR (1 + h))%R by (unfold N; rewrite !plus_IZR, mult_IZR; ring).
      match goal with |- (?a <= ?b)%R => replace a with (e / 24 + 26 / Delta + N * IZR (1 + h) / (2 * Delta) + N * (8 * N + IZR (1 + h)) / (Delta * Delta) + (u64 / 24 + eta64 / Delta) * (e + 26))%R by (field; lra) end. lra.
  - assert (P : (6 / 5 * PI ^ 4 <= 117)%R).
    { destruct PI_bounds as [P1 P2]. pose proof PI_RGT_0. assert (PI <= 3.1416)%R by lra. assert (PI * PI <= 9.86966)%R by nra. assert (0 <= PI * PI)%R by nra. nra. }
    apply Rmult_le_compat_r; [|exact P]. apply pow_le. eapply Rle_trans; [apply Rabs_pos|apply (Hd 0)].
Qed.

(** ** Concrete cases, in IEEE double precision *)
(** the setting of C62_case: the coefficients 1/2, 1/4, 1/2, 1/4 and slots 1/2 *)
Example C111_case : let ct := repS 20 4 (const 128) (fun _ => 0) in
  exists p', f_eval_poly_deg3 F64 20 4 8 (map Some [1 / 2; 1 / 4; 1 / 2; 1 / 4]%R) ct (ex_key 20) (ex_key 12) (sq_new 4 4) = Ok p' /\
    carries 4 4 ex_s p' 256%R (fun _ => product_value 2 (rcoef [1 / 2; 1 / 4; 1 / 2; 1 / 4]%R) (real (1 / 2)))
      (f_poly_error u64 eta64 4 (norm1 4 ex_s) 256 (fun _ => 1%R) (1 / 2) 0 2).
Proof.
  intros ct. pose proof u_small as Hu. pose proof eta_pos as Heta. pose proof (eta_u 10 ltac:(lia) ltac:(lia)) as Heu. change (2 ^ 10) with 1024 in Heu.
  assert (CE : (0 <= coefficient_error u64 eta64 (IZR (2 ^ 8)) (1 / 2) <= / 1000)%R) by (unfold coefficient_error; change (2 ^ 8) with 256; lra).
  destruct C62_case as [A1 A2 A3 A4 A5 A6 A7 A8 A9 A10].
  apply (C111_deg3 F64 u64 eta64 top64 t64 C87_binary64 2 8 20 ex_s (ex_key 20) (ex_key 12) (fun _ => 1%R) (1 / 2)%R 0%R [1 / 2; 1 / 4; 1 / 2; 1 / 4]%R (fun _ => real (1 / 2)) ct (sq_new 4 4)).
  - constructor; auto.
    + eapply Forall_impl; [|exact A6]. cbv beta. intros x [B1 B2]. split; [lra|exact B2].
    + change (2 ^ 8) with 256 in *. split; (apply Rlt_le_trans with (IZR 1000); [lra|apply IZR_le; cbn; lia]).
  - split.
    + pose proof (top64_big 8 ltac:(lia)). change (2 ^ 8) with 256 in *. lra.
    + apply Forall_forall. intros x Hx. cbn [In] in Hx. assert (x = 1 / 2 \/ x = 1 / 4)%R as [-> | ->] by (intuition auto); (rewrite Rabs_right by lra; split; [lra|intros _; lra]).
  - reflexivity.
Qed.
(** the setting of C72_case: the slots 1 become 0 *)
Example C112_case RM rng pos : rand_stream RM rng -> exists pos' p',
  f_EvalMod F64 700 4 50 24 RM rng pos em_ex_ct (map Some [1; 0; -1; 0]) (sq_new 100 4) = Ok (pos', p') /\
  carries 100 4 (coef [1; 0; -1; 0]) p' (IZR (2 ^ 50)) (fun _ => real 0) (1 / 100000).
Proof.
  intros Hrnd. assert (E4 : forall i, coef [1; 0; -1; 0] i = ex_s i \/ i < 0).
  { intros i. destruct (Z.lt_ge_cases i 0); [right; auto|left]. assert (i = 0 \/ i = 1 \/ i = 2 \/ i = 3 \/ 4 <= i) as [->|[->|[->|[->|G]]]] by lia; try reflexivity.
    unfold coef, ex_s. rewrite nth_overflow by (cbn [length]; lia). destruct (Z.eqb_spec i 0), (Z.eqb_spec i 2); lia. }
  destruct (C112_EvalMod_double F64 C87_binary64 2 50 700 RM rng pos [1; 0; -1; 0] em_ex_ct (fun _ => 1) (fun _ => 0%R) 0%R 0%R (/ IZR (10 ^ 11))%R (sq_new 100 4) (em_ex_params 24 ltac:(lia)) Hrnd) as (pos' & p' & E & H').
  - split; [reflexivity|]. repeat constructor; lia.
  - intros _. rewrite Rplus_0_r, Rabs_right; lra.
  - intros _. rewrite Rabs_R0. lra.
  - destruct em_ex_carries as (m & Hm & Hs). exists m. split.
    + apply decrypts_rep in Hm; try lia. apply decrypts_rep; try lia. destruct Hm as (a & b & E & C). exists a, b. split; [exact E|]. eapply pcong_trans; [|exact C].
      apply padd_proper; [apply pcong_refl|]. apply negconv_proper; try lia; [|apply pcong_refl]. apply pcong_peq. intros i Hi. destruct (E4 i); [auto|lia].
    + intros j Hj. cbv beta. rewrite Rplus_0_r. apply (Hs j Hj).
  - apply new_object2; lia.
  - change (norm1 (2 ^ 2) (coef [1; 0; -1; 0])) with 2. change (2 ^ 2) with 4. change (2 ^ 50) with 1125899906842624. change (10 ^ 11) with 100000000000. change (1 + 2) with 3. lra.
  - change (10 ^ 11) with 100000000000. change (10 ^ 8) with 100000000. lra.
  - exists pos', p'. split; [exact E|]. eapply (carries_ext 2); [reflexivity| |exact H']. rewrite pow_ne_zero by lia. change (10 ^ 11) with 100000000000. change (10 ^ 12) with 1000000000000. lra.
Qed.

Print Assumptions C111_deg127.
Print Assumptions C112_EvalMod_keys.
Print Assumptions C112_EvalMod.
Print Assumptions C112_nearest.
Print Assumptions C112_EvalMod_double.
