(** EvalMod on ciphertexts. *)
From Coq Require Import ZArith List Bool Lia Reals Lra Ring.
From Verif Require Import Base BaseFacts Sums ZQ ZQFacts RQ RQFacts Conv ConvFacts Rot Core CoreFacts Util UtilFacts GSum Matrix MatrixFacts DFT DFTTheory DFTFacts FFTFacts
  SpecZQ SpecPoly SpecPolyFacts SpecScheme SpecMat SpecDFT SpecEnc SlotFacts Encode EncodeFacts PolyCong Noise Properties_DFT Properties_Conv Properties_Core Properties_Plain LinTrans LinTransFacts LinSlots BootSlots
  SpecCheb Poly ChebFacts SpecEval EvalFacts EvalPoly Properties_Poly PiBound CosTaylor PolyZ CosApprox SpecMod ModApprox EvalMod.
Import ListNotations.
Open Scope Z_scope.
Add Ring RCem : HR.

(** ** The polynomial *)
Lemma cheb_real t n : cheb (real t) n = real (rcheb t n) /\ cheb (real t) (S n) = real (rcheb t (S n)).
Proof.
  induction n as [|n [IH1 IH2]]; [split; apply RC_eq; reflexivity|]. split; [auto|]. rewrite cheb_SS, rcheb_SS, IH1, IH2. apply RC_eq; cbn; ring.
Qed.
Lemma product_real t k : forall u, product_value k u (real t) = real (rprod t k (fun n => u (Z.of_nat n))).
Proof.
  induction k as [|k IH]; intros u.
  - unfold product_value. cbn [Z.of_nat bit_product rprod]. change (2 ^ 0) with 1. rewrite (gsum_single HC 1 0) by (try lia; intros; lia). ring.
  - rewrite product_halves, !IH. cbn [rprod]. rewrite (proj1 (cheb_real t (2 ^ k))).
    rewrite (rprod_ext t k (fun n => u (Z.of_nat (2 ^ k + n))) (fun n => u (2 ^ Z.of_nat k + Z.of_nat n)%Z)).
    + apply RC_eq; cbn; ring.
    + intros n Hn. f_equal. rewrite Nat2Z.inj_add, Nat2Z.inj_pow. reflexivity.
Qed.
Lemma evalmod_u_eq : evalmod_u = map (fun z => IZR z / IZR (10 ^ 17))%R cos_u17.
Proof. reflexivity. Qed.
Lemma real_minus a b : (real a - real b)%num = real (a - b).
Proof. apply RC_eq; cbn; ring. Qed.
Lemma evalmod_poly t : (-1 <= t <= 1)%R -> (modulus (product_value 5 (rcoef evalmod_u) (real t) - real (cos (3 * PI * t)))%num <= 24 / IZR (10 ^ 15))%R.
Proof.
  intros Ht. rewrite product_real. rewrite real_minus, modulus_real. rewrite (rprod_ext t 5 _ (fun n => IZR (nth n cos_u17 0%Z) / IZR (10 ^ 17))%R); [apply cos_poly; auto|].
  intros n Hn. unfold rcoef. rewrite Nat2Z.id, evalmod_u_eq. rewrite (nth_indep _ 0%R (IZR 0 / IZR (10 ^ 17))%R) by (rewrite map_length; exact Hn).
  apply (map_nth (fun z => IZR z / IZR (10 ^ 17))%R).
Qed.
Lemma evalmod_u_bound : Forall (fun u => (Rabs u <= 65 / 100)%R) evalmod_u.
Proof.
  rewrite evalmod_u_eq. apply Forall_forall. intros u Hu. apply in_map_iff in Hu. destruct Hu as (z & <- & Hz).
  assert (B : forallb (fun z => (Z.abs z <=? 65 * 10 ^ 15)%Z) cos_u17 = true) by (vm_compute; reflexivity). rewrite forallb_forall in B. specialize (B z Hz).
  apply Z.leb_le in B. apply IZR_le in B. rewrite abs_IZR in B. unfold Rdiv at 1. rewrite Rabs_mult, (Rabs_right (/ IZR (10 ^ 17))) by (apply Rle_ge, Rlt_le, Rinv_0_lt_compat, IZR_lt; reflexivity).
  apply Rmult_le_reg_r with (IZR (10 ^ 17)); [apply IZR_lt; reflexivity|]. rewrite Rmult_assoc, Rinv_l by (apply IZR_neq; discriminate).
  change (10 ^ 17) with 100000000000000000. change (65 * 10 ^ 15) with 65000000000000000 in B. lra.
Qed.

Section Mod.
Context (LOGN LD : Z) (HL : 1 <= LOGN <= 17) (HLD : 1 <= LD <= 61) (s : Z -> Z).
Let N := 2 ^ LOGN. Let h := norm1 N s. Let Delta := IZR (2 ^ LD).
Local Lemma HN : 2 <= N.
Proof. unfold N. change 2 with (2 ^ 1) at 1. apply Z.pow_le_mono_r; lia. Qed.
Local Lemma HLD' : 1 <= LD <= 63.
Proof. lia. Qed.

Lemma slots_div D c m j : (D <> 0)%R -> (c <> 0)%R -> slots N (D * c) m j = (real (/ c) * slots N D m j)%num.
Proof. intros H1 H2. unfold slots. rewrite <- slot_scale. apply slot_ext. intros i Hi. field. auto. Qed.
Lemma carries_word Q ct x e w : 1 <= Q -> 0 <= w < 2 ^ 64 -> carries Q N s ct Delta x e ->
  exists ct', sq_mul_word Q N ct w = Ok ct' /\ carries Q N s ct' (Delta * Delta) (fun j => real (IZR w / Delta) * x j)%num (IZR w / Delta * e).
Proof.
  intros HQ Hw H. pose proof (HDelta LD HLD') as HD; fold Delta in HD.
  destruct (carries_scale LOGN HL s Q ct Delta x e w HQ Hw H) as (ct' & E & (m & Hm & Hs)). fold N in E, Hm, Hs. exists ct'. split; [exact E|].
  exists m. split; [exact Hm|]. intros j Hj. rewrite slots_div by lra. specialize (Hs j Hj).
  match goal with |- (modulus ?z0 <= _)%R => replace z0 with (real (/ Delta) * (slots N Delta m j - real (IZR w) * x j))%num end.
  2: { replace (real (IZR w / Delta)) with (real (/ Delta) * real (IZR w))%num by (apply RC_eq; cbn; unfold Rdiv; ring). ring. }
  rewrite modulus_mul, modulus_real, Rabs_right by (apply Rle_ge, Rlt_le, Rinv_0_lt_compat; lra).
  replace (IZR w / Delta * e)%R with (/ Delta * (IZR w * e))%R by (field; lra). apply Rmult_le_compat_l; [apply Rlt_le, Rinv_0_lt_compat; lra|exact Hs].
Qed.
(** multiplication by a real number c between 0 and 1 *)
Lemma carries_factor Q ct x e c X D : LD < Q -> (0 <= c <= 1)%R -> (forall j, 0 <= j < N / 2 -> (modulus (x j) <= X)%R) -> (0 <= X)%R -> object2 (Q - LD) N D -> carries Q N s ct Delta x e ->
  exists w ct' ct'', r_to_u64 (c * Delta) = Ok w /\ sq_mul_word Q N ct w = Ok ct' /\ RS Q (Q - LD) N ct' D = Ok ct'' /\
    carries (Q - LD) N s ct'' Delta (fun j => real c * x j)%num (c * e + X / Delta + rescale_noise N h Delta).
Proof.
  intros HQ Hc HX HX0 Ho H. pose proof (HDelta LD HLD') as HD; fold Delta in HD. pose proof (pow_LD LD HLD') as Hp.
  assert (HcD : (0 <= c * Delta)%R) by (apply Rmult_le_pos; lra).
  assert (Hc64 : (c * Delta < IZR (2 ^ 64))%R). { apply Rle_lt_trans with Delta; [nra|]. apply IZR_lt. lia. }
  destruct (r_to_u64_ok (c * Delta) ltac:(lra) Hc64) as [E1 Hw]. set (w := trunc (c * Delta)) in *.
  destruct (trunc_scaled LD HLD' c) as [T1 T2]. fold Delta w in T1, T2.
  destruct (carries_word Q ct x e w ltac:(lia) Hw H) as (ct' & E2 & H2).
  assert (Hw0 : (0 <= IZR w / Delta)%R) by (apply Rmult_le_pos; [apply IZR_le; lia|apply Rlt_le, Rinv_0_lt_compat; lra]).
  rewrite (Rabs_right c) in T2 by lra. rewrite (Rabs_right (IZR w / Delta)) in T2 by lra.
  pose proof (err_nonneg LOGN HL s Q ct _ _ _ H) as He.
  assert (H3 : carries Q N s ct' (Delta * Delta) (fun j => real c * x j)%num (c * e + X / Delta)).
  { eapply carries_ext; [intros; reflexivity| |apply (carries_near LOGN s Q ct' _ _ (fun j => real c * x j)%num _ (X / Delta) ) with (2 := H2)].
    - apply Rplus_le_compat_r. apply Rmult_le_compat_r; lra.
    - intros j Hj. fold N in Hj. replace (real (IZR w / Delta) * x j - real c * x j)%num with (real (IZR w / Delta - c) * x j)%num.
      2: { replace (real (IZR w / Delta - c)) with (real (IZR w / Delta) - real c)%num by (apply RC_eq; cbn; ring). ring. }
      rewrite modulus_mul, modulus_real. specialize (HX j Hj). pose proof (modulus_nonneg (x j)). pose proof (Rabs_pos (IZR w / Delta - c)).
      apply Rle_trans with (1 / Delta * X)%R; [apply Rmult_le_compat; lra|]. right. field. lra. }
  replace (Delta * Delta)%R with (Delta * IZR (2 ^ (Q - (Q - LD))))%R in H3 at 1 by (replace (Q - (Q - LD)) with LD by lia; reflexivity).
  destruct (carries_RS LOGN HL s Q (Q - LD) _ D Delta _ _ ltac:(lia) ltac:(lra) Ho H3) as (ct'' & E4 & H4). fold N in E4, H4.
  exists w, ct', ct''. auto.
Qed.

Lemma em_scale_ok Q K ct r e : LD < Q -> 1 <= K -> (forall j, 0 <= j < N / 2 -> (Rabs (r j) <= IZR K + 1)%R) -> carries Q N s ct Delta (fun j => real (r j)) e ->
  exists ct1, em_scale Q N LD K ct = Ok ct1 /\ carries (Q - LD) N s ct1 Delta (fun j => real (r j / IZR K)) (e / IZR K + (IZR K + 1) / Delta + rescale_noise N h Delta).
Proof.
  intros HQ HK HX H. pose proof (HDelta LD HLD') as HD; fold Delta in HD. assert (HK1 : (1 <= IZR K)%R) by (apply IZR_le; lia). pose proof HN.
  destruct (carries_factor Q ct (fun j => real (r j)) e (/ IZR K) (IZR K + 1) (sq_new (Q - LD) N) HQ) as (w & ct' & ct'' & E1 & E2 & E3 & H'); auto.
  - split; [apply Rlt_le, Rinv_0_lt_compat; lra|]. rewrite <- Rinv_1. apply Rinv_le_contravar; lra.
  - intros j Hj. rewrite modulus_real. auto.
  - lra.
  - apply new_object2; lia.
  - exists ct''. split.
    + unfold em_scale. pose proof (carries_copy LOGN HL s Q ct _ _ _ (sq_new Q N) ltac:(lia) ltac:(apply new_object2; lia) H) as EC. fold N in EC. rewrite EC. cbn [bind].
      rewrite one_shl_ok by lia. cbn [bind]. unfold quot_d. destruct (Z.eqb_spec K 0); [lia|]. cbn [bind]. fold Delta.
      replace (Delta / IZR K)%R with (/ IZR K * Delta)%R by (unfold Rdiv; ring). rewrite E1. cbn [bind]. rewrite E2. cbn [bind]. exact E3.
    + eapply carries_ext; [| |exact H'].
      * intros j Hj. apply RC_eq; cbn; unfold Rdiv; ring.
      * right. unfold Rdiv. ring.
Qed.
Lemma em_shift_ok Q K ct r e : LD < Q -> 1 <= K -> 4 * K < 2 ^ 31 -> carries Q N s ct Delta (fun j => real (r j)) e ->
  exists ct1, em_shift Q LD K ct = Ok ct1 /\ carries Q N s ct1 Delta (fun j => real (r j - / (4 * IZR K))) (e + 1 / Delta).
Proof.
  intros HQ HK HK4 H. pose proof (HDelta LD HLD') as HD; fold Delta in HD. assert (HK1 : (1 <= IZR K)%R) by (apply IZR_le; lia). pose proof HN. pose proof (pow_LD LD HLD') as Hp.
  assert (Hi : (0 < / (4 * IZR K) <= 1)%R). { split; [apply Rinv_0_lt_compat; lra|]. rewrite <- Rinv_1. apply Rinv_le_contravar; lra. }
  destruct (r_to_u64_ok (/ (4 * IZR K) * Delta)) as [E1 Hw].
  { assert (0 <= / (4 * IZR K) * Delta)%R by (apply Rmult_le_pos; lra). lra. }
  { apply Rle_lt_trans with Delta; [nra|]. apply IZR_lt. lia. }
  destruct (trunc_scaled LD HLD' (/ (4 * IZR K))) as [T1 T2]. fold Delta in T1, T2. set (w := trunc (/ (4 * IZR K) * Delta)) in *.
  assert (HwQ : 0 <= w < 2 ^ Q).
  { split; [lia|]. apply Z.lt_le_trans with (2 ^ LD + 1).
    - apply Z.lt_succ_r. apply le_IZR. fold Delta. pose proof (trunc_abs (/ (4 * IZR K) * Delta)) as TA. fold w in TA.
      rewrite !Rabs_right in TA; [nra|apply Rle_ge, Rmult_le_pos; lra|apply Rle_ge, IZR_le; lia].
    - assert (2 ^ LD * 2 <= 2 ^ Q); [|lia]. replace (2 ^ LD * 2) with (2 ^ (LD + 1)) by (rewrite Z.pow_add_r by lia; reflexivity). apply Z.pow_le_mono_r; lia. }
  destruct (carries_sub0 LOGN HL s Q ct Delta _ e w ltac:(lia) H) as (t0 & E2 & H2). fold N in H2.
  exists (t0, snd ct). split.
  - unfold em_shift. rewrite zq_setzero_ok by (try lia; unfold zq_new; apply fresh_length). cbn [bind]. rewrite one_shl_ok by lia. cbn [bind]. rewrite int_ok by lia. cbn [bind].
    unfold quot_d. destruct (Z.eqb_spec (4 * K) 0); [lia|]. cbn [bind]. fold Delta. rewrite mult_IZR.
    replace (Delta / (4 * IZR K))%R with (/ (4 * IZR K) * Delta)%R by (unfold Rdiv; ring). rewrite E1. cbn [bind].
    rewrite (first_word Q 2) by (try lia; unfold is_word, W; lia). cbn [bind]. rewrite raw_rep by lia. replace (pupd _ _ _) with (Ok t0) by (symmetry; exact E2). reflexivity.
  - apply (carries_near LOGN s Q _ _ _ _ e (1 / Delta)) with (2 := H2). intros j Hj.
    replace (real (r j) - real (IZR w / Delta) - real (r j - / (4 * IZR K)))%num with (real (- (IZR w / Delta - / (4 * IZR K)))) by (apply RC_eq; cbn; ring).
    rewrite modulus_real, Rabs_Ropp. exact T1.
Qed.

Lemma em_square6_ok Q ct evk r e : LD < Q -> widths Q -> widths (2 * Q) -> switching_key Q N evk (negconv N s s) s ->
  (forall j, 0 <= j < N / 2 -> (Rabs (r j) <= 1)%R) -> carries Q N s ct Delta (fun j => real (r j)) e ->
  exists ct1, em_square6 Q N LD ct evk = Ok ct1 /\ carries (Q - LD) N s ct1 Delta (fun j => real (r j * r j + 6)) (em_square_error N h Delta e).
Proof.
  intros HQ HW HW2 Hk HX H. pose proof (HDelta LD HLD') as HD; fold Delta in HD. pose proof HN. pose proof (pow_LD LD HLD') as Hp.
  assert (HM : forall j, 0 <= j < N / 2 -> (modulus (real (r j)) <= 1)%R) by (intros; rewrite modulus_real; auto).
  destruct (carries_Mul LOGN HL s Q ct ct evk (sq_new Q N) Delta Delta _ _ e e 1 1 HW HW2 Hk ltac:(apply new_object2; lia) ltac:(lra) ltac:(lra) HM HM H H) as (t1 & E1 & H1).
  fold N in E1, H1. assert (H6 : 2 ^ LD * 6 < 2 ^ 64). { apply Z.le_lt_trans with (2 ^ 61 * 6); [|reflexivity]. apply Z.mul_le_mono_nonneg_r; [lia|]. apply Z.pow_le_mono_r; lia. }
  destruct (carries_add0 LOGN HL s Q t1 _ _ _ (2 ^ LD * 6 * 2 ^ LD) ltac:(lia) H1) as (t0 & E3 & H3). fold N in H3.
  replace (Delta * Delta)%R with (Delta * IZR (2 ^ (Q - (Q - LD))))%R in H3 at 1 by (replace (Q - (Q - LD)) with LD by lia; reflexivity).
  destruct (carries_RS LOGN HL s Q (Q - LD) _ (sq_new (Q - LD) N) Delta _ _ ltac:(lia) ltac:(lra) ltac:(apply new_object2; lia) H3) as (T' & E4 & H4). fold N in E4, H4.
  exists T'. split.
  - unfold em_square6. rewrite E1. cbn [bind]. rewrite one_shl_ok by lia. cbn [bind]. rewrite Z.mod_small by (unfold W; lia).
    rewrite zq_const_ok by (try lia; unfold is_word, W; lia). cbn [bind]. replace (pupd _ _ _) with (Ok t0) by (symmetry; exact E3). cbn [bind]. exact E4.
  - eapply carries_ext; [| |exact H4]; fold N.
    + intros j Hj. rewrite !mult_IZR. fold Delta. replace (Delta * 6 * Delta / (Delta * Delta))%R with 6%R by (field; lra). apply RC_eq; cbn; ring.
    + unfold em_square_error, mul_noise, rescale_noise. fold h. apply Req_le. field. lra.
Qed.
Lemma PI_macro_near : (0 <= / (12 * PI_macro) - / (12 * PI) <= 1 / Delta)%R /\ (/ (12 * PI_macro) <= / 36)%R /\ (36 < 12 * PI)%R.
Proof.
  pose proof PI_bounds as [P1 P2]. fold PI_macro in P1. assert (PM : (PI_macro = 31415926535897932384626433 / 10000000000000000000000000)%R) by reflexivity.
  change (10 ^ 25) with 10000000000000000000000000 in P2.
  assert (M3 : (3 < PI_macro)%R) by lra. split; [|split; [apply Rinv_le_contravar; lra|lra]].
  pose proof (HDelta LD HLD') as HD; fold Delta in HD.
  replace (/ (12 * PI_macro) - / (12 * PI))%R with ((PI - PI_macro) * / (12 * PI_macro * PI))%R by (field; lra).
  assert (0 < / (12 * PI_macro * PI) <= 1)%R. { split; [apply Rinv_0_lt_compat; nra|]. rewrite <- Rinv_1. apply Rinv_le_contravar; nra. }
  split; [apply Rmult_le_pos; lra|]. apply Rle_trans with ((PI - PI_macro) * 1)%R; [apply Rmult_le_compat_l; lra|].
  assert (HD2 : (Delta <= IZR (2 ^ 63))%R) by (apply IZR_le, Z.pow_le_mono_r; lia).
  apply Rle_trans with (1 / IZR (2 ^ 63))%R; [change (2 ^ 63) with 9223372036854775808; lra|].
  apply Rmult_le_compat_l; [lra|]. apply Rinv_le_contravar; lra.
Qed.
Lemma em_times_ok Q ct r e : LD < Q -> (forall j, 0 <= j < N / 2 -> (Rabs (r j) <= 1)%R) -> carries Q N s ct Delta (fun j => real (r j)) e ->
  exists ct1, em_times Q N LD ct = Ok ct1 /\ carries (Q - LD) N s ct1 Delta (fun j => real (r j / (12 * PI))) (em_times_error N h Delta e).
Proof.
  intros HQ HX H. pose proof (HDelta LD HLD') as HD; fold Delta in HD. pose proof HN. destruct PI_macro_near as (B1 & B2 & B3). pose proof (err_nonneg LOGN HL s Q ct _ _ _ H) as He.
  assert (B0 : (0 < / (12 * PI))%R) by (apply Rinv_0_lt_compat; lra).
  destruct (carries_factor Q ct (fun j => real (r j)) e (/ (12 * PI_macro)) 1 (sq_new (Q - LD) N) HQ) as (w & ct' & ct'' & E1 & E2 & E3 & H'); auto.
  - lra.
  - intros j Hj. rewrite modulus_real. auto.
  - lra.
  - apply new_object2; lia.
  - exists ct''. split.
    + unfold em_times. pose proof (carries_copy LOGN HL s Q ct _ _ _ (sq_new Q N) ltac:(lia) ltac:(apply new_object2; lia) H) as EC. fold N in EC. rewrite EC. cbn [bind].
      rewrite one_shl_ok by lia. cbn [bind]. fold Delta.
      replace (Delta / (12 * PI_macro))%R with (/ (12 * PI_macro) * Delta)%R by (unfold Rdiv; ring). rewrite E1. cbn [bind]. rewrite E2. cbn [bind]. exact E3.
    + apply (carries_near LOGN s _ _ _ _ (fun j => real (r j / (12 * PI))) _ (1 / Delta)) in H'.
      * eapply carries_ext; [intros; reflexivity| |exact H']. unfold em_times_error. fold h N.
        assert (/ (12 * PI_macro) * e <= e / 36)%R by (unfold Rdiv; rewrite Rmult_comm; apply Rmult_le_compat_l; auto).
        replace (2 / Delta)%R with (1 / Delta + 1 / Delta)%R by (field; lra). lra.
      * intros j Hj. fold N in Hj. specialize (HX j Hj). replace (real (/ (12 * PI_macro)) * real (r j) - real (r j / (12 * PI)))%num with (real ((/ (12 * PI_macro) - / (12 * PI)) * r j)) by (apply RC_eq; cbn; unfold Rdiv; ring).
        rewrite modulus_real, Rabs_mult, (Rabs_right (/ (12 * PI_macro) - / (12 * PI))) by lra. pose proof (Rabs_pos (r j)).
        apply Rle_trans with (1 / Delta * 1)%R; [apply Rmult_le_compat; lra|lra].
Qed.

(** four doublings of the angle *)
Lemma double_cos a : ((1 + 1) * real (cos a) * real (cos a) - 1)%num = real (cos (2 * a)).
Proof. rewrite cos_2a_cos. apply RC_eq; cbn; ring. Qed.
Lemma carries_angle Q T evk a e : LD < Q -> widths Q -> widths (2 * Q) -> switching_key Q N evk (negconv N s s) s -> carries Q N s T Delta (fun j => real (cos (a j))) e ->
  exists T', double_angle Q N LD T evk (sq_new (Q - LD) N) = Ok T' /\ carries (Q - LD) N s T' Delta (fun j => real (cos (2 * a j))) (double_error N h Delta 1 e).
Proof.
  intros HQ HW HW2 Hk H. pose proof HN. destruct (carries_double LOGN LD HL HLD' s Q T evk (sq_new (Q - LD) N) (fun j => real (cos (a j))) e 1 HQ HW HW2 Hk ltac:(apply new_object2; lia)) as (T' & E & H'); auto.
  { intros j Hj. rewrite modulus_real. apply Rabs_le, COS_bound. }
  exists T'. split; [exact E|]. eapply carries_ext; [|apply Rle_refl|exact H']. intros j Hj. cbv beta. rewrite <- (double_cos (a j)). reflexivity.
Qed.
End Mod.
