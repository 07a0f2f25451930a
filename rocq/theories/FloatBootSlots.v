(** CoeffToSlot and SlotToCoeff in floating-point arithmetic. *)
From Coq Require Import ZArith List Bool Lia Reals Lra Ring.
From Verif Require Import Base BaseFacts Sums ZQ ZQFacts RQ RQFacts Conv Rot Core CoreFacts Util UtilFacts GSum Matrix MatrixFacts MatMulFacts DFT DFTTheory DFTFacts FFTFacts
  SpecZQ SpecPoly SpecPolyFacts SpecScheme SpecMat Properties_Mat SpecDFT Properties_DFT SpecEnc SlotFacts
  Encode EncodeFacts Properties_Conv Properties_Core Properties_Rot Properties_Enc Properties_Plain SpecLin LinTrans LinTransFacts LinSlots Properties_Lin GroupFacts GroupSlots Bootstrap BootFacts SpecBoot BootSlots Properties_Boot.
From Verif Require Import Float SpecFloat FloatFacts FloatError FloatStage FloatNum Properties_Float.
From Verif Require Import SpecFloatLin SpecFloatBoot FloatLin FloatMM FloatGroup FloatSerial FloatGrouped FloatBoot.
Import ListNotations.
Open Scope Z_scope.
Add Ring RCfbs : HR.

(** ** the statics *)
Lemma f_cts_static_is F lpow LOGQ LOGN LOGDELTA G stc : 2 <= LOGN <= 27 -> f_cts_static F lpow LOGQ LOGN LOGDELTA G stc ->
  (match stc with Some t => Ok t | None => f_cts_tables F lpow LOGN end) = Ok (f_cts_tabs F lpow LOGN).
Proof.
  intros HL H. induction H as [|RM rnd stc st pos ct s ct0 ct1 stc' st' pos' ct0' ct1' H IH E]; [apply f_cts_tables_ok; auto|].
  unfold f_CoeffToSlot in E. rewrite IH in E. cbn [bind] in E. destruct (f_cts_tabs F lpow LOGN) as [U V].
  repeat match type of E with
    | bind ?x _ = _ => let v := fresh "v" in destruct x as [v| | |]; cbn [bind] in E; try discriminate E
    | (let (_, _) := ?v in _) = _ => destruct v
    end.
  inversion E; subst; reflexivity.
Qed.
Lemma f_stc_static_is F LOGQ LOGN LOGDELTA G sts : 2 <= LOGN <= 27 -> f_stc_static F LOGQ LOGN LOGDELTA G sts ->
  (match sts with Some t => Ok t | None => f_stc_tables F LOGN end) = Ok (f_stc_tabs F LOGN).
Proof.
  intros HL H. induction H as [|RM rnd sts st pos ct0 ct1 s ct_ sts' st' pos' ct' H IH E]; [apply f_stc_tables_ok; auto|].
  unfold f_SlotToCoeff in E. rewrite IH in E. cbn [bind] in E. destruct (f_stc_tabs F LOGN) as [[[U V] U'] V'].
  repeat match type of E with
    | bind ?x _ = _ => let v := fresh "v" in destruct x as [v| | |]; cbn [bind] in E; try discriminate E
    | (let (_, _) := ?v in _) = _ => destruct v
    end.
  inversion E; subst; reflexivity.
Qed.
Lemma two_c LOGN : 2 <= LOGN <= 27 -> (2 * cts_factor LOGN = Rpower 2 (- / IZR (LOGN - 1)))%R.
Proof. intros HL. pose proof (cts_row LOGN 1 (Z.to_nat (LOGN - 1)) HL ltac:(lia)) as E. rewrite pow_1, INR_IZR_INZ, Z2Nat.id in E by lia. exact E. Qed.
(** with the same matrices in every group *)
Lemma group_error_const u eta S G x y d : group_error u eta S G (fun _ => x) (fun _ => y) d = group_error u eta S G (fun _ => x) (fun _ => y) 0.
Proof. reflexivity. Qed.

Section Boot.
Context (F : fpu) (u eta top t : R) (ar : arithmetic u eta top t (rnd F) (dpi F) (lcos F) (lsin F)).
Context (lpow : R -> R -> R) (pw : R) (Hpw : power_within pw lpow).
Context (LOGQ LOGN LOGDELTA RM : Z) (rng : nat -> Z) (s : list Z).
Context (HQ : widths LOGQ) (HQ2 : widths (2 * LOGQ)) (HL : 2 <= LOGN <= 17) (HD : 0 <= LOGDELTA < 64) (Hr : rand_stream RM rng).
Let N := 2 ^ LOGN.
Let n := 2 ^ (LOGN - 1).
Context (Hs : ternary N s).
Let Delta := 2 ^ LOGDELTA.
Let E := noise N (coef s).
Context (G D : nat) (HG : (1 <= G <= 4)%nat) (HGD : LOGN - 1 = Z.of_nat (G * D)).
Context (Hsmall : (table_error u eta t N <= / 64)%R) (B ee rr : R) (Henc : encodes_within F LOGQ LOGN LOGDELTA B ee) (Hee : (0 <= ee)%R).
Let dl := f_row N Delta G rr ee.

Let L27 : 2 <= LOGN <= 27. Proof. lia. Qed.
Let LQ : 1 <= LOGQ. Proof. unfold widths in HQ. lia. Qed.
Let Nn : N = 2 * n.
Proof. unfold N, n. replace LOGN with (Z.succ (LOGN - 1)) at 1 by lia. rewrite Z.pow_succ_r by lia. reflexivity. Qed.
Let Np : 0 < n. Proof. apply Z.pow_pos_nonneg; lia. Qed.
Let Dp : (0 < IZR Delta)%R. Proof. apply IZR_lt. apply Z.pow_pos_nonneg; lia. Qed.
Let D1 : (1 <= D)%nat. Proof. nia. Qed.

Lemma cts_core_real z0 D0 ct m stc st pos ct0 ct1 : cts_group_fits u eta top t pw LOGN G -> (Rpower 2 (- / INR D) + cts_group_error u eta t pw LOGN G <= B)%R -> (cts_group_error u eta t pw LOGN G <= rr)%R -> (0 < D0)%R ->
  f_cts_static F lpow LOGQ LOGN LOGDELTA (Z.of_nat G) stc -> f_ifft_static F LOGN st -> decrypts LOGQ N ct (coef s) m -> object2 LOGQ N ct0 -> object2 LOGQ N ct1 ->
  (forall j, 0 <= j < n -> (modulus (slots N D0 m j) <= z0)%R) ->
  exists stc' st' pos' ct0' ct1' w0 w1,
    f_CoeffToSlot F lpow LOGQ LOGN LOGDELTA RM rng (Z.of_nat G) stc st pos ct (map Some s) ct0 ct1 = Ok (stc', st', pos', ct0', ct1') /\
    f_cts_static F lpow LOGQ LOGN LOGDELTA (Z.of_nat G) stc' /\ f_ifft_static F LOGN st' /\ decrypts LOGQ N ct0' (coef s) w0 /\ decrypts LOGQ N ct1' (coef s) w1 /\
    exists x0 x1 : Z -> R, forall j r, 0 <= j < n -> reverses (LOGN - 1) j r ->
      (modulus (slots N (IZR Delta ^ D * D0) w0 j - real (x0 j))%num <= switch_noise N Delta E D0 D)%R /\
      (modulus (slots N (IZR Delta ^ D * D0) w1 j - real (x1 j))%num <= switch_noise N Delta E D0 D)%R /\
      (Rabs (x0 j - IZR (m r) / D0) <= f_cts_rounding N Delta E D dl z0 D0)%R /\ (Rabs (x1 j - IZR (m (r + n)%Z) / D0) <= f_cts_rounding N Delta E D dl z0 D0)%R.
Proof.
  intros Hfit HBe Hre HD0 Hstc Hst Hct H0 H1 Hz.
  pose proof (f_cts_good F u eta top t ar lpow pw Hpw LOGN L27 ltac:(lia) Hsmall) as HA. fold n in HA. rewrite HGD in HA at 1 2.
  pose proof (cts_row LOGN G D L27 HGD) as Hrow. pose proof (cts_row_le D D1) as Hrle.
  destruct (f_grouped_good F u eta top t ar LOGQ LOGN LOGDELTA RM rng s HQ HQ2 HL HD Hr Hs B ee rr G D 3 _ _ _ _ _ _ z0 D0 ct m st pos (sq_new LOGQ N) Henc Hee HG ltac:(lia) HA) as (st' & pos' & U & w & E1 & Hst' & Hw & Hsl); auto.
  { intros d Hd. unfold group_fits. rewrite two_c by auto. exact Hfit. }
  { intros d Hd. rewrite two_c by auto. cbv zeta. rewrite group_error_const. fold (cts_group_error u eta t pw LOGN G). split; [|exact Hre].
    rewrite <- (two_c LOGN L27). replace (group_entries G _ _ d) with (Rpower 2 (- / INR D)); [exact HBe|]. rewrite <- Hrow. rewrite <- (group_entries_same G (fun _ => 2 * cts_factor LOGN)%R d) by lia. unfold group_rows. symmetry. apply rprod_const. }
  { apply new_object2; [auto|lia]. }
  destruct (C42_conj_ct LOGN LOGQ RM rng s (fresh N) (sq_new (2 * LOGQ) N) pos' U w (sq_new LOGQ N) ltac:(lia) LQ HQ2 Hr Hs) as (s' & ckey & pos2 & U' & w' & e & E2 & E3 & E4 & Hsub & Hw' & He); auto.
  { unfold fresh. rewrite repeat_length. reflexivity. }
  { apply new_object2; lia. }
  { apply new_object2; lia. }
  destruct (C36_add LOGQ N U U' (coef s) _ _ LQ ltac:(lia) Hw Hw') as (ct0' & E5 & Hw0).
  destruct (C36_sub LOGQ N U U' (coef s) _ _ LQ ltac:(lia) Hw Hw') as (ct1a & E6 & Hw1a).
  destruct (C36_mul_plain LOGN LOGQ ct1a (coef s) _ (repP LOGQ N (mhalf N)) (mhalf N) ltac:(lia) HQ Hw1a ltac:(apply repP_holds; fold N; lia)) as (ct1' & E7 & Hw1). fold N in E1, E2, E3, E4, Hsub, Hw0, Hw1a, E7, Hw1, He, Hsl. fold Delta in Hsl.
  assert (ER : f_CoeffToSlot F lpow LOGQ LOGN LOGDELTA RM rng (Z.of_nat G) stc st pos ct (map Some s) ct0 ct1 = Ok (Some (f_cts_tabs F lpow LOGN), st', pos2, ct0', ct1')).
  { unfold f_CoeffToSlot. fold N. rewrite (f_cts_static_is F lpow LOGQ LOGN LOGDELTA (Z.of_nat G)) by auto. cbn [bind]. rewrite (surjective_pairing (f_cts_tabs F lpow LOGN)) at 1.
    replace (LOGN - 1) with (Z.of_nat (G * D)) at 1 by auto. rewrite E1. cbn [bind]. rewrite E2. cbn [bind]. rewrite E3. cbn [bind]. rewrite E4. cbn [bind].
    rewrite cts_pti_ok by lia. cbn [bind]. rewrite (copy_decrypts LOGQ N ct0 U (coef s) w) by (auto; lia). cbn [bind]. rewrite E5. cbn [bind].
    rewrite (copy_decrypts LOGQ N ct1 U (coef s) w) by (auto; lia). cbn [bind]. rewrite E6. cbn [bind]. rewrite E7. cbn [bind].
    rewrite <- surjective_pairing. reflexivity. }
  exists (Some (f_cts_tabs F lpow LOGN)), st', pos2, ct0', ct1'. eexists _, _. split; [exact ER|]. split; [eapply f_cts_next; [exact Hstc|exact ER]|]. split; [exact Hst'|].
  split; [exact Hw0|]. split; [exact Hw1|].
  exists (fun j => 2 * fst (slots N (IZR Delta ^ D * D0) w j))%R, (fun j => 2 * snd (slots N (IZR Delta ^ D * D0) w j))%R.
  intros j r Hj Hrev. apply reverses_brv in Hrev; [|lia]. destruct (Hsl j Hj) as [_ Herr].
  assert (EL : (G * D)%nat = Z.to_nat (LOGN - 1)) by lia. rewrite EL in Herr.
  set (SC := (IZR Delta ^ D * D0)%R) in *. assert (HSC : (0 < SC)%R) by (apply Rmult_lt_0_compat; auto; apply pow_lt; auto).
  match type of Herr with (modulus (_ - ?x)%num <= _)%R => replace x with (mk Rops (IZR (m r) / D0 / 2)%R (IZR (m (r + n)%Z) / D0 / 2)%R : CC) in Herr
    by (rewrite Hrev; symmetry; exact (cts_exact LOGN L27 (fun i => IZR (m i) / D0)%R j Hj)) end.
  fold E in He.
  assert (Hks : (modulus (slots N SC e j) <= switch_noise N Delta E D0 D)%R) by (apply slots_small; auto; lia).
  match type of Herr with (_ <= ?x)%R => set (X := x) in * end.
  assert (EX : f_cts_rounding N Delta E D dl z0 D0 = (2 * X)%R).
  { unfold f_cts_rounding, X, dl, f_row. f_equal. symmetry. apply rows_ext'. intros d. unfold group_rows. rewrite rprod_const. exact Hrow. }
  rewrite EX. clearbody X. clear EX. set (K := switch_noise N Delta E D0 D) in *. clearbody K.
  pose proof (slots_conj LOGN SC w w' j L27 ltac:(lia) Hsub) as Hcj. fold N in Hcj.
  set (z := slots N SC w j) in *. set (y := mk Rops (IZR (m r) / D0 / 2)%R (IZR (m (r + n)%Z) / D0 / 2)%R : CC) in *.
  assert (Hmod : forall x y : R, (Rabs x <= modulus (mk Rops x y) /\ Rabs y <= modulus (mk Rops x y))%R).
  { intros x1 x2. unfold modulus, cre, cim. cbn. split; rewrite <- sqrt_Rsqr_abs; apply sqrt_le_1_alt; unfold Rsqr; nra. }
  assert (Hzy : (z - y)%num = mk Rops (fst z - IZR (m r) / D0 / 2)%R (snd z - IZR (m (r + n)%Z) / D0 / 2)%R) by (unfold y; destruct z as [z1 z2]; apply RC_eq; cbn; ring).
  rewrite Hzy in Herr. pose proof (Hmod (fst z - IZR (m r) / D0 / 2)%R (snd z - IZR (m (r + n)%Z) / D0 / 2)%R) as [Hm1 Hm2].
  split; [|split; [|split]].
  - rewrite !slots_add, Hcj. fold z.
    replace (z + (conjugate z + slots N SC e j) - real (2 * fst z))%num with (slots N SC e j : CC); [exact Hks|].
    destruct z as [z1 z2]. set (q := slots N SC e j). clearbody q. destruct q as [q1 q2]. apply RC_eq; unfold conjugate, real, cre, cim; cbn; change (car Rops) with R in *; [idtac|idtac]; field.
  - pose proof (slots_mhalf LOGN SC (fun i => w i - (w' i + e i)) j ltac:(lia) ltac:(lia)) as Hm. fold N in Hm. unfold RC in *. rewrite Hm. rewrite slots_sub, slots_add, Hcj. fold z.
    match goal with |- (modulus ?x <= _)%R => replace x with ((slots N SC e j * (mk Rops 0%R 1%R : CC))%num : CC) end.
    2:{ destruct z as [z1 z2]. set (q := slots N SC e j). clearbody q. destruct q as [q1 q2]. apply RC_eq; unfold conjugate, real, cre, cim; cbn; change (car Rops) with R in *; [idtac|idtac]; field. }
    rewrite modulus_mul. replace (modulus (mk Rops 0%R 1%R)) with 1%R.
    2:{ unfold modulus, cre, cim. cbn. replace (0 * 0 + 1 * 1)%R with 1%R by ring. symmetry. apply sqrt_1. }
    rewrite Rmult_1_r. exact Hks.
  - replace (2 * fst z - IZR (m r) / D0)%R with (2 * (fst z - IZR (m r) / D0 / 2))%R by (field; lra). rewrite Rabs_mult, (Rabs_right 2) by lra. lra.
  - replace (2 * snd z - IZR (m (r + n)%Z) / D0)%R with (2 * (snd z - IZR (m (r + n)%Z) / D0 / 2))%R by (field; lra). rewrite Rabs_mult, (Rabs_right 2) by lra. lra.
Qed.
Lemma cts_core z0 D0 ct m stc st pos ct0 ct1 : cts_group_fits u eta top t pw LOGN G -> (Rpower 2 (- / INR D) + cts_group_error u eta t pw LOGN G <= B)%R -> (cts_group_error u eta t pw LOGN G <= rr)%R -> (0 < D0)%R ->
  f_cts_static F lpow LOGQ LOGN LOGDELTA (Z.of_nat G) stc -> f_ifft_static F LOGN st -> decrypts LOGQ N ct (coef s) m -> object2 LOGQ N ct0 -> object2 LOGQ N ct1 ->
  (forall j, 0 <= j < n -> (modulus (slots N D0 m j) <= z0)%R) ->
  exists stc' st' pos' ct0' ct1' w0 w1,
    f_CoeffToSlot F lpow LOGQ LOGN LOGDELTA RM rng (Z.of_nat G) stc st pos ct (map Some s) ct0 ct1 = Ok (stc', st', pos', ct0', ct1') /\
    f_cts_static F lpow LOGQ LOGN LOGDELTA (Z.of_nat G) stc' /\ f_ifft_static F LOGN st' /\ decrypts LOGQ N ct0' (coef s) w0 /\ decrypts LOGQ N ct1' (coef s) w1 /\
    forall j r, 0 <= j < n -> reverses (LOGN - 1) j r ->
      (modulus (slots N (IZR Delta ^ D * D0) w0 j - real (IZR (m r) / D0))%num <= f_cts_error N Delta E D dl z0 D0)%R /\
      (modulus (slots N (IZR Delta ^ D * D0) w1 j - real (IZR (m (r + n)%Z) / D0))%num <= f_cts_error N Delta E D dl z0 D0)%R.
Proof.
  intros Hfit HBe Hre HD0 Hstc Hst Hct H0 H1 Hz.
  destruct (cts_core_real z0 D0 ct m stc st pos ct0 ct1 Hfit HBe Hre HD0 Hstc Hst Hct H0 H1 Hz) as (stc' & st' & pos' & ct0' & ct1' & w0 & w1 & E1 & Hstc' & Hst' & Hw0 & Hw1 & x0 & x1 & Hx).
  exists stc', st', pos', ct0', ct1', w0, w1. split; [exact E1|]. split; [exact Hstc'|]. split; [exact Hst'|]. split; [exact Hw0|]. split; [exact Hw1|].
  intros j r Hj Hrev. destruct (Hx j r Hj Hrev) as (A0 & A1 & B0 & B1). unfold f_cts_error.
  assert (HT : forall (z : CC) x y a b, (modulus (z - real x)%num <= a)%R -> (Rabs (x - y) <= b)%R -> (modulus (z - real y)%num <= b + a)%R).
  { intros z x y a b A Bx. replace (z - real y)%num with ((z - real x) + real (x - y) : RC)%num.
    - pose proof (modulus_add (z - real x)%num (real (x - y))) as T. rewrite modulus_real in T. unfold RC in *. lra.
    - destruct z as [z1 z2]. apply RC_eq; unfold real; cbn; ring. }
  split; eapply HT; eauto.
Qed.

Lemma stc_core z0 D0 e0 e1 (p : Z -> R) ct0 ct1 w0 w1 sts st pos ct_ : stc_group_fits u eta top t LOGN G -> (2 ^ (G - 1) + stc_group_error u eta t LOGN G <= B)%R -> (stc_group_error u eta t LOGN G <= rr)%R -> (0 < D0)%R ->
  f_stc_static F LOGQ LOGN LOGDELTA (Z.of_nat G) sts -> f_ifft_static F LOGN st -> decrypts LOGQ N ct0 (coef s) w0 -> decrypts LOGQ N ct1 (coef s) w1 -> object2 LOGQ N ct_ ->
  (forall j, 0 <= j < n -> (modulus (slots N D0 w0 j) <= z0 /\ modulus (slots N D0 w1 j) <= z0)%R) ->
  (forall j r, 0 <= j < n -> reverses (LOGN - 1) j r ->
    (modulus (slots N D0 w0 j - real (p r))%num <= e0)%R /\ (modulus (slots N D0 w1 j - real (p (r + n)%Z))%num <= e1)%R) ->
  exists sts' st' pos' ct' w,
    f_SlotToCoeff F LOGQ LOGN LOGDELTA RM rng (Z.of_nat G) sts st pos ct0 ct1 (map Some s) ct_ = Ok (sts', st', pos', ct') /\
    f_stc_static F LOGQ LOGN LOGDELTA (Z.of_nat G) sts' /\ f_ifft_static F LOGN st' /\ decrypts LOGQ N ct' (coef s) w /\
    forall i, 0 <= i < N -> (Rabs (IZR (w i) / (IZR Delta ^ D * D0) - p i) <= f_stc_error N Delta E G D dl z0 D0 + e0 + e1)%R.
Proof.
  intros Hfit HBe Hre HD0 Hsts Hst Hct0 Hct1 Hob Hz Hp.
  pose proof (f_stc_good F u eta top t ar LOGN L27 Hsmall) as HA. fold n in HA. rewrite HGD in HA at 1 2.
  pose proof (f_istc_good F u eta top t ar LOGN L27 Hsmall) as HB. fold n in HB. rewrite HGD in HB at 1 2.
  assert (Hbs : forall d, (d < D)%nat -> let e := group_error u eta 3 G (fun _ => 2%R) (fun _ => stc_row_error u eta t LOGN) d in
    (group_entries G (fun _ => 2%R) (fun _ => 1%R) d + e <= B)%R /\ (e <= rr)%R).
  { intros d Hd. cbv zeta. rewrite group_error_const. fold (stc_group_error u eta t LOGN G). split; [|exact Hre]. unfold group_entries. rewrite rprod_const, Rmult_1_r. exact HBe. }
  assert (Hfs : forall d, (d < D)%nat -> group_fits u eta top 3 G (fun _ => 2%R) (fun _ => stc_row_error u eta t LOGN) d) by (intros d Hd; exact Hfit).
  destruct (f_grouped_good F u eta top t ar LOGQ LOGN LOGDELTA RM rng s HQ HQ2 HL HD Hr Hs B ee rr G D 3 _ _ _ _ _ _ z0 D0 ct0 w0 st pos ct_ Henc Hee HG ltac:(lia) HA) as (st1 & pos1 & A & wa & E1 & Hst1 & Hwa & Hsa); auto.
  { intros j Hj. apply Hz. auto. }
  destruct (f_grouped_good F u eta top t ar LOGQ LOGN LOGDELTA RM rng s HQ HQ2 HL HD Hr Hs B ee rr G D 3 _ _ _ _ _ _ z0 D0 ct1 w1 st1 pos1 (sq_new LOGQ N) Henc Hee HG ltac:(lia) HB) as (st2 & pos2 & Bc & wb & E2 & Hst2 & Hwb & Hsb); auto.
  { apply new_object2; lia. }
  { intros j Hj. apply Hz. auto. }
  destruct (C36_add LOGQ N A Bc (coef s) _ _ LQ ltac:(lia) Hwa Hwb) as (ct' & E3 & Hw).
  fold N in E1, E2, Hwa, Hwb, Hsa, Hsb. fold n Delta in Hsa, Hsb.
  assert (ER : f_SlotToCoeff F LOGQ LOGN LOGDELTA RM rng (Z.of_nat G) sts st pos ct0 ct1 (map Some s) ct_ = Ok (Some (f_stc_tabs F LOGN), st2, pos2, ct')).
  { unfold f_SlotToCoeff. fold N. rewrite (f_stc_static_is F LOGQ LOGN LOGDELTA (Z.of_nat G)) by auto. cbn [bind].
    destruct (f_stc_tabs F LOGN) as [[[U V] U'] V']. cbn [fst snd] in E1, E2.
    rewrite HGD at 1. rewrite E1. cbn [bind]. rewrite HGD. rewrite E2. cbn [bind]. rewrite E3. reflexivity. }
  exists (Some (f_stc_tabs F LOGN)), st2, pos2, ct'. eexists. split; [exact ER|]. split; [eapply f_stc_next; [exact Hsts|exact ER]|]. split; [exact Hst2|]. split; [exact Hw|].
  set (SC := (IZR Delta ^ D * D0)%R) in *. assert (HSC : (0 < SC)%R) by (apply Rmult_lt_0_compat; auto; apply pow_lt; auto).
  set (L := Z.to_nat (LOGN - 1)). assert (EL : (G * D)%nat = L) by (unfold L; lia). rewrite EL in Hsa, Hsb.
  assert (EL2 : 2 ^ Z.of_nat L = n) by (unfold L, n; rewrite Z2Nat.id by lia; reflexivity).
  set (y0 := slots N D0 w0) in *. set (y1 := slots N D0 w1) in *.
  pose (q := fun i => if i <? n then (fst (y0 (brv L i)) - snd (y1 (brv L i)))%R else (snd (y0 (brv L (i - n))) + fst (y1 (brv L (i - n))))%R).
  assert (Hbr : forall k, 0 <= brv L k < n) by (intros k; rewrite <- EL2; apply brv_range).
  assert (HS : forall j, 0 <= j < n -> (chain n (fun d => stcM LOGN (Z.of_nat d)) L y0 j + chain n (fun d => istcM LOGN (Z.of_nat d)) L y1 j)%num = slot N q j).
  { intros j Hj. apply (stc_exact LOGN L27 q y0 y1 j); auto; fold L; fold n; intros k Hk; pose proof (Hbr k); unfold q.
    - destruct (Z.ltb_spec (brv L k) n); [|lia]. rewrite brv_involutive by (rewrite EL2; auto). reflexivity.
    - destruct (Z.ltb_spec (brv L k + n) n); [lia|]. replace (brv L k + n - n) with (brv L k) by lia. rewrite brv_involutive by (rewrite EL2; auto). reflexivity. }
  assert (HX : forall j, 0 <= j < n -> (modulus (slot N (fun i => IZR (wa i + wb i) / SC - q i)%R j) <= f_stc_error N Delta E G D dl z0 D0)%R).
  { intros j Hj. rewrite slot_sub, <- HS by auto. fold (slots N SC (fun i => wa i + wb i) j). rewrite slots_add.
    destruct (Hsa j Hj) as [_ H1]. destruct (Hsb j Hj) as [_ H2].
    match type of H1 with (modulus (?x - ?y)%num <= ?b)%R => set (xa := x) in *; set (ya := y) in *; set (X := b) in * end.
    match type of H2 with (modulus (?x - ?y)%num <= ?b)%R => set (xb := x) in *; set (yb := y) in *; change b with X in H2 end.
    assert (EX : f_stc_error N Delta E G D dl z0 D0 = (2 * X)%R).
    { unfold f_stc_error, X, dl, f_row. f_equal. symmetry. apply rows_ext'. intros d. unfold group_rows. apply rprod_const. }
    rewrite EX. clearbody X xa xb ya yb.
    replace (xa + xb - (ya + yb))%num with ((xa - ya) + (xb - yb) : RC)%num by ring. pose proof (modulus_add (xa - ya)%num (xb - yb)%num). lra. }
  intros i Hi. pose proof (coef_slots LOGN _ _ L27 HX i Hi) as HC. cbv beta in HC |- *.
  assert (Hq : (Rabs (q i - p i) <= e0 + e1)%R).
  { assert (Hmod : forall x y : R, (Rabs x <= modulus (mk Rops x y) /\ Rabs y <= modulus (mk Rops x y))%R).
    { intros x y. unfold modulus, cre, cim. cbn. split; rewrite <- sqrt_Rsqr_abs; apply sqrt_le_1_alt; unfold Rsqr; nra. }
    assert (Hsub : forall (z : CC) (x : R), (z - real x)%num = mk Rops (fst z - x)%R (snd z)) by (intros [? ?] x; apply RC_eq; cbn; ring).
    unfold q. destruct (Z.ltb_spec i n) as [Hin|Hin].
    - destruct (Hp (brv L i) i (Hbr i)) as [P0 P1].
      { apply reverses_brv; [lia|]. fold L. rewrite brv_involutive; [reflexivity|]. rewrite EL2. lia. }
      rewrite Hsub in P0, P1. destruct (Hmod (fst (y0 (brv L i)) - p i)%R (snd (y0 (brv L i)))) as [M1 _].
      destruct (Hmod (fst (y1 (brv L i)) - p (i + n)%Z)%R (snd (y1 (brv L i)))) as [_ M2].
      replace (fst (y0 (brv L i)) - snd (y1 (brv L i)) - p i)%R with ((fst (y0 (brv L i)) - p i) + - snd (y1 (brv L i)))%R by ring.
      eapply Rle_trans; [apply Rabs_triang|]. rewrite Rabs_Ropp. fold y0 in P0. fold y1 in P1. lra.
    - destruct (Hp (brv L (i - n)) (i - n) (Hbr _)) as [P0 P1].
      { apply reverses_brv; [lia|]. fold L. rewrite brv_involutive; [reflexivity|]. rewrite EL2. lia. }
      rewrite Hsub in P0, P1. replace (i - n + n) with i in P1 by lia.
      destruct (Hmod (fst (y0 (brv L (i - n))) - p (i - n)%Z)%R (snd (y0 (brv L (i - n))))) as [_ M1].
      destruct (Hmod (fst (y1 (brv L (i - n))) - p i)%R (snd (y1 (brv L (i - n))))) as [M2 _].
      replace (snd (y0 (brv L (i - n))) + fst (y1 (brv L (i - n))) - p i)%R with (snd (y0 (brv L (i - n))) + (fst (y1 (brv L (i - n))) - p i))%R by ring.
      eapply Rle_trans; [apply Rabs_triang|]. fold y0 in P0. fold y1 in P1. lra. }
  replace (IZR (wa i + wb i) / SC - p i)%R with ((IZR (wa i + wb i) / SC - q i) + (q i - p i))%R by ring.
  eapply Rle_trans; [apply Rabs_triang|]. lra.
Qed.

End Boot.
