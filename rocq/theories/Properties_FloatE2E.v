(** C128: what end_to_end_test.cpp prints, in double precision (compare C106). *)
From Coq Require Import ZArith List Bool Lia Reals Lra Ring.
From Verif Require Import Base BaseFacts Sums ZQ ZQFacts ZQFacts2 RQ RQFacts Conv Rot Util GSum Core CoreFacts Matrix MatrixFacts MatMulFacts
  DFT DFTTheory DFTFacts FFTFacts SpecZQ SpecPoly SpecPolyFacts SpecScheme ConvFacts SpecMat Properties_Mat Properties_Msg SpecDFT Properties_DFT SpecEnc Properties_Core Properties_Rot Properties_Conv
  GroupFacts SlotFacts Encode EncodeFacts Plain BootFacts Properties_Enc Properties_Plain SpecLin LinTrans LinTransFacts LinSlots GroupSlots SpecBoot BootSlots PlainFacts SpecStat StatFacts Section3 Properties_Stat Properties_MatErr Properties_Serial
  Properties_Lin Properties_Boot Poly EvalMod SpecMod EvalModFacts PiBound EvalModBound Properties_EvalMod SpecPipe Pipeline PipeFacts Properties_Pipe Bootstrap SpecEval EvalFacts Section4 SupFacts MeasFacts Measure UtilFacts Properties_ZQ CtsMeasure CtsProps Messages SupRatio TestProg TestLayers TestLinT TestBoot TestBootP TestE2E.
From Verif Require Import Float SpecFloat FloatNum Binary64 Properties_Float SpecFloatLin FloatLin FloatSerial FloatGrouped SpecFloatBoot FloatBoot FloatBootSlots FloatBootNum Properties_FloatLin FloatMod SpecFloatMod FloatModFacts FloatModBound Properties_FloatMod.
From Verif Require Import SpecTail Tail TailFacts TailNum Properties_Tail SpecFloatPipe FloatPipeFacts FloatPipe Properties_FloatPipe FloatDot FloatMsg SpecFloatMsg Properties_FloatMsg Properties_FloatMsg2 Properties_FloatTail.
From Verif Require Import FloatSetup Properties_FloatSetup FloatTestBoot Properties_FloatTestBoot FloatTests.
From Verif Require Import FloatTestE2E FloatE2EFacts.
Import ListNotations.
Open Scope Z_scope.
Add Ring RCpfe2e : HR.

Section Program.
Context (F : fpu) (HF : double F) (Hk : keeps_sign (rnd F)).
Context (LOGN LOGq LOGQ LD LDc LDs : Z) (G D : nat) (HP : boot_params LOGN LOGq LOGQ LDc LDs G D).
Context (h RM : Z) (rng : nat -> Z) (Hh : 0 <= h) (Hrng : rand_stream RM rng) (HLD : 0 <= LD <= 60) (HLq : LD + 1 <= LOGq) (Hq7 : 7 <= LOGq) (HQ48 : LOGQ <= 2048).
Local Notation N := (2 ^ LOGN).
Local Notation n := (2 ^ (LOGN - 1)).
Local Notation q := (boot_q LOGq).
Local Notation g := (Z.of_nat G).
Local Notation Q1 := (LOGQ - Z.of_nat D * LDc).
Local Notation Q2 := (LOGQ - Z.of_nat D * LDc - 12 * LOGq).
Local Notation Q3 := (LOGQ - Z.of_nat D * LDc - 12 * LOGq - Z.of_nat D * LDs).
Local Notation rev := (brv (Z.to_nat (LOGN - 1))).
Local Notation Delta := (IZR (2 ^ LD)).
Context (lpow : R -> R -> R) (pw : R) (Hpw : power_within pw lpow) (Hp52 : (pw <= powerRZ 2 (-52))%R).
Context (HLDc : 1 <= LDc <= 62 /\ LDc + 2 <= LOGQ) (HLDs : 1 <= LDs /\ LDs + g <= 63 /\ LDs + g + 1 <= Q2).
Local Notation dlc := (f_row N (2 ^ LDc) G (powerRZ 2 (-40)) (enc41 2 (2 ^ LDc))).
Local Notation dls := (f_row N (2 ^ LDs) G (powerRZ 2 (-37)) (enc41 (2 ^ G) (2 ^ LDs))).

Let GHL : 2 <= LOGN <= 17. Proof. destruct HP. lia. Qed.
Let GHG : (1 <= G <= 4)%nat. Proof. destruct HP. lia. Qed.
Let GHQ : 1 <= LOGQ <= 2048. Proof. destruct HP. unfold widths in *. lia. Qed.
Let HQ2 : 1 <= Q2 <= 2048. Proof. destruct HP. lia. Qed.
Let HLDc' : 0 <= LDc < 64. Proof. lia. Qed.
Let HLDs' : 0 <= LDs < 64. Proof. lia. Qed.
Let D1 : (1 <= D)%nat. Proof. destruct HP. nia. Qed.
Let Hpu : (0 <= pw <= 2 * u64)%R.
Proof. split; [apply Hpw|]. pose proof (u_is 1 ltac:(lia)) as U. change (2 ^ 1) with 2 in U. rewrite U. exact Hp52. Qed.
Let H40 : (powerRZ 2 (-40) <= 1)%R. Proof. rewrite p40. pose proof u_small. lra. Qed.
Let H37 : (powerRZ 2 (-37) <= 1)%R. Proof. rewrite p37. pose proof u_small. lra. Qed.
Let GHc := num_cts_group LOGN GHL pw G GHG Hpu.
Let GHst := num_stc_group LOGN GHL G GHG.
Let HBc : (Rpower 2 (- / INR D) + cts_group_error u64 eta64 t64 pw LOGN G <= 2)%R.
Proof. pose proof (cts_row_le D D1). destruct GHc as [[_ X] _]. lra. Qed.
Let HBs : (2 ^ (G - 1) + stc_group_error u64 eta64 t64 LOGN G <= 2 ^ G)%R.
Proof.
  assert (Hg1 : (1 <= 2 ^ (G - 1))%R) by (apply pow_R1_Rle; lra). assert (Hg2 : (2 ^ G = 2 * 2 ^ (G - 1))%R) by (rewrite (tech_pow_Rmult 2 (G - 1)); f_equal; lia).
  destruct GHst as [[_ X] _]. lra.
Qed.
Let Ec : encodes_within F LOGQ LOGN LDc 2 (enc41 2 (2 ^ LDc)).
Proof.
  assert (Hd2 : (2 <= IZR (2 ^ LDc))%R) by (apply IZR_le; change 2 with (2 ^ 1) at 1; apply Z.pow_le_mono_r; lia).
  assert (P4 : forall x, LDc + 2 <= x -> (4 * IZR (2 ^ LDc) <= IZR (2 ^ x))%R).
  { intros x Hx. rewrite <- mult_IZR. apply IZR_le. change 4 with (2 ^ 2). rewrite <- Z.pow_add_r by lia. apply Z.pow_le_mono_r; lia. }
  pose proof (enc41_small 2 (2 ^ LDc) ltac:(lra)) as Hs2. pose proof (P4 64 ltac:(lia)) as PA. pose proof (P4 LOGQ ltac:(lia)) as PB.
  apply encodes_double; auto; lra.
Qed.
Let Es : encodes_within F Q2 LOGN LDs (2 ^ G) (enc41 (2 ^ G) (2 ^ LDs)).
Proof.
  assert (Hg1 : (1 <= 2 ^ (G - 1))%R) by (apply pow_R1_Rle; lra). assert (Hg2 : (2 ^ G = 2 * 2 ^ (G - 1))%R) by (rewrite (tech_pow_Rmult 2 (G - 1)); f_equal; lia).
  assert (Hd2 : (2 <= IZR (2 ^ LDs))%R) by (apply IZR_le; change 2 with (2 ^ 1) at 1; apply Z.pow_le_mono_r; lia).
  assert (P4 : forall x, LDs + g + 1 <= x -> (2 * (2 ^ G * IZR (2 ^ LDs)) <= IZR (2 ^ x))%R).
  { intros x Hx. rewrite pow_IZR, <- !mult_IZR. apply IZR_le. rewrite <- Z.pow_add_r, <- Z.pow_succ_r by lia. apply Z.pow_le_mono_r; lia. }
  assert (Hx : (4 <= 2 ^ G * IZR (2 ^ LDs))%R) by (rewrite Hg2; nra).
  pose proof (enc41_small (2 ^ G) (2 ^ LDs) ltac:(lra)) as Hs2. pose proof (P4 64 ltac:(lia)) as PA. pose proof (P4 Q2 ltac:(lia)) as PB.
  apply encodes_double; auto; lra.
Qed.
Let Hec : (0 <= enc41 2 (2 ^ LDc))%R. Proof. apply enc41_pos; [lra|apply Z.pow_nonneg; lia]. Qed.
Let Hes : (0 <= enc41 (2 ^ G) (2 ^ LDs))%R. Proof. apply enc41_pos; [apply pow_le; lra|apply Z.pow_nonneg; lia]. Qed.
Let e_front := fun s Hs => f_front_ok F u64 eta64 top64 t64 HF (top64_big 62 ltac:(lia)) lpow pw Hpw LOGN LOGq LOGQ LDc LDs G D HP RM rng s Hrng Hs (num_small LOGN GHL) 2 _ _ Ec Hec (proj2 GHc) HBc (proj2 (proj1 GHc)).
Let e_back := fun s Hs => f_back_ok F u64 eta64 top64 t64 HF lpow pw Hpw LOGN LOGq LOGQ LDc LDs G D HP RM rng s Hrng Hs (num_small LOGN GHL) 2 _ _ Ec Hec (proj2 GHc) HBc (proj2 (proj1 GHc)) (2 ^ G) _ _ Es Hes (proj2 GHst) HBs (proj2 (proj1 GHst)).

(** what the program computes before bootstrapping; [s] is the key *)
Definition started_with (fuel : nat) (st : tables) (pos : nat) (z : Z -> CC) (c m' : Z -> Z) (I : Z -> Z) (s : list Z) : Prop := exists st1 pos1 pt ct ct_m,
  f_boot_start F LOGq LOGN LD h RM rng fuel st pos = Ok (st1, pos1, (carray (K := Rops) n z, map Some s, pt, ct)) /\
  (forall j, 0 <= j < n -> (modulus (z j - test_point LOGN j)%num <= powerRZ 2 (-48))%R) /\
  (forall m, (forall j, 0 <= j < n -> slot N m j = z j) -> forall i, 0 <= i < N -> (Rabs (IZR (c i) - m i * IZR (2 ^ LD)) <= encode_off LD)%R) /\ (forall i, 0 <= i < N -> Z.abs (m' i - c i) <= 8) /\
  mod_raise LOGq LOGQ N ct (sq_new LOGQ N) = Ok ct_m /\ decrypts LOGQ N ct_m (coef s) (fun i => m' i + 2 ^ LOGq * I i) /\ (forall i, 0 <= i < N -> 2 * Z.abs (I i) <= h + 2).

(** [dmax] bounds the coefficients of the message divided by q, and [err] the error of SlotToCoeff *)
Theorem C128_end_to_end_test : forall fuel stc sts st st2 pos B dmax err,
  f_cts_static F lpow LOGQ LOGN LDc g stc -> f_stc_static F Q2 LOGN LDs g sts -> f_ifft_static F LOGN st -> f_fft_static F LOGN st2 ->
  let rho := f_boot_rounding N h LOGq LDc D dlc B dmax in
  let sw := boot_cts_noise N h LOGq LDc D in
  let em := f_boot_mod_error u64 eta64 N h LOGq LDc D dlc B dmax in
  let program := f_end_to_end_test F lpow LOGq LOGQ LOGN LD LDc LOGq LDs g 24 h RM rng fuel stc sts st st2 pos in
  (f_msg_max LOGq LD <= dmax)%R -> (q * f_proposed_error u64 eta64 N h LOGq LDc LDs G D dlc dls B dmax + IZR (1 + h) / 2 <= err)%R ->
  66 <= Q3 -> (err + 8 < IZR (2 ^ 64))%R -> (q * (24 + sw + em) + (err + 8) < IZR (2 ^ (Q3 - 1)))%R -> (sw + em <= 1)%R -> (IZR B + dmax + rho + / 4 <= 24)%R ->
  keygen fuel N rng h (fresh N) pos = Diverge /\ program = Diverge \/
  exists z c m' I s, started_with fuel st pos z c m' I s /\
    ((forall i, 0 <= i < N -> Z.abs (I i) <= B) ->
     exists stc' sts' st' st2' pos' cts_err evalmod_err evalqI_err stc_err S er ei ct_qI qI y,
       program = Ok (stc', sts', st', st2', pos', ((cts_err, evalmod_err, evalqI_err, stc_err), S, (er, ei))) /\
       stage_report N (fun i => m' i + 2 ^ LOGq * I i) Delta (q * (rho + stage_e N LD q sw)) cts_err /\
       (Delta * evalmod_err <= q * (rho + stage_e N LD q em) + 8)%R /\
       stage_report N (fun i => m' i + 2 ^ LOGq * I i) Delta (q * stage_e N LD q (sw + em) + 8) evalqI_err /\
       decrypts Q3 N ct_qI (coef s) qI /\ (forall i, 0 <= i < N -> (Rabs (IZR (qI i) - q * IZR (I i)) <= err)%R) /\
       stage_report N qI Delta (q * stage_e N LD q (sw + em) + err) stc_err /\
       printed LOGN LD err z c y er ei S).
Proof.
  intros fuel stc sts st st2 pos B dmax err Hstc Hsts Hst Hst2 rho sw em program Hdm Hee H66 H64 Hsz He1 H24. pose proof HP as [HLN HG HD Hq Hc' Hs' HQ Hw' Hw1'].
  pose proof (n_pos LOGN ltac:(lia)) as Hn. pose proof (N2 LOGN ltac:(lia)) as HN2.
  assert (Dp : (1 <= Delta)%R). { apply (IZR_le 1). assert (0 < 2 ^ LD) by (apply Z.pow_pos_nonneg; lia). lia. }
  destruct (f_boot_start_ok F HF LOGN LOGq LOGQ LD LDc LDs G D HP h RM rng Hh Hrng HLD HLq Hq7 fuel st pos Hst) as [[E0 E1]|(s & st1 & pos1 & pt & ct & z & c & m' & ct_m & I & E1 & Hst1 & Hs & Hw & Hpt & Hct & Hz & Hnear & Hcm & Emr & Hd & HI)].
  { left. split; [exact E0|]. unfold program, f_end_to_end_test. cbv zeta. rewrite E1. reflexivity. }
  right. exists z, c, m', I, s. split.
  { exists st1, pos1, pt, ct, ct_m. split; [exact E1|]. split; [intros j Hj; apply (Hz j Hj)|]. split; [exact Hnear|]. split; [intros i Hi; apply (Hcm i Hi)|]. split; [exact Emr|]. split; [exact Hd|exact HI]. }
  intros HB. 
  pose proof (pipe_qp _ _ _ _ _ _ _ HP s) as Hqp.
  assert (Hcm' : forall i, 0 <= i < N -> Z.abs (m' i - c i) <= 8 /\ (Rabs (IZR (c i)) <= 3 / 4 * IZR (2 ^ LD) + 1)%R /\ (Rabs (IZR (m' i)) <= q * dmax)%R).
  { intros i Hi. destruct (Hcm i Hi) as (h1 & h2 & h3). split; [exact h1|]. split; [exact h2|]. eapply Rle_trans; [exact h3|]. apply Rmult_le_compat_l; lra. }
  clear Hcm. rename Hcm' into Hcm.
  destruct (e_front s Hs B dmax ct_m m' I stc st1 pos1 Hstc Hst1 Hd HB) as (stc' & st' & pos' & r0 & r1 & e0 & e1 & x0 & x1 & EF & Hstc' & Hst' & R0 & R1 & C0 & C1 & Hx).
  { intros i Hi. apply (Hcm i Hi). } { rewrite Hw. exact H24. }
  rewrite Hw in R0, R1, C0, C1, Hx. fold rho sw em in R0, R1, C0, C1, Hx.
  unfold f_boot_front in EF. cbv zeta in EF. unfold boot_N in EF.
  destruct (f_CoeffToSlot F lpow LOGQ LOGN LDc RM rng g stc st1 pos1 ct_m (map Some s) (sq_new LOGQ N) (sq_new LOGQ N)) as [[[[[stc'' st''] pos''] c0] c1]| | |] eqn:F1; try discriminate EF. cbn [bind] in EF.
  destruct (RS LOGQ (LOGQ_after_cts LOGQ LOGN LDc g) N c0 (sq_new (LOGQ_after_cts LOGQ LOGN LDc g) N)) as [r0'| | |] eqn:F2; try discriminate EF. cbn [bind] in EF.
  destruct (RS LOGQ (LOGQ_after_cts LOGQ LOGN LDc g) N c1 (sq_new (LOGQ_after_cts LOGQ LOGN LDc g) N)) as [r1'| | |] eqn:F3; try discriminate EF. cbn [bind] in EF.
  match type of EF with context [f_EvalMod F ?a ?b ?cc ?d ?e ?f ?gg r0' ?i ?j] => destruct (f_EvalMod F a b cc d e f gg r0' i j) as [[posa e0']| | |] eqn:F4; try discriminate EF end. cbn [bind] in EF.
  match type of EF with context [f_EvalMod F ?a ?b ?cc ?d ?e ?f ?gg r1' ?i ?j] => destruct (f_EvalMod F a b cc d e f gg r1' i j) as [[posb e1']| | |] eqn:F5; try discriminate EF end. cbn [bind] in EF.
  injection EF as -> -> -> -> -> -> ->.
  assert (A1 : LOGQ_after_cts LOGQ LOGN LDc g = Q1) by (unfold LOGQ_after_cts; rewrite (pipe_Ddiv _ _ _ _ _ _ _ HP s); reflexivity).
  assert (A2 : LOGQ_after_evalmod LOGQ LOGN LDc LOGq g = Q2) by (unfold LOGQ_after_evalmod; rewrite A1; reflexivity).
  assert (A3 : LOGQ_after_stc LOGQ LOGN LDc LOGq LDs g = Q3) by (unfold LOGQ_after_stc; rewrite A2, (pipe_Ddiv _ _ _ _ _ _ _ HP s); reflexivity).
  rewrite A1 in F2, F3. rewrite A1, A2 in F4, F5.
  assert (HDz : 0 <= Z.of_nat D * LDc /\ 0 <= Z.of_nat D * LDs) by lia.
  assert (Q30 : LOGQ <= 2 ^ 30) by (unfold widths in Hw'; change (2 ^ 30) with 1073741824; lia).
  assert (PW : forall Q, Q3 <= Q -> (IZR (2 ^ (Q3 - 1)) <= IZR (2 ^ (Q - 1)))%R) by (intros Q HQ'; apply IZR_le, Z.pow_le_mono_r; lia).
  assert (N2' : N / 2 = n) by (rewrite HN2, Z.mul_comm; apply Z.div_mul; lia).
  assert (CN : forall Q cc f e, carries Q N (coef s) cc q f e -> (0 <= e)%R).
  { intros Q cc f e (u & _ & Hu). rewrite N2' in Hu. eapply Rle_trans; [apply modulus_nonneg|apply (Hu 0 ltac:(lia))]. }
  pose proof (CN _ _ _ _ R0) as Hsw. pose proof (CN _ _ _ _ C0) as Hem.
  assert (Hrho : (0 <= rho)%R) by (eapply Rle_trans; [apply Rabs_pos|apply (Hx 0 ltac:(lia))]).
  assert (RR : forall j, 0 <= rev j < n) by (intros j; apply (pipe_rev_range _ _ _ _ _ _ _ HP s)).
  assert (HIR : forall i, 0 <= i < N -> (Rabs (IZR (I i)) <= IZR B)%R) by (intros i Hi; rewrite <- abs_IZR; apply IZR_le; auto).
  assert (HB0 : (0 <= IZR B)%R) by (eapply Rle_trans; [apply Rabs_pos|apply (HIR 0 ltac:(lia))]).
  assert (HMq : forall i, 0 <= i < N -> (Rabs (IZR (m' i) / q) <= dmax)%R).
  { intros i Hi. destruct (Hcm i Hi) as (_ & _ & Hm). unfold Rdiv. rewrite Rabs_mult, (Rabs_right (/ q)) by (apply Rle_ge, Rlt_le, Rinv_0_lt_compat; auto).
    apply (Rmult_le_reg_r q); [auto|]. rewrite Rmult_assoc, Rinv_l, Rmult_1_r by lra. lra. }
  assert (Hmm : (0 <= dmax)%R) by (eapply Rle_trans; [apply Rabs_pos|apply (HMq 0 ltac:(lia))]).
  set (y := fun i => m' i + 2 ^ LOGq * I i) in *.
  assert (Yq : forall i, IZR (y i) = (q * (IZR (I i) + IZR (m' i) / q))%R) by (intros i; unfold y; rewrite plus_IZR, mult_IZR; change (IZR (2 ^ LOGq)) with q; field; lra).
  assert (X1 : forall x i, 0 <= i < N -> (Rabs (x - IZR (I i) - IZR (m' i) / q) <= rho)%R ->
    (Rabs (x - IZR (I i)) <= 24)%R /\ (Rabs x <= 24)%R /\ (Rabs (q * x + 0 - IZR (y i)) <= q * rho)%R /\ (Rabs (q * (x - IZR (I i)) + 0 - IZR (c i)) <= q * rho + 8)%R).
  { intros x i Hi Hxi. specialize (HMq i Hi). specialize (HIR i Hi). destruct (Hcm i Hi) as (Hc8 & _). apply IZR_le in Hc8. rewrite abs_IZR, minus_IZR in Hc8.
    assert (T1 : (Rabs (x - IZR (I i)) <= dmax + rho)%R). { replace (x - IZR (I i))%R with (IZR (m' i) / q + (x - IZR (I i) - IZR (m' i) / q))%R by ring. eapply Rle_trans; [apply Rabs_triang|]. lra. }
    split; [lra|]. split. { replace x with (IZR (I i) + (x - IZR (I i)))%R by ring. eapply Rle_trans; [apply Rabs_triang|]. lra. }
    assert (T2 : (Rabs (q * (x - IZR (I i) - IZR (m' i) / q)) <= q * rho)%R) by (rewrite Rabs_mult, (Rabs_right q) by lra; apply Rmult_le_compat_l; lra).
    split. { rewrite Yq. replace (q * x + 0 - q * (IZR (I i) + IZR (m' i) / q))%R with (q * (x - IZR (I i) - IZR (m' i) / q))%R by ring. exact T2. }
    replace (q * (x - IZR (I i)) + 0 - IZR (c i))%R with (q * (x - IZR (I i) - IZR (m' i) / q) + (IZR (m' i) - IZR (c i)))%R by (field; lra). eapply Rle_trans; [apply Rabs_triang|]. lra. }
  assert (HQI : forall r e x zz, carries Q1 N (coef s) r q (fun j => real (x j)) sw -> carries Q2 N (coef s) e q (fun j => real (x j - zz j)) em ->
    exists cc, evalqI LOGQ LOGN LDc LOGq g r e = Ok cc /\ carries Q2 N (coef s) cc q (fun j => real (zz j)) (sw + em)).
  { intros r e x zz (wr & Dr & Sr) (we & De & Se). unfold evalqI, boot_N. rewrite A1, A2.
    destruct (resize_down Q1 Q2 N r (coef s) wr (sq_new Q2 N)) as (cc & Ecc & Dc); [lia|lia|apply objS_new; lia|exact Dr|].
    rewrite Ecc. cbn [bind]. destruct (C36_sub Q2 N cc e (coef s) wr we) as (c2 & Ec2 & Dc2); [lia|lia|exact Dc|exact De|].
    exists c2. split; [exact Ec2|]. exists (fun i => wr i - we i)%Z. split; [exact Dc2|]. rewrite N2' in *. intros j Hj. specialize (Sr j Hj). specialize (Se j Hj).
    rewrite slots_sub.
    replace (slots N q wr j - slots N q we j - real (zz j))%num with ((slots N q wr j - real (x j)) + - (slots N q we j - real (x j - zz j)) : RC)%num by (rewrite <- real_minus; ring).
    pose proof (modulus_add (slots N q wr j - real (x j))%num (- (slots N q we j - real (x j - zz j)))%num) as T. rewrite modulus_opp in T. unfold RC in *. lra. }
  destruct (HQI r0 e0 x0 (fun j => IZR (I (rev j))) R0 C0) as (q0 & F7 & K0).
  destruct (HQI r1 e1 x1 (fun j => IZR (I (rev j + n)%Z)) R1 C1) as (q1 & F8 & K1).
  destruct (e_back s Hs sts st' pos' q0 q1 (fun i => IZR (I i)) (IZR B + (sw + em))%R (sw + em)%R Hsts Hst' K0 K1)
    as (sts' & st3 & pos3 & ct_qI & qI & F9 & Hsts' & Hst3 & HdI & HqI).
  { intros i Hi. apply Rplus_le_compat_r. auto. }
  rewrite Hw in HqI. assert (HqE : forall i, 0 <= i < N -> (Rabs (IZR (qI i) - q * IZR (I i)) <= err)%R) by (intros i Hi; eapply Rle_trans; [exact (HqI i Hi)|exact Hee]). clear HqI.
  assert (Herr : (0 <= err)%R) by (eapply Rle_trans; [apply Rabs_pos|apply (HqE 0 ltac:(lia))]).
  assert (P0 : (0 <= q * sw)%R /\ (0 <= q * em)%R) by (split; apply Rmult_le_pos; lra). rewrite !Rmult_plus_distr_l in Hsz. assert (SE : (sw <= 1)%R /\ (em <= 1)%R) by lra.
  assert (Hq61 : (0 < q <= IZR (2 ^ 61))%R) by (split; [exact Hqp|unfold boot_q; apply IZR_le, Z.pow_le_mono_r; lia]).
  assert (YB : forall i, 0 <= i < N -> - 2 ^ (LOGQ - 1) <= y i < 2 ^ (LOGQ - 1)).
  { intros i Hi. assert (A : Z.abs (y i) < 2 ^ (LOGQ - 1)); [|lia]. apply lt_IZR. rewrite abs_IZR, Yq, Rabs_mult, (Rabs_right q) by lra. pose proof (PW LOGQ ltac:(lia)) as P. specialize (HMq i Hi). specialize (HIR i Hi).
    pose proof (Rabs_triang (IZR (I i)) (IZR (m' i) / q)) as T. assert (T2 : (q * Rabs (IZR (I i) + IZR (m' i) / q) <= q * 24)%R) by (apply Rmult_le_compat_l; lra).
    assert (0 <= q * (sw + em))%R by (apply Rmult_le_pos; lra). lra. }
  destruct (C35_dec LOGQ N ct_m s y (rq_new LOGQ N) ltac:(lia) ltac:(lia) Hs ltac:(apply objP_object; try lia; apply objP_new) Hd) as (pm & F6 & Hpm). apply holdsP_rep in Hpm; try lia. subst pm.
  destruct Hpt as [Hpt Hcs]. apply holdsP_rep in Hpt; try lia. subst pt.
  assert (C64 : forall i, 0 <= i < N -> Z.abs (c i) < 2 ^ 64).
  { intros i Hi. specialize (Hcs i Hi). assert (2 ^ (LOGq - 1) <= 2 ^ 63) by (apply Z.pow_le_mono_r; lia). change (2 ^ 64) with (2 * 2 ^ 63). lia. }
  assert (QB : forall i, 0 <= i < N -> - 2 ^ (Q3 - 1) <= qI i < 2 ^ (Q3 - 1)).
  { intros i Hi. assert (A : Z.abs (qI i) < 2 ^ (Q3 - 1)); [|lia]. apply lt_IZR. rewrite abs_IZR. specialize (HqE i Hi). specialize (HIR i Hi).
    pose proof (Rabs_triang (IZR (qI i) - q * IZR (I i)) (q * IZR (I i))) as T. replace (IZR (qI i) - q * IZR (I i) + q * IZR (I i))%R with (IZR (qI i)) in T by ring.
    rewrite (Rabs_mult q), (Rabs_right q) in T by lra. assert (T2 : (q * Rabs (IZR (I i)) <= q * 24)%R) by (apply Rmult_le_compat_l; lra). lra. }
  pose proof (PW Q1 ltac:(lia)) as PQ1. pose proof (PW Q2 ltac:(lia)) as PQ2.
    assert (W65 : forall v, (Rabs (IZR (low64 v) / Delta) <= IZR (2 ^ 65) / Delta)%R).
  { intros v. unfold Rdiv. rewrite Rabs_mult, (Rabs_right (/ Delta)) by (apply Rle_ge, Rlt_le, Rinv_0_lt_compat; lra). apply Rmult_le_compat_r; [apply Rlt_le, Rinv_0_lt_compat; lra|]. rewrite <- abs_IZR. apply IZR_le. pose proof (low64_size v). change (2 ^ 65) with (2 * 2 ^ 64). lia. }
  assert (W65d : forall v w, (Rabs ((IZR (low64 v) - IZR (low64 w)) / Delta) <= IZR (2 ^ 65) / Delta)%R).
  { intros v w. unfold Rdiv. rewrite Rabs_mult, (Rabs_right (/ Delta)) by (apply Rle_ge, Rlt_le, Rinv_0_lt_compat; lra). apply Rmult_le_compat_r; [apply Rlt_le, Rinv_0_lt_compat; lra|]. rewrite <- minus_IZR, <- abs_IZR. apply IZR_le. pose proof (low64_size v). pose proof (low64_size w). change (2 ^ 65) with (2 * 2 ^ 64). lia. }
  assert (WR : forall Q mm, 1 <= Q -> (forall i, 0 <= i < N -> - 2 ^ (Q - 1) <= mm i < 2 ^ (Q - 1)) -> exists v', forall off, off = 0 \/ off = n ->
    f_coeff_wanted F LOGN LD Q off (repP Q N mm) (fst (carray (K := Rops) n (fun _ => (0%num : CC)))) = Ok (gtab n (v' off)) /\
    forall j, 0 <= j < n -> (Rabs (v' off j - IZR (low64 (mm (rev j + off)%Z)) / Delta) <= want_off LD)%R /\ (Rabs (IZR (low64 (mm (rev j + off)%Z)) / Delta) <= IZR (2 ^ 65) / Delta)%R).
  { intros Q mm HQ' Hmm'. destruct (f_wanted_rep F HF LOGN Q LD 0 mm ltac:(lia) HQ' HLD (or_introl eq_refl) Hmm') as (va & Ea & Ha). destruct (f_wanted_rep F HF LOGN Q LD n mm ltac:(lia) HQ' HLD (or_intror eq_refl) Hmm') as (vb & Eb & Hb).
    exists (fun off => if off =? 0 then va else vb). intros off [->| ->]; [cbn [Z.eqb]|replace (n =? 0) with false by (symmetry; apply Z.eqb_neq; lia)]; (split; [assumption|]); intros j Hj; split; auto. }
  assert (WD : exists v', forall off, off = 0 \/ off = n ->
    f_evalqI_wanted F LOGq LOGQ LOGN LD (repP LOGQ N y) (repP LOGq N c) off (fst (carray (K := Rops) n (fun _ => (0%num : CC)))) = Ok (gtab n (v' off)) /\
    forall j, 0 <= j < n -> (Rabs (v' off j - (IZR (low64 (y (rev j + off)%Z)) - IZR (low64 (c (rev j + off)%Z))) / Delta) <= want_off LD)%R /\
      (Rabs ((IZR (low64 (y (rev j + off)%Z)) - IZR (low64 (c (rev j + off)%Z))) / Delta) <= IZR (2 ^ 65) / Delta)%R).
  { destruct (f_evalqI_wanted_rep F HF LOGN LOGQ LOGq LD 0 y c ltac:(lia) ltac:(lia) ltac:(lia) HLD (or_introl eq_refl) YB Hcs) as (va & Ea & Ha). destruct (f_evalqI_wanted_rep F HF LOGN LOGQ LOGq LD n y c ltac:(lia) ltac:(lia) ltac:(lia) HLD (or_intror eq_refl) YB Hcs) as (vb & Eb & Hb).
    exists (fun off => if off =? 0 then va else vb). intros off [->| ->]; [cbn [Z.eqb]|replace (n =? 0) with false by (symmetry; apply Z.eqb_neq; lia)]; (split; [assumption|]); intros j Hj; split; auto. }
  destruct (WR LOGQ y ltac:(lia) YB) as (va & Wa). destruct (WR LOGq c ltac:(lia) Hcs) as (vb & Wb). destruct WD as (vc & Wc). destruct (WR Q3 qI ltac:(lia) QB) as (vd & Wd).
  (* after CoeffToSlot *)
  destruct (f_stage_ok F HF Hk LOGN LD Q1 q ltac:(lia) HLD ltac:(lia) Hq61 st2 s r0 r1 (fun off => f_coeff_wanted F LOGN LD LOGQ off (repP LOGQ N y)) x0 x1 va (fun off j => IZR (low64 (y (rev j + off)%Z)) / Delta)%R sw Hst2 Hs R0 R1)
    as (st2a & s1 & T1 & Hst2a & L1 & U1).
  { intros j Hj. destruct (Hx j Hj) as [X2 X3]. specialize (RR j). split; [apply (X1 _ (rev j) ltac:(lia) X2)|apply (X1 _ (rev j + n) ltac:(lia) X3)]. }
  { lra. } { lra. } { exact Wa. }
  assert (Z1 : stage_report N y Delta (q * rho + q * stage_e N LD q sw) s1).
  { apply (report_ok LOGN LOGq LOGQ LD LDc LDs G D HP HLD x0 x1 (fun _ => 0%R) y (fun off j => IZR (low64 (y (rev j + off)%Z)) / Delta)%R); auto; [intros; rewrite Rminus_0_r; reflexivity|].
    intros j Hj. destruct (Hx j Hj) as [X2 X3]. specialize (RR j). split; [apply (X1 _ (rev j) ltac:(lia) X2)|apply (X1 _ (rev j + n) ltac:(lia) X3)]. }
  (* after EvalMod *)
  destruct (f_stage_ok F HF Hk LOGN LD Q2 q ltac:(lia) HLD ltac:(lia) Hq61 st2a s e0 e1 (fun off => f_coeff_wanted F LOGN LD LOGq off (repP LOGq N c)) (fun j => (x0 j - IZR (I (rev j)))%R) (fun j => (x1 j - IZR (I (rev j + n)%Z))%R)
      vb (fun off j => IZR (low64 (c (rev j + off)%Z)) / Delta)%R em Hst2a Hs C0 C1) as (st2b & s2 & T2 & Hst2b & L2 & U2).
  { intros j Hj. destruct (Hx j Hj) as [X2 X3]. specialize (RR j). split; [apply (X1 _ (rev j) ltac:(lia) X2)|apply (X1 _ (rev j + n) ltac:(lia) X3)]. }
  { lra. } { lra. } { exact Wb. }
  assert (Z2 : stage_report N c Delta (q * rho + 8 + q * stage_e N LD q em) s2).
  { apply (report_ok LOGN LOGq LOGQ LD LDc LDs G D HP HLD (fun j => (x0 j - IZR (I (rev j)))%R) (fun j => (x1 j - IZR (I (rev j + n)%Z))%R) (fun _ => 0%R) c (fun off j => IZR (low64 (c (rev j + off)%Z)) / Delta)%R); auto; [intros; rewrite Rminus_0_r; reflexivity|].
    intros j Hj. destruct (Hx j Hj) as [X2 X3]. specialize (RR j). split; [apply (X1 _ (rev j) ltac:(lia) X2)|apply (X1 _ (rev j + n) ltac:(lia) X3)]. }
  (* the multiples of q *)
  destruct (f_stage_ok F HF Hk LOGN LD Q2 q ltac:(lia) HLD ltac:(lia) Hq61 st2b s q0 q1 (f_evalqI_wanted F LOGq LOGQ LOGN LD (repP LOGQ N y) (repP LOGq N c)) (fun j => IZR (I (rev j))) (fun j => IZR (I (rev j + n)%Z))
      vc (fun off j => (IZR (low64 (y (rev j + off)%Z)) - IZR (low64 (c (rev j + off)%Z))) / Delta)%R (sw + em)%R Hst2b Hs K0 K1) as (st2c & s3 & T3 & Hst2c & L3 & U3).
  { intros j Hj. specialize (RR j). split; (eapply Rle_trans; [apply HIR; lia|lra]). }
  { lra. } { lra. } { exact Wc. }
  assert (Z3 : stage_report N y Delta (8 + q * stage_e N LD q (sw + em)) s3).
  { apply (report_ok LOGN LOGq LOGQ LD LDc LDs G D HP HLD (fun j => IZR (I (rev j))) (fun j => IZR (I (rev j + n)%Z)) (fun i => IZR (low64 (c i))) y (fun off j => (IZR (low64 (y (rev j + off)%Z)) - IZR (low64 (c (rev j + off)%Z))) / Delta)%R); auto.
    assert (E8 : forall i, 0 <= i < N -> (Rabs (q * IZR (I i) + IZR (low64 (c i)) - IZR (y i)) <= 8)%R).
    { intros i Hi. rewrite low64_small by auto. destruct (Hcm i Hi) as (Hc8 & _). apply IZR_le in Hc8. rewrite abs_IZR, minus_IZR in Hc8. rewrite Yq.
      replace (q * IZR (I i) + IZR (c i) - q * (IZR (I i) + IZR (m' i) / q))%R with (- (IZR (m' i) - IZR (c i)))%R by (field; lra). rewrite Rabs_Ropp. exact Hc8. }
    intros j Hj. specialize (RR j). split; apply E8; lia. }
  (* after SlotToCoeff *)
  destruct (C35_dec Q3 N ct_qI s qI (rq_new Q3 N) ltac:(lia) ltac:(lia) Hs ltac:(apply objP_object; try lia; apply objP_new) HdI) as (pq & F10 & Hpq). apply holdsP_rep in Hpq; try lia. subst pq.
  destruct (f_stage_ok F HF Hk LOGN LD Q2 q ltac:(lia) HLD ltac:(lia) Hq61 st2c s q0 q1 (fun off => f_coeff_wanted F LOGN LD Q3 off (repP Q3 N qI)) (fun j => IZR (I (rev j))) (fun j => IZR (I (rev j + n)%Z))
      vd (fun off j => IZR (low64 (qI (rev j + off)%Z)) / Delta)%R (sw + em)%R Hst2c Hs K0 K1) as (st2d & s4 & T4 & Hst2d & L4 & U4).
  { intros j Hj. specialize (RR j). split; (eapply Rle_trans; [apply HIR; lia|lra]). }
  { lra. } { lra. } { exact Wd. }
  assert (Z4 : stage_report N qI Delta (err + q * stage_e N LD q (sw + em)) s4).
  { apply (report_ok LOGN LOGq LOGQ LD LDc LDs G D HP HLD (fun j => IZR (I (rev j))) (fun j => IZR (I (rev j + n)%Z)) (fun _ => 0%R) qI (fun off j => IZR (low64 (qI (rev j + off)%Z)) / Delta)%R); auto; [intros; rewrite Rminus_0_r; reflexivity|].
    intros j Hj. specialize (RR j). rewrite !Rplus_0_r. split; rewrite Rabs_minus_sym; apply HqE; lia. }
  (* the result *)
  destruct (resize_down LOGQ Q3 N ct_m (coef s) y (sq_new Q3 N)) as (cr & F11 & Dr); [lia|lia|apply objS_new; lia|exact Hd|].
  destruct (C36_sub Q3 N cr ct_qI (coef s) y qI) as (cf & F12 & Df); [lia|lia|exact Dr|exact HdI|].
  assert (WN : forall i, 0 <= i < N -> (Rabs (IZR (y i - qI i) - IZR (c i)) <= err + 8)%R).
  { intros i Hi. destruct (Hcm i Hi) as (Hc8 & _). apply IZR_le in Hc8. rewrite abs_IZR, minus_IZR in Hc8. specialize (HqE i Hi). rewrite minus_IZR, Yq.
    replace (q * (IZR (I i) + IZR (m' i) / q) - IZR (qI i) - IZR (c i))%R with (- (IZR (qI i) - q * IZR (I i)) + (IZR (m' i) - IZR (c i)))%R by (field; lra).
    eapply Rle_trans; [apply Rabs_triang|]. rewrite Rabs_Ropp. lra. }
  destruct (f_boot_finish_ok F HF LOGN LOGq LOGQ LD LDc LDs G D HP HLD Hq7 HQ48 (f_err_sup_double F) st2d s (repP LOGq N c) cf z c (fun i => y i - qI i) err) as (st2e & yy & er & ei & S & Mr & Mi & M & F13 & _ & FIN); auto.
  { apply f_sup_double_ok. exact HF. }
  { split; [apply repP_holds; lia|exact Hcs]. }
  { assert (T : (3 / 4 * Delta + 1 <= q * 24)%R); [|lra]. assert (L : (2 * Delta <= q)%R); [|lra]. unfold boot_q. rewrite <- mult_IZR. apply IZR_le. change 2 with (2 ^ 1) at 1. rewrite <- Z.pow_add_r by lia. apply Z.pow_le_mono_r; lia. }
  { intros j Hj. apply (Hz j Hj). }
  { intros i Hi. apply (Hcm i Hi). }
  exists stc', sts', st3, st2e, pos3, s1, s2, s3, s4, S, er, ei, ct_qI, qI, yy. split.
  { unfold program, f_end_to_end_test. cbv zeta. rewrite E1. cbn [bind]. rewrite Emr. cbn [bind]. rewrite F1. cbn [bind]. rewrite A1, A2, A3. rewrite F2. cbn [bind]. rewrite F3. cbn [bind]. rewrite F6. cbn [bind].
    match goal with |- context [f_stage_error F LOGN LD ?Q st2 ?b ?c ?d] => replace (f_stage_error F LOGN LD Q st2 b c d) with (Ok (st2a, s1)) by (symmetry; exact T1) end. cbn [bind]. rewrite F4. cbn [bind]. rewrite F5. cbn [bind]. match goal with |- context [f_stage_error F LOGN LD ?Q st2a ?b ?c ?d] => replace (f_stage_error F LOGN LD Q st2a b c d) with (Ok (st2b, s2)) by (symmetry; exact T2) end. cbn [bind]. rewrite F7. cbn [bind]. rewrite F8. cbn [bind]. match goal with |- context [f_stage_error F LOGN LD ?Q st2b ?b ?c ?d] => replace (f_stage_error F LOGN LD Q st2b b c d) with (Ok (st2c, s3)) by (symmetry; exact T3) end. cbn [bind]. rewrite F9. cbn [bind]. rewrite F10. cbn [bind].
    match goal with |- context [f_stage_error F LOGN LD ?Q st2c ?b ?c ?d] => replace (f_stage_error F LOGN LD Q st2c b c d) with (Ok (st2d, s4)) by (symmetry; exact T4) end. cbn [bind]. rewrite F11. cbn [bind]. rewrite F12. cbn [bind]. rewrite F13. reflexivity. }
  split. { rewrite Rmult_plus_distr_l. exact Z1. }
  split. { eapply Rle_trans; [apply (proj1 Z2 C64)|]. lra. }
  split. { rewrite Rplus_comm. exact Z3. }
  split; [exact HdI|]. split; [exact HqE|]. split. { rewrite Rplus_comm. exact Z4. }
  exists (fun i => y i - qI i), Mr, Mi, M. split; [exact WN|exact FIN].
Qed.
End Program.

(** ** end_to_end_test<9, 60, LDs, 2> with LDs = 50 and 60 and the constants of rns.h *)
Lemma stage_off_60 e : (0 <= e <= 1)%R -> (0 <= stage_off 512 50 (boot_q 60) e <= 4 / 1000000)%R.
Proof.
  intros He. unfold stage_off, boot_q. change (512 + 1) with 513. change (2 ^ 60) with 1152921504606846976. change (2 ^ 50) with 1125899906842624. change (2 ^ 66) with 73786976294838206464.
  assert (P42 : powerRZ 2 (-42) = (/ 4398046511104)%R) by (change (powerRZ 2 (-42)) with (/ 2 ^ 42)%R; rewrite (pow_IZR 2 42); reflexivity). rewrite P42. lra.
Qed.
Lemma stage_e_60 e : (0 <= e <= 1)%R -> (boot_q 60 * e <= boot_q 60 * stage_e 512 50 (boot_q 60) e <= boot_q 60 * e + IZR (2 ^ 50) * (4 / 1000000))%R.
Proof.
  intros He. pose proof (stage_off_60 e He) as H. unfold stage_e. set (x := stage_off 512 50 (boot_q 60) e) in *.
  replace (boot_q 60 * (e + IZR (2 ^ 50) / boot_q 60 * x))%R with (boot_q 60 * e + IZR (2 ^ 50) * x)%R by (unfold boot_q; change (IZR (2 ^ 60)) with 1152921504606846976%R; field).
  change (IZR (2 ^ 50)) with 1125899906842624%R. lra.
Qed.
Section Parameters.
Context (F : fpu) (HF : double F) (Hk : keeps_sign (rnd F)) (lpow : R -> R -> R) (pw : R) (Hpw : power_within pw lpow) (Hp52 : (pw <= powerRZ 2 (-52))%R).
Theorem C128_parameters : forall LDs RM rng h fuel stc sts st st2 pos, 50 <= LDs <= 60 -> rand_stream RM rng -> 0 <= h <= 128 ->
  f_cts_static F lpow 1450 9 60 2 stc -> f_stc_static F 490 9 LDs 2 sts -> f_ifft_static F 9 st -> f_fft_static F 9 st2 ->
  let program := f_end_to_end_test F lpow 60 1450 9 50 60 60 LDs 2 24 h RM rng fuel stc sts st st2 pos in
  keygen fuel 512 rng h (fresh 512) pos = Diverge /\ program = Diverge \/
  exists z c m' I s, started_with F 9 60 1450 50 h RM rng fuel st pos z c m' I s /\
    ((forall i, 0 <= i < 512 -> Z.abs (I i) <= 23) ->
     exists stc' sts' st' st2' pos' cts_err evalmod_err evalqI_err stc_err S er ei y,
       program = Ok (stc', sts', st', st2', pos', ((cts_err, evalmod_err, evalqI_err, stc_err), S, (er, ei))) /\
       printed 9 50 (IZR (2 ^ 47)) z c y er ei S /\ (evalmod_err <= 44 / 100)%R /\ (- / 1000000 <= S <= / 8 + / 100000)%R /\
       ((forall i, 0 <= i < 512 -> Z.abs (I i) <= 15) -> (cts_err <= 44 / 100)%R /\ (evalqI_err <= 18 / 1000000)%R /\ (stc_err <= 126 / 1000)%R) /\
       ((exists i, 0 <= i < 512 /\ 17 <= Z.abs (I i)) -> (16383 <= cts_err)%R /\ (16383 <= evalqI_err)%R /\ (16383 <= stc_err)%R)).
Proof.
  intros LDs RM rng h fuel stc sts st st2 pos HLDs Hr Hh Hstc Hsts Hst Hst2 program. pose proof (t_params 9 2 LDs ltac:(lia) HLDs) as HP. 
  assert (Hdm : (f_msg_max 60 50 <= / IZR (2 ^ 9))%R) by apply f_msg_max_60.
  pose proof (ft_proposed h LDs Hh HLDs) as HE. pose proof (ft_24 h Hh) as H24. pose proof (ft_rounding h Hh) as Hrh. pose proof (ft_cts_noise h Hh) as Hsw. pose proof (ft_mod_error h Hh) as Hem.
  set (rho := f_boot_rounding 512 h 60 60 4 (f_row 512 (2 ^ 60) 2 (powerRZ 2 (-40)) (enc41 2 (2 ^ 60))) 23 (/ IZR (2 ^ 9))) in *. set (sw := boot_cts_noise 512 h 60 60 4) in *.
  set (em := f_boot_mod_error u64 eta64 512 h 60 60 4 (f_row 512 (2 ^ 60) 2 (powerRZ 2 (-40)) (enc41 2 (2 ^ 60))) 23 (/ IZR (2 ^ 9))) in *.
  change (10 ^ 5) with 100000 in Hrh. change (10 ^ 15) with 1000000000000000 in Hsw. change (10 ^ 9) with 1000000000 in Hem.
  set (err := IZR (2 ^ 47)).
  assert (D50 : IZR (2 ^ 50) = 1125899906842624%R) by reflexivity. assert (D47 : err = 140737488355328%R) by reflexivity. assert (D60 : IZR (2 ^ 60) = 1152921504606846976%R) by reflexivity.
  assert (D64 : IZR (2 ^ 64) = 18446744073709551616%R) by reflexivity. assert (DQ : (IZR (2 ^ 200) <= IZR (2 ^ (490 - 4 * LDs - 1)))%R) by (apply IZR_le, Z.pow_le_mono_r; lia).
  assert (D200 : (32 * IZR (2 ^ 60) <= IZR (2 ^ 200))%R) by (rewrite <- mult_IZR; apply IZR_le; discriminate).
  destruct (C128_end_to_end_test F HF Hk 9 60 1450 50 60 LDs 2 4 HP h RM rng (proj1 Hh) Hr ltac:(lia) ltac:(lia) ltac:(lia) ltac:(lia) lpow pw Hpw Hp52 ltac:(lia) ltac:(lia) fuel stc sts st st2 pos 23 (/ IZR (2 ^ 9))%R err Hstc Hsts Hst Hst2 Hdm)
    as [E|(z & c & m' & I & s & H0 & HB)].
  - exact HE.
  - change (Z.of_nat 4) with 4. lia.
  - rewrite D64. lra.
  - change (IZR (2 ^ 60) * (24 + sw + em) + (err + 8) < IZR (2 ^ (1450 - 4 * 60 - 12 * 60 - 4 * LDs - 1)))%R. replace (1450 - 4 * 60 - 12 * 60 - 4 * LDs - 1) with (490 - 4 * LDs - 1) by lia. rewrite D60 in *. lra.
  - change (sw + em <= 1)%R. lra.
  - exact H24.
  - left. exact E.
  - right. exists z, c, m', I, s. split; [exact H0|]. intros HI23.
    destruct (HB HI23) as (stc' & sts' & st' & st2' & pos' & s1 & s2 & s3 & s4 & S & er & ei & ct_qI & qI & y & E3 & R1 & R2 & R3 & HdI & HqI & R4 & P). clear HB.
    exists stc', sts', st', st2', pos', s1, s2, s3, s4, S, er, ei, y. split; [exact E3|]. split; [exact P|].
    change (2 ^ 9) with 512 in R1, R2, R3, HdI, HqI, R4. change (2 ^ (9 - 1)) with 256 in *. change (/ IZR 512)%R with (/ IZR (2 ^ 9))%R in *. fold rho sw em in R1, R2, R3, R4.
    destruct (stage_e_60 sw ltac:(lra)) as [a1 a2]. destruct (stage_e_60 em ltac:(lra)) as [b1 b2]. destruct (stage_e_60 (sw + em) ltac:(lra)) as [c1 c2].
    set (ea := stage_e 512 50 (boot_q 60) sw) in *. set (eb := stage_e 512 50 (boot_q 60) em) in *. set (ec := stage_e 512 50 (boot_q 60) (sw + em)) in *.
    change (boot_q 60) with (IZR (2 ^ 60)) in *.
    assert (Mb : forall i, 0 <= i < 512 -> (Rabs (IZR (m' i)) <= 1000000000000000)%R).
    { intros i Hi. destruct H0 as (u1 & u2 & u3 & u4 & u5 & _ & Hz & Hn & Hc8 & _). destruct (some_m 9 ltac:(lia) z) as [m Hm]. pose proof (Hn m Hm i Hi) as Nr. change (2 ^ 9) with 512 in Hm. change (2 ^ (9 - 1)) with 256 in Hm, Hz.
      assert (P48 : (powerRZ 2 (-48) <= / 1024)%R). { replace (/ 1024)%R with (powerRZ 2 (-10)) by (change (powerRZ 2 (-10)) with (/ 2 ^ 10)%R; cbn [pow]; lra). apply p2_le. lia. }
      assert (Mm : (Rabs (m i) <= 76 / 100)%R).
      { apply (coef_slots 9 m (76 / 100)%R ltac:(lia)); [|exact Hi]. intros j Hj. change (2 ^ 9) with 512. rewrite (Hm j Hj). eapply Rle_trans; [apply (modulus_near _ (test_point 9 j))|]. unfold test_point at 1. rewrite circle_modulus. pose proof sqrt2_bounds. specialize (Hz j Hj). lra. }
      assert (EO : (encode_off 50 <= 1000)%R). { unfold encode_off. rewrite D50. assert (P41 : powerRZ 2 (-41) = (/ 2199023255552)%R) by (change (powerRZ 2 (-41)) with (/ 2 ^ 41)%R; rewrite (pow_IZR 2 41); reflexivity). assert (P9 : (powerRZ 2 (-900) <= 1)%R) by (apply (p2_le (-900) 0); lia). rewrite P41. lra. }
      specialize (Hc8 i Hi). apply IZR_le in Hc8. rewrite abs_IZR, minus_IZR in Hc8. rewrite D50 in Nr.
      pose proof (Rabs_triang (IZR (m' i) - IZR (c i)) (IZR (c i) - m i * 1125899906842624)) as T1. pose proof (Rabs_triang (IZR (m' i) - IZR (c i) + (IZR (c i) - m i * 1125899906842624)) (m i * 1125899906842624)) as T2.
      replace (IZR (m' i) - IZR (c i) + (IZR (c i) - m i * 1125899906842624) + m i * 1125899906842624)%R with (IZR (m' i)) in T2 by ring. rewrite (Rabs_mult (m i)), (Rabs_right 1125899906842624) in T2 by lra. lra. }
    assert (small : (forall i, 0 <= i < 512 -> Z.abs (I i) <= 15) -> (forall i, 0 <= i < 512 -> Z.abs (m' i + 2 ^ 60 * I i) < 2 ^ 64) /\ (forall i, 0 <= i < 512 -> Z.abs (qI i) < 2 ^ 64)).
    { intros H15. split; intros i Hi; specialize (H15 i Hi); apply IZR_le in H15; rewrite abs_IZR in H15; apply lt_IZR; rewrite abs_IZR, D64.
      - specialize (Mb i Hi). rewrite plus_IZR, mult_IZR, D60. pose proof (Rabs_triang (IZR (m' i)) (1152921504606846976 * IZR (I i))) as T. rewrite (Rabs_mult 1152921504606846976), (Rabs_right 1152921504606846976) in T by lra. lra.
      - specialize (HqI i Hi). rewrite D60 in HqI. pose proof (Rabs_triang (IZR (qI i) - 1152921504606846976 * IZR (I i)) (1152921504606846976 * IZR (I i))) as T. replace (IZR (qI i) - 1152921504606846976 * IZR (I i) + 1152921504606846976 * IZR (I i))%R with (IZR (qI i)) in T by ring.
        rewrite (Rabs_mult 1152921504606846976), (Rabs_right 1152921504606846976) in T by lra. lra. }
    assert (large : forall i, 0 <= i < 512 -> 17 <= Z.abs (I i) -> 2 ^ 64 <= Z.abs (m' i + 2 ^ 60 * I i) /\ 2 ^ 64 <= Z.abs (qI i)).
    { intros i Hi H17. apply IZR_le in H17; rewrite abs_IZR in H17. split; apply le_IZR; rewrite abs_IZR, D64.
      - specialize (Mb i Hi). rewrite plus_IZR, mult_IZR, D60. pose proof (Rabs_triang (IZR (m' i) + 1152921504606846976 * IZR (I i)) (- IZR (m' i))) as T. rewrite Rabs_Ropp in T. replace (IZR (m' i) + 1152921504606846976 * IZR (I i) + - IZR (m' i))%R with (1152921504606846976 * IZR (I i))%R in T by ring.
        rewrite (Rabs_mult 1152921504606846976), (Rabs_right 1152921504606846976) in T by lra. lra.
      - specialize (HqI i Hi). rewrite D60 in HqI. pose proof (Rabs_triang (IZR (qI i)) (- (IZR (qI i) - 1152921504606846976 * IZR (I i)))) as T. rewrite Rabs_Ropp in T. replace (IZR (qI i) + - (IZR (qI i) - 1152921504606846976 * IZR (I i)))%R with (1152921504606846976 * IZR (I i))%R in T by ring.
        rewrite (Rabs_mult 1152921504606846976), (Rabs_right 1152921504606846976) in T by lra. lra. }
    pose proof (printed_sup _ _ _ _ _ _ _ _ _ P ltac:(lra)) as BS. rewrite D50, D60 in *. rewrite D47 in *. split; [lra|]. split; [lra|].
    split.
    + intros H15. destruct (small H15) as [H1 H2]. pose proof (proj1 R1 H1). pose proof (proj1 R3 H1). pose proof (proj1 R4 H2). repeat split; lra.
    + intros (i & Hi & H17). destruct (large i Hi H17) as [H1 H2]. pose proof (proj2 R1 (ex_intro _ i (conj Hi H1))) as P1. pose proof (proj2 R3 (ex_intro _ i (conj Hi H1))) as P2. pose proof (proj2 R4 (ex_intro _ i (conj Hi H2))) as P3. rewrite D64 in *. repeat split; lra.
Qed.
(** Keys with at most 28 nonzero coefficients: all printed errors are small *)
Theorem C128_light_key : forall LDs RM rng h fuel stc sts st st2 pos, 50 <= LDs <= 60 -> rand_stream RM rng -> 0 <= h <= 28 ->
  f_cts_static F lpow 1450 9 60 2 stc -> f_stc_static F 490 9 LDs 2 sts -> f_ifft_static F 9 st -> f_fft_static F 9 st2 ->
  keygen fuel 512 rng h (fresh 512) pos = Diverge \/
  exists stc' sts' st' st2' pos' cts_err evalmod_err evalqI_err stc_err S er ei,
    f_end_to_end_test F lpow 60 1450 9 50 60 60 LDs 2 24 h RM rng fuel stc sts st st2 pos = Ok (stc', sts', st', st2', pos', ((cts_err, evalmod_err, evalqI_err, stc_err), S, (er, ei))) /\
    (cts_err <= 44 / 100)%R /\ (evalmod_err <= 44 / 100)%R /\ (evalqI_err <= 18 / 1000000)%R /\ (stc_err <= 126 / 1000)%R /\ (- / 1000000 <= S <= / 8 + / 100000)%R.
Proof.
  intros LDs RM rng h fuel stc sts st st2 pos HLDs Hr Hh Hstc Hsts Hst Hst2.
  destruct (C128_parameters LDs RM rng h fuel stc sts st st2 pos HLDs Hr ltac:(lia) Hstc Hsts Hst Hst2) as [[E _]|(z & c & m & I & s & H0 & HB)]; [left; exact E|right].
  destruct H0 as (u1 & u2 & u3 & u4 & u5 & _ & _ & _ & _ & _ & _ & HI).
  destruct HB as (stc' & sts' & st' & st2' & pos' & s1 & s2 & s3 & s4 & S & er & ei & y & E & _ & B2 & BS & Bs & _). { intros i Hi. specialize (HI i Hi). lia. }
  destruct Bs as (B5 & B6 & B7). { intros i Hi. specialize (HI i Hi). lia. }
  exists stc', sts', st', st2', pos', s1, s2, s3, s4, S, er, ei. auto 10.
Qed.
End Parameters.

(** ** Instance: IEEE double precision, correctly rounded pow, a random generator that counts *)
Example C128_case : exists fuel stc' sts' st' st2' pos' cts_err evalmod_err evalqI_err stc_err S er ei,
  f_end_to_end_test F64 pow64 60 1450 9 50 60 60 50 2 24 28 (2 ^ 31 - 1) counting fuel None None None None 0 = Ok (stc', sts', st', st2', pos', ((cts_err, evalmod_err, evalqI_err, stc_err), S, (er, ei))) /\
  (evalqI_err <= 18 / 1000000)%R /\ (stc_err <= 126 / 1000)%R.
Proof.
  destruct (C34_keygen_returns (2 ^ 9) counting (2 ^ 31 - 1) 28 (fresh (2 ^ 9)) 0 ltac:(lia) ltac:(lia) counting_stream (repeat_length _ _)) as (fu & r & HF).
  { intros j p Hj. exists (Z.to_nat (512 * Z.of_nat p + j)). split; [lia|]. unfold counting. rewrite Z2Nat.id by lia. change (2 ^ 9) with 512 in *. change (2 ^ 31) with (512 * 4194304).
    rewrite Z.rem_mul_r by lia. rewrite (Z.mul_comm 512 (_ mod 4194304)), Z.mod_add by lia. rewrite Z.mod_mod by lia. rewrite Z.add_comm, Z.mul_comm, Z.mod_add, Z.mod_small by lia. reflexivity. }
  exists fu. destruct (C128_light_key F64 C87_binary64 C118_sign_binary64 pow64 _ pow64_within (Rle_refl _) 50 (2 ^ 31 - 1) counting 28 fu None None None None 0 ltac:(lia) counting_stream ltac:(lia))
    as [E|(stc' & sts' & st' & st2' & pos' & s1 & s2 & s3 & s4 & S & er & ei & E & B1 & B2 & B3 & B4 & _)]; try constructor.
  - change (2 ^ 9) with 512 in HF. rewrite (HF fu (le_n fu)) in E. discriminate.
  - exists stc', sts', st', st2', pos', s1, s2, s3, s4, S, er, ei. auto.
Qed.
