(** The steps of the bootstrapping one after the other, in floating-point arithmetic (compare PipeFacts.v). *)
From Coq Require Import ZArith List Bool Lia Reals Lra Ring.
From Verif Require Import Base BaseFacts Sums ZQ ZQFacts RQ RQFacts Conv Rot Core CoreFacts Util UtilFacts GSum Matrix MatrixFacts MatMulFacts DFT DFTTheory DFTFacts FFTFacts
  SpecZQ SpecPoly SpecPolyFacts PolyCong SpecScheme SpecMat Properties_Mat SpecDFT Properties_DFT SpecEnc SlotFacts
  Encode EncodeFacts Properties_Conv Properties_Core Properties_Rot Properties_Enc Properties_Plain Noise SpecLin LinTrans LinTransFacts LinSlots Properties_Lin
  Bootstrap SpecBoot BootSlots Properties_Boot Poly SpecEval EvalFacts EvalPoly SpecMod EvalMod EvalModFacts Properties_EvalMod SpecPipe Pipeline PipeFacts
  Float SpecFloat FloatLin FloatSerial SpecFloatBoot FloatBootSlots FloatMod SpecFloatMod FloatModFacts Properties_FloatMod.
From Verif Require Import SpecFloatPipe.
Import ListNotations.
Open Scope Z_scope.
Add Ring RCfpf : HR.

Section Steps.
Context (F : fpu) (u eta top t : R) (ar : arithmetic u eta top t (rnd F) (dpi F) (lcos F) (lsin F)) (Htop : (IZR (2 ^ 62) <= top)%R).
Context (lpow : R -> R -> R) (pw : R) (Hpw : power_within pw lpow).
Context (LOGN LOGq LOGQ LDc LDs : Z) (G D : nat) (HP : boot_params LOGN LOGq LOGQ LDc LDs G D).
Context (RM : Z) (rnd : nat -> Z) (s : list Z) (Hr : rand_stream RM rnd).
Let N := 2 ^ LOGN.
Let n := 2 ^ (LOGN - 1).
Context (Hs : ternary N s).
Let h := norm1 N (coef s).
Let q := boot_q LOGq.
Let Q1 := LOGQ - Z.of_nat D * LDc.
Let Q2 := Q1 - 12 * LOGq.
Let Q3 := Q2 - Z.of_nat D * LDs.
Let rev := brv (Z.to_nat (LOGN - 1)).
(** the tables are accurate and can be encoded *)
Context (Hsmall : (table_error u eta t N <= / 64)%R).
Context (Bc ec rc : R) (Hencc : encodes_within F LOGQ LOGN LDc Bc ec) (Hec : (0 <= ec)%R) (Hfitc : cts_group_fits u eta top t pw LOGN G)
  (HBc : (Rpower 2 (- / INR D) + cts_group_error u eta t pw LOGN G <= Bc)%R) (Hrc : (cts_group_error u eta t pw LOGN G <= rc)%R).
Context (Bs es rs : R) (Hencs : encodes_within F Q2 LOGN LDs Bs es) (Hes : (0 <= es)%R) (Hfits : stc_group_fits u eta top t LOGN G)
  (HBs : (2 ^ (G - 1) + stc_group_error u eta t LOGN G <= Bs)%R) (Hrs : (stc_group_error u eta t LOGN G <= rs)%R).
Let dlc := f_row N (2 ^ LDc) G rc ec.
Let dls := f_row N (2 ^ LDs) G rs es.

Let p_Nn : N = 2 * n := pipe_Nn _ _ _ _ _ _ _ HP s.
Let p_np : 0 < n := pipe_np _ _ _ _ _ _ _ HP s.
Let p_Nhalf : N / 2 = n := pipe_Nhalf _ _ _ _ _ _ _ HP s.
Let p_qp : (0 < q)%R := pipe_qp _ _ _ _ _ _ _ HP s.
Let p_Ddiv : (LOGN - 1) / Z.of_nat G = Z.of_nat D := pipe_Ddiv _ _ _ _ _ _ _ HP s.
Let p_rev_range : forall j, 0 <= rev j < n := pipe_rev_range _ _ _ _ _ _ _ HP s.
Let p_rev_reverses : forall j, reverses (LOGN - 1) j (rev j) := pipe_rev_reverses _ _ _ _ _ _ _ HP s.
Let p_powD : forall x, 0 <= x -> (IZR (2 ^ x) ^ D)%R = IZR (2 ^ (Z.of_nat D * x)).
Proof. intros x Hx. rewrite Z.mul_comm, Z.pow_mul_r by lia. rewrite <- pow_IZR. reflexivity. Qed.

Let cts_part z0 := fun ct m stc st pos ct0 ct1 => 
  cts_core_real F u eta top t ar lpow pw Hpw LOGQ LOGN LDc RM rnd s (proj1 (bp_w _ _ _ _ _ _ _ HP)) (proj2 (bp_w _ _ _ _ _ _ _ HP)) (bp_N _ _ _ _ _ _ _ HP) (proj1 (bp_c _ _ _ _ _ _ _ HP)) Hr Hs
    G D (bp_G _ _ _ _ _ _ _ HP) (bp_D _ _ _ _ _ _ _ HP) Hsmall Bc ec rc Hencc Hec z0 q ct m stc st pos ct0 ct1 Hfitc HBc Hrc p_qp.
Let HW2 : widths Q2 /\ widths (2 * Q2). Proof. destruct HP. unfold Q2, Q1. apply bp_w1. lia. Qed.
Let HLDs : 0 <= LDs < 64. Proof. destruct HP. lia. Qed.
Let stc_part z0 e0 e1 p := fun ct0 ct1 w0 w1 sts st pos ct_ => 
  stc_core F u eta top t ar Q2 LOGN LDs RM rnd s (proj1 HW2) (proj2 HW2) (bp_N _ _ _ _ _ _ _ HP) HLDs Hr Hs G D (bp_G _ _ _ _ _ _ _ HP) (bp_D _ _ _ _ _ _ _ HP) Hsmall Bs es rs Hencs Hes z0 q e0 e1 p ct0 ct1 w0 w1 sts st pos ct_ Hfits HBs Hrs p_qp.

Section Front.
Context (B : Z) (dmax : R).
Let rho := f_boot_rounding N h LOGq LDc D dlc B dmax.
Let sw := boot_cts_noise N h LOGq LDc D.
Let em := f_boot_mod_error u eta N h LOGq LDc D dlc B dmax.

(** EvalMod of slots that are real up to an error *)
Lemma f_evalmod_part pos c x I p : (forall j, 0 <= j < n -> (Rabs (IZR (I j)) <= IZR B)%R) -> (forall j, 0 <= j < n -> (Rabs (x j - IZR (I j)) <= dmax + rho)%R) ->
  (IZR B + dmax + rho + / 4 <= 24)%R -> (0 <= IZR B)%R -> (0 <= dmax + rho)%R -> carries Q1 N (coef s) c q (fun j => real (x j)) sw -> object2 Q2 N p ->
  exists pos' p', f_EvalMod F Q1 N LOGq 24 RM rnd pos c (map Some s) p = Ok (pos', p') /\ carries Q2 N (coef s) p' q (fun j => real (x j - IZR (I j))) em.
Proof.
  intros HI Hx H24 HB Hd0 Hc Ho. pose proof HP as [HLN HG HD Hq Hc' Hs' HQ Hw Hw1].
  assert (HEP : evalmod_params LOGN LOGq Q1 24).
  { constructor; try lia. unfold Q1. intros i Hi. apply Hw1. lia. }
  pose (I' := fun j => if (0 <=? j) && (j <? n) then I j else 0). pose (d := fun j => if (0 <=? j) && (j <? n) then (x j - IZR (I j))%R else 0%R).
  assert (Hin : forall j, 0 <= j < n -> (0 <=? j) && (j <? n) = true) by (intros j Hj; apply andb_true_iff; split; [apply Z.leb_le|apply Z.ltb_lt]; lia).
  assert (Hout : forall j, (0 <=? j) && (j <? n) = true -> 0 <= j < n) by (intros j Hj; apply andb_true_iff in Hj; destruct Hj as [A1 A2]; apply Z.leb_le in A1; apply Z.ltb_lt in A2; lia).
  destruct (C112_nearest F u eta top t ar Htop LOGN LOGq Q1 RM rnd pos s c I' d (dmax + rho)%R sw p HEP Hr Hs) as (pos' & p' & E & H').
  - intros j. unfold I', d. destruct ((0 <=? j) && (j <? n)) eqn:Ej.
    + apply Hout in Ej. specialize (HI j Ej). specialize (Hx j Ej). replace (IZR (I j) + (x j - IZR (I j)) - / 4)%R with (IZR (I j) + ((x j - IZR (I j)) + - / 4))%R by ring.
      eapply Rle_trans; [apply Rabs_triang|]. pose proof (Rabs_triang (x j - IZR (I j)) (- / 4)) as T. rewrite Rabs_Ropp, (Rabs_right (/ 4)) in T by lra. lra.
    + replace (IZR 0 + 0 - / 4)%R with (- / 4)%R by lra. rewrite Rabs_Ropp, Rabs_right; lra.
  - intros j. unfold d. destruct ((0 <=? j) && (j <? n)) eqn:Ej; [apply Hx; auto|]. rewrite Rabs_R0. exact Hd0.
  - eapply (carries_ext LOGN); [|apply Rle_refl|exact Hc]. fold N. rewrite p_Nhalf. intros j Hj. unfold I', d. rewrite Hin by auto. f_equal. ring.
  - exact Ho.
  - exists pos', p'. split; [exact E|]. eapply (carries_ext LOGN); [|apply Rle_refl|exact H']. fold N. rewrite p_Nhalf. intros j Hj. unfold d. rewrite Hin by auto. reflexivity.
Qed.

Lemma f_front_ok ct_m m I stc st pos :
  f_cts_static F lpow LOGQ LOGN LDc (Z.of_nat G) stc -> f_ifft_static F LOGN st -> decrypts LOGQ N ct_m (coef s) (fun i => m i + 2 ^ LOGq * I i) ->
  (forall i, 0 <= i < N -> Z.abs (I i) <= B) -> (forall i, 0 <= i < N -> (Rabs (IZR (m i)) <= q * dmax)%R) -> (IZR B + dmax + rho + / 4 <= 24)%R ->
  exists stc' st' pos' r0 r1 e0 e1 x0 x1,
    f_boot_front F lpow LOGQ LOGN LDc LOGq (Z.of_nat G) 24 RM rnd stc st pos ct_m (map Some s) = Ok (stc', st', pos', (r0, r1), (e0, e1)) /\
    f_cts_static F lpow LOGQ LOGN LDc (Z.of_nat G) stc' /\ f_ifft_static F LOGN st' /\
    carries Q1 N (coef s) r0 q (fun j => real (x0 j)) sw /\ carries Q1 N (coef s) r1 q (fun j => real (x1 j)) sw /\
    carries Q2 N (coef s) e0 q (fun j => real (x0 j - IZR (I (rev j)))) em /\ carries Q2 N (coef s) e1 q (fun j => real (x1 j - IZR (I (rev j + n)%Z))) em /\
    forall j, 0 <= j < n -> (Rabs (x0 j - IZR (I (rev j)) - IZR (m (rev j)) / q) <= rho)%R /\ (Rabs (x1 j - IZR (I (rev j + n)%Z) - IZR (m (rev j + n)%Z) / q) <= rho)%R.
Proof.
  intros Hstc Hst Hct HI Hm H24. pose proof HP as [HLN HG HD Hq Hc' Hs' HQ Hw Hw1]. pose proof p_np as Hn. pose proof p_Nn as HNn. pose proof p_qp as Hqp.
  assert (HDz : 0 <= Z.of_nat D * LDc) by lia.
  assert (Hdm : forall i, 0 <= i < N -> (Rabs (IZR (m i) / q) <= dmax)%R).
  { intros i Hi. specialize (Hm i Hi). unfold Rdiv. rewrite Rabs_mult, (Rabs_right (/ q)) by (apply Rle_ge, Rlt_le, Rinv_0_lt_compat; auto).
    apply (Rmult_le_reg_r q); [auto|]. rewrite Rmult_assoc, Rinv_l, Rmult_1_r by lra. lra. }
  assert (HIR : forall i, 0 <= i < N -> (Rabs (IZR (I i)) <= IZR B)%R) by (intros i Hi; rewrite <- abs_IZR; apply IZR_le; auto).
  assert (Hd0 : (0 <= dmax)%R) by (eapply Rle_trans; [apply Rabs_pos|apply (Hdm 0 ltac:(lia))]).
  assert (HB0 : (0 <= IZR B)%R) by (eapply Rle_trans; [apply Rabs_pos|apply (HIR 0 ltac:(lia))]).
  destruct (cts_part (IZR N * (IZR B + dmax)) ct_m (fun i => m i + 2 ^ LOGq * I i) stc st pos (sq_new LOGQ N) (sq_new LOGQ N))
    as (stc' & st' & pos' & c0 & c1 & w0 & w1 & E1 & Hstc' & Hst' & Hw0 & Hw1' & x0 & x1 & Hx); auto.
  { apply new_object2; lia. } { apply new_object2; lia. }
  { intros j _. apply slots_coef_bound; auto; [lia|]. intros i Hi. rewrite plus_IZR, mult_IZR. eapply Rle_trans; [apply Rabs_triang|]. rewrite Rabs_mult, (Rabs_right (IZR (2 ^ LOGq))) by (apply Rle_ge, Rlt_le; exact Hqp).
    specialize (Hm i Hi). specialize (HIR i Hi). fold (boot_q LOGq). fold q. nra. }
  assert (Hx' : forall j, 0 <= j < n -> (Rabs (x0 j - IZR (I (rev j)) - IZR (m (rev j)) / q) <= rho)%R /\ (Rabs (x1 j - IZR (I (rev j + n)%Z) - IZR (m (rev j + n)%Z) / q) <= rho)%R).
  { intros j Hj. destruct (Hx j (rev j) Hj (p_rev_reverses j)) as (_ & _ & X0 & X1). cbv beta in X0, X1. rewrite plus_IZR, mult_IZR in X0, X1. fold (boot_q LOGq) in X0, X1. fold q in X0, X1.
    replace (x0 j - IZR (I (rev j)) - IZR (m (rev j)) / q)%R with (x0 j - (IZR (m (rev j)) + q * IZR (I (rev j))) / q)%R by (field; lra).
    replace (x1 j - IZR (I (rev j + n)%Z) - IZR (m (rev j + n)%Z) / q)%R with (x1 j - (IZR (m (rev j + n)%Z) + q * IZR (I (rev j + n)%Z)) / q)%R by (field; lra). split; [exact X0|exact X1]. }
  assert (Hrho : (0 <= rho)%R) by (eapply Rle_trans; [apply Rabs_pos|apply (Hx' 0 ltac:(lia))]).
  assert (HQ1 : 1 <= Q1 <= LOGQ) by (unfold Q1; lia).
  assert (HC : forall c w x, decrypts LOGQ N c (coef s) w -> (forall j, 0 <= j < n -> (modulus (slots N (IZR (2 ^ LDc) ^ D * q) w j - real (x j))%num <= switch_noise N (2 ^ LDc) (boot_noise N h) q D)%R) ->
    exists r, RS LOGQ Q1 N c (sq_new Q1 N) = Ok r /\ carries Q1 N (coef s) r q (fun j => real (x j)) sw).
  { intros c w x Hd Hsl. apply (carries_RS LOGN ltac:(lia) (coef s) LOGQ Q1 c (sq_new Q1 N) q (fun j => real (x j))); auto; [apply new_object2; lia|].
    exists w. split; [exact Hd|]. fold N. rewrite p_Nhalf. intros j Hj. replace (q * IZR (2 ^ (LOGQ - Q1)))%R with (IZR (2 ^ LDc) ^ D * q)%R; [apply Hsl; auto|].
    rewrite p_powD by lia. replace (LOGQ - Q1) with (Z.of_nat D * LDc) by (unfold Q1; lia). ring. }
  destruct (HC c0 w0 x0 Hw0) as (r0 & E2 & R0). { intros j Hj. destruct (Hx j (rev j) Hj (p_rev_reverses j)) as (X & _). exact X. }
  destruct (HC c1 w1 x1 Hw1') as (r1 & E3 & R1). { intros j Hj. destruct (Hx j (rev j) Hj (p_rev_reverses j)) as (_ & X & _). exact X. }
  assert (Hdx : forall a b c, (Rabs (a - b - c) <= rho)%R -> (Rabs c <= dmax)%R -> (Rabs (a - b) <= dmax + rho)%R).
  { intros a b c A1 A2. replace (a - b)%R with ((a - b - c) + c)%R by ring. eapply Rle_trans; [apply Rabs_triang|]. lra. }
  destruct (f_evalmod_part pos' r0 x0 (fun j => I (rev j)) (sq_new Q2 N)) as (pos2 & e0 & E4 & M0); auto.
  { intros j Hj. apply HIR. pose proof (p_rev_range j). lia. } { intros j Hj. eapply Hdx; [apply (Hx' j Hj)|]. apply Hdm. pose proof (p_rev_range j). lia. }
  { lra. } { apply new_object2; unfold Q2, Q1; lia. }
  destruct (f_evalmod_part pos2 r1 x1 (fun j => I (rev j + n)) (sq_new Q2 N)) as (pos3 & e1 & E5 & M1); auto.
  { intros j Hj. apply HIR. pose proof (p_rev_range j). lia. } { intros j Hj. eapply Hdx; [apply (Hx' j Hj)|]. apply Hdm. pose proof (p_rev_range j). lia. }
  { lra. } { apply new_object2; unfold Q2, Q1; lia. }
  exists stc', st', pos3, r0, r1, e0, e1, x0, x1. split.
  { unfold f_boot_front, LOGQ_after_evalmod, LOGQ_after_cts, boot_N. rewrite p_Ddiv. fold N Q1 Q2. rewrite E1. cbn [bind]. rewrite E2. cbn [bind]. rewrite E3. cbn [bind]. rewrite E4. cbn [bind]. rewrite E5. reflexivity. }
  split; [exact Hstc'|]. split; [exact Hst'|]. split; [exact R0|]. split; [exact R1|]. split; [exact M0|]. split; [exact M1|exact Hx'].
Qed.
End Front.

(** SlotToCoeff and RS of slots that are near the numbers p *)
Lemma f_back_ok sts st pos c0 c1 (p : Z -> R) z e :
  f_stc_static F Q2 LOGN LDs (Z.of_nat G) sts -> f_ifft_static F LOGN st ->
  carries Q2 N (coef s) c0 q (fun j => real (p (rev j))) e -> carries Q2 N (coef s) c1 q (fun j => real (p (rev j + n)%Z)) e ->
  (forall i, 0 <= i < N -> (Rabs (p i) + e <= z)%R) ->
  exists sts' st' pos' ct' w, f_boot_back F LOGQ LOGN LDc LOGq LDs (Z.of_nat G) RM rnd sts st pos c0 c1 (map Some s) = Ok (sts', st', pos', ct') /\
    f_stc_static F Q2 LOGN LDs (Z.of_nat G) sts' /\ f_ifft_static F LOGN st' /\ decrypts Q3 N ct' (coef s) w /\
    forall i, 0 <= i < N -> (Rabs (IZR (w i) - q * p i) <= q * (f_stc_error N (2 ^ LDs) (boot_noise N h) G D dls z q + 2 * e) + IZR (1 + h) / 2)%R.
Proof.
  intros Hsts Hst (w0 & D0 & S0) (w1 & D1 & S1) Hz. fold N in S0, S1. rewrite p_Nhalf in S0, S1.
  pose proof HP as [HLN HG HD Hq Hc' Hs' HQ Hw Hw1]. pose proof p_np as Hn. pose proof p_Nn as HNn. pose proof p_qp as Hqp.
  assert (HQ2 : 1 <= Q2) by (unfold Q2, Q1; lia).
  assert (HW : widths Q2 /\ widths (2 * Q2)) by (unfold Q2, Q1; apply Hw1; lia).
  assert (HM : forall (a : CC) b, (modulus (a - real b)%num <= e)%R -> (Rabs b + e <= z)%R -> (modulus a <= z)%R).
  { intros a b A1 A2. replace a with ((a - real b) + real b : RC)%num by ring. pose proof (modulus_add (a - real b)%num (real b)) as T. rewrite modulus_real in T. unfold RC in *. lra. }
  destruct (stc_part z e e p c0 c1 w0 w1 sts st pos (sq_new Q2 N))
    as (sts' & st' & pos' & ct' & w & E1 & Hsts' & Hst' & Hw' & Hb); auto.
  { apply new_object2; lia. }
  { intros j Hj. pose proof (p_rev_range j). split; [eapply HM; [exact (S0 j Hj)|]|eapply HM; [exact (S1 j Hj)|]]; apply Hz; lia. }
  { intros j r Hj Hrev. apply reverses_brv in Hrev; [|lia]. subst r. split; [exact (S0 j Hj)|exact (S1 j Hj)]. }
  destruct (RS_coef LOGN Q2 Q3 ct' (sq_new Q3 N) (coef s) w ltac:(lia)) as (ct2 & w' & E2 & Hd & He); auto.
  { unfold Q3, Q2, Q1. lia. } { apply new_object2; unfold Q3, Q2, Q1; lia. }
  exists sts', st', pos', ct2, w'. split.
  { unfold f_boot_back, LOGQ_after_stc, LOGQ_after_evalmod, LOGQ_after_cts, boot_N. rewrite p_Ddiv. fold N Q1 Q2 Q3. rewrite E1. cbn [bind]. fold N in E2. rewrite E2. reflexivity. }
  split; [exact Hsts'|]. split; [exact Hst'|]. split; [exact Hd|]. fold N in He. intros i Hi. specialize (He i Hi). specialize (Hb i Hi).
  replace (Q2 - Q3) with (Z.of_nat D * LDs) in He by (unfold Q3; lia). rewrite <- p_powD in He by lia.
  assert (HPD : (0 < IZR (2 ^ LDs) ^ D)%R) by (apply pow_lt, IZR_lt, Z.pow_pos_nonneg; lia). set (P := (IZR (2 ^ LDs) ^ D)%R) in He, Hb, HPD |- *. clearbody P.
  replace (IZR (w' i) - q * p i)%R with ((IZR (w' i) - IZR (w i) / P) + q * (IZR (w i) / (P * q) - p i))%R by (field; lra).
  eapply Rle_trans; [apply Rabs_triang|]. rewrite Rabs_mult, (Rabs_right q) by lra. fold h in He. change (noise (2 ^ LOGN) (coef s)) with (boot_noise N h) in Hb. fold N in Hb. fold dls in Hb.
  apply (Rmult_le_compat_l q) in Hb; [|lra]. lra.
Qed.
End Steps.
