(** C121: the two bootstrappings in double precision for all but a few ciphertexts, under keys with as many nonzero coefficients as in the experiments
    (experiment/section4/proposal.cpp; rns.h:17: H = 128).  C117 says this of exact arithmetic, and C115 of keys with at most 44 nonzero coefficients. *)
From Coq Require Import ZArith List Bool Lia Reals Lra Ring.
From Verif Require Import Base BaseFacts Sums ZQ ZQFacts RQ RQFacts Conv Rot Core CoreFacts Util UtilFacts GSum Matrix MatrixFacts MatMulFacts DFT DFTTheory DFTFacts FFTFacts
  SpecZQ SpecPoly SpecPolyFacts PolyCong SpecScheme SpecMat Properties_Mat SpecDFT Properties_DFT SpecEnc SlotFacts
  Encode EncodeFacts Properties_Conv Properties_Core Properties_Rot Properties_Enc Properties_Plain Noise SpecLin LinTrans LinTransFacts LinSlots Properties_Lin
  Bootstrap BootFacts SpecBoot BootSlots Properties_Boot Poly SpecEval EvalFacts EvalPoly SpecMod EvalMod EvalModFacts PiBound EvalModBound Properties_EvalMod SpecPipe Pipeline PipeFacts Properties_Pipe
  Float SpecFloat FloatNum Binary64 Properties_Float SpecFloatLin FloatLin FloatSerial FloatGrouped SpecFloatBoot FloatBoot FloatBootSlots FloatBootNum Properties_FloatLin FloatMod SpecFloatMod FloatModFacts FloatModBound Properties_FloatMod.
From Verif Require Import SpecFloatPipe FloatPipeFacts FloatPipe Properties_FloatPipe SpecTail Tail TailFacts TailNum Properties_Tail ZQFacts2.
Import ListNotations.
Open Scope Z_scope.


(** ** Any multiples of q of absolute value at most B *)
Section Double.
Context (F : fpu) (HF : double F).
Context (lpow : R -> R -> R) (pw : R) (Hpw : power_within pw lpow) (Hp52 : (pw <= powerRZ 2 (-52))%R).
Context (LOGN LOGq LOGQ LDc LDs : Z) (G D : nat) (HP : boot_params LOGN LOGq LOGQ LDc LDs G D).
Context (RM : Z) (rnd : nat -> Z) (s : list Z) (Hr : rand_stream RM rnd).
Let N := 2 ^ LOGN.
Context (Hs : ternary N s).
Let h := norm1 N (coef s).
Let q := boot_q LOGq.
Let g := Z.of_nat G.
Let Q2 := LOGQ - Z.of_nat D * LDc - 12 * LOGq.
Let Q3 := Q2 - Z.of_nat D * LDs.
Context (HQ48 : LOGQ <= 2048) (HLDc : 1 <= LDc <= 62 /\ LDc + 2 <= LOGQ) (HLDs : 1 <= LDs /\ LDs + g <= 63 /\ LDs + g + 1 <= Q2).
(** the rows of the groups err by 2^-40 and 2^-37 before encoding; encoding adds 2^-41 of the scaled entries *)
Let dlc := f_row N (2 ^ LDc) G (powerRZ 2 (-40)) (enc41 2 (2 ^ LDc)).
Let dls := f_row N (2 ^ LDs) G (powerRZ 2 (-37)) (enc41 (2 ^ G) (2 ^ LDs)).

Let HL : 2 <= LOGN <= 17. Proof. destruct HP. lia. Qed.
Let HG : (1 <= G <= 4)%nat. Proof. destruct HP. lia. Qed.
Let HQ : 1 <= LOGQ <= 2048. Proof. destruct HP. unfold widths in *. lia. Qed.
Let HQ2 : 1 <= Q2 <= 2048. Proof. destruct HP. unfold Q2. lia. Qed.
Let HLDc' : 0 <= LDc < 64. Proof. lia. Qed.
Let HLDs' : 0 <= LDs < 64. Proof. lia. Qed.
Let D1 : (1 <= D)%nat. Proof. destruct HP. nia. Qed.
Let Hpu : (0 <= pw <= 2 * u64)%R.
Proof. split; [apply Hpw|]. pose proof (u_is 1 ltac:(lia)) as U. change (2 ^ 1) with 2 in U. rewrite U. exact Hp52. Qed.
Let H40 : (powerRZ 2 (-40) <= 1)%R. Proof. rewrite p40. pose proof u_small. lra. Qed.
Let H37 : (powerRZ 2 (-37) <= 1)%R. Proof. rewrite p37. pose proof u_small. lra. Qed.
Let Hc := num_cts_group LOGN HL pw G HG Hpu.
Let Hst := num_stc_group LOGN HL G HG.
Let HBc : (Rpower 2 (- / INR D) + cts_group_error u64 eta64 t64 pw LOGN G <= 2)%R.
Proof. pose proof (cts_row_le D D1). destruct Hc as [[_ X] _]. lra. Qed.
Let HBs : (2 ^ (G - 1) + stc_group_error u64 eta64 t64 LOGN G <= 2 ^ G)%R.
Proof.
  assert (Hg1 : (1 <= 2 ^ (G - 1))%R) by (apply pow_R1_Rle; lra). assert (Hg2 : (2 ^ G = 2 * 2 ^ (G - 1))%R) by (rewrite (tech_pow_Rmult 2 (G - 1)); f_equal; lia).
  destruct Hst as [[_ X] _]. lra.
Qed.
Let Ec : encodes_within F LOGQ LOGN LDc 2 (enc41 2 (2 ^ LDc)).
Proof.
  assert (Hd2 : (2 <= IZR (2 ^ LDc))%R) by (apply IZR_le; change 2 with (2 ^ 1) at 1; apply Z.pow_le_mono_r; lia).
  assert (P4 : forall x, LDc + 2 <= x -> (4 * IZR (2 ^ LDc) <= IZR (2 ^ x))%R).
  { intros x Hx. rewrite <- mult_IZR. apply IZR_le. change 4 with (2 ^ 2). rewrite <- Z.pow_add_r by lia. apply Z.pow_le_mono_r; lia. }
  pose proof (enc41_small 2 (2 ^ LDc) ltac:(lra)) as Hs2. pose proof (P4 64 ltac:(lia)) as Q1. pose proof (P4 LOGQ ltac:(lia)) as Q2'.
  apply encodes_double; auto; lra.
Qed.
Let Es : encodes_within F Q2 LOGN LDs (2 ^ G) (enc41 (2 ^ G) (2 ^ LDs)).
Proof.
  assert (Hg1 : (1 <= 2 ^ (G - 1))%R) by (apply pow_R1_Rle; lra). assert (Hg2 : (2 ^ G = 2 * 2 ^ (G - 1))%R) by (rewrite (tech_pow_Rmult 2 (G - 1)); f_equal; lia).
  assert (Hd2 : (2 <= IZR (2 ^ LDs))%R) by (apply IZR_le; change 2 with (2 ^ 1) at 1; apply Z.pow_le_mono_r; lia).
  assert (P4 : forall x, LDs + g + 1 <= x -> (2 * (2 ^ G * IZR (2 ^ LDs)) <= IZR (2 ^ x))%R).
  { intros x Hx. rewrite pow_IZR, <- !mult_IZR. apply IZR_le. unfold g in Hx. rewrite <- Z.pow_add_r, <- Z.pow_succ_r by lia. apply Z.pow_le_mono_r; lia. }
  assert (Hx : (4 <= 2 ^ G * IZR (2 ^ LDs))%R) by (rewrite Hg2; nra).
  pose proof (enc41_small (2 ^ G) (2 ^ LDs) ltac:(lra)) as Hs2. pose proof (P4 64 ltac:(lia)) as Q1. pose proof (P4 Q2 ltac:(lia)) as Q2'.
  apply encodes_double; auto; lra.
Qed.
Let Hec : (0 <= enc41 2 (2 ^ LDc))%R. Proof. apply enc41_pos; [lra|apply Z.pow_nonneg; lia]. Qed.
Let Hes : (0 <= enc41 (2 ^ G) (2 ^ LDs))%R. Proof. apply enc41_pos; [apply pow_le; lra|apply Z.pow_nonneg; lia]. Qed.
Theorem C121_conventional_double B dmax ct ct_m m I stc sts st pos :
  f_cts_static F lpow LOGQ LOGN LDc g stc -> f_stc_static F Q2 LOGN LDs g sts -> f_ifft_static F LOGN st ->
  mod_raise LOGq LOGQ N ct (sq_new LOGQ N) = Ok ct_m -> decrypts LOGQ N ct_m (coef s) (fun i => m i + 2 ^ LOGq * I i) ->
  (forall i, 0 <= i < N -> Z.abs (I i) <= B) -> (forall i, 0 <= i < N -> (Rabs (IZR (m i)) <= q * dmax)%R) ->
  (IZR B + dmax + f_boot_rounding N h LOGq LDc D dlc B dmax + / 4 <= 24)%R ->
  exists stc' sts' st' pos' ct' w, f_conventional_boot F lpow LOGq LOGQ LOGN LDc LOGq LDs g 24 RM rnd stc sts st pos ct (map Some s) = Ok (stc', sts', st', pos', ct') /\
    f_cts_static F lpow LOGQ LOGN LDc g stc' /\ f_stc_static F Q2 LOGN LDs g sts' /\ f_ifft_static F LOGN st' /\ decrypts Q3 N ct' (coef s) w /\
    forall i, 0 <= i < N -> (Rabs (IZR (w i) - IZR (m i)) <= q * f_conventional_error u64 eta64 N h LOGq LDc LDs G D dlc dls B dmax + IZR (1 + h) / 2)%R.
Proof. exact (conventional_core F u64 eta64 top64 t64 HF (top64_big 62 ltac:(lia)) lpow pw Hpw LOGN LOGq LOGQ LDc LDs G D HP RM rnd s Hr Hs (num_small LOGN HL) 2 _ _ Ec Hec (proj2 Hc) HBc (proj2 (proj1 Hc)) (2 ^ G) _ _ Es Hes (proj2 Hst) HBs (proj2 (proj1 Hst)) B dmax ct ct_m m I stc sts st pos). Qed.
Theorem C121_proposed_double B dmax ct ct_m m I stc sts st pos :
  f_cts_static F lpow LOGQ LOGN LDc g stc -> f_stc_static F Q2 LOGN LDs g sts -> f_ifft_static F LOGN st ->
  mod_raise LOGq LOGQ N ct (sq_new LOGQ N) = Ok ct_m -> decrypts LOGQ N ct_m (coef s) (fun i => m i + 2 ^ LOGq * I i) ->
  (forall i, 0 <= i < N -> Z.abs (I i) <= B) -> (forall i, 0 <= i < N -> (Rabs (IZR (m i)) <= q * dmax)%R) ->
  (IZR B + dmax + f_boot_rounding N h LOGq LDc D dlc B dmax + / 4 <= 24)%R ->
  exists stc' sts' st' pos' ct' w, f_proposed_boot F lpow LOGq LOGQ LOGN LDc LOGq LDs g 24 RM rnd stc sts st pos ct (map Some s) = Ok (stc', sts', st', pos', ct') /\
    f_cts_static F lpow LOGQ LOGN LDc g stc' /\ f_stc_static F Q2 LOGN LDs g sts' /\ f_ifft_static F LOGN st' /\ decrypts Q3 N ct' (coef s) w /\
    forall i, 0 <= i < N -> (Rabs (IZR (w i) - IZR (m i)) <= q * f_proposed_error u64 eta64 N h LOGq LDc LDs G D dlc dls B dmax + IZR (1 + h) / 2)%R.
Proof. exact (proposed_core F u64 eta64 top64 t64 HF (top64_big 62 ltac:(lia)) lpow pw Hpw LOGN LOGq LOGQ LDc LDs G D HP RM rnd s Hr Hs (num_small LOGN HL) 2 _ _ Ec Hec (proj2 Hc) HBc (proj2 (proj1 Hc)) (2 ^ G) _ _ Es Hes (proj2 Hst) HBs (proj2 (proj1 Hst)) B dmax ct ct_m m I stc sts st pos). Qed.
End Double.

(** ** Numbers: dimension 512, scale 2^60, groups of two matrices *)
Section Numbers.
Context (h LDs : Z) (Hh : 0 <= h <= 128) (HLDs : 50 <= LDs <= 60).
Let dmax := (/ IZR (2 ^ 9))%R.
Let E := boot_noise 512 h.
Let dlc := f_row 512 (2 ^ 60) 2 (powerRZ 2 (-40)) (enc41 2 (2 ^ 60)).
Let dls := f_row 512 (2 ^ LDs) 2 (powerRZ 2 (-37)) (enc41 (2 ^ 2) (2 ^ LDs)).
Let q := IZR (2 ^ 60).
Let Qp : (0 < q)%R. Proof. apply IZR_lt. reflexivity. Qed.
Let Hd0 : (0 <= dmax <= / 512)%R. Proof. unfold dmax. change (2 ^ 9) with 512. lra. Qed.
(** the noise of switching keys: that of the exact arithmetic *)
Let Hsw : forall Delta k, 1 <= Delta -> (0 <= switch_noise 512 Delta E q k <= 2 / IZR (10 ^ 12))%R.
Proof.
  intros Delta k HD. pose proof (switch_noise_mono 512 Delta E (16 * 512 + 129) q k 1%R) as H. destruct H as [H1 H2]; try lra; try lia.
  - unfold E, boot_noise. lia.
  - apply pow_R1_Rle. apply IZR_le. lia.
  - split; [exact H1|]. eapply Rle_trans; [exact H2|]. unfold q. change (16 * 512 + 129) with 8321. change (2 ^ 60) with 1152921504606846976. change (10 ^ 12) with 1000000000000. lra.
Qed.
Lemma ft_row B LD x : (0 <= B)%R -> 50 <= LD <= 60 -> (0 <= x)%R ->
  (0 <= f_row 512 (2 ^ LD) 2 x (enc41 B (2 ^ LD)) <= x + 4608 * (/ (2 * IZR (2 ^ 50)) + 4096 * (B / 9007199254740992) + / (9007199254740992 * 1024)))%R.
Proof.
  intros HB HD Hx. unfold f_row, encoded_error, enc41. change (3 ^ Z.of_nat 2) with 9. rewrite (p41 2).
  assert (H9 : (0 < powerRZ 2 (-900) <= u64)%R) by (split; [apply p2_pos|]; unfold u64; apply p2_le; lia). pose proof u_small as Hu.
  assert (HD' : (IZR (2 ^ 50) <= IZR (2 ^ LD))%R) by (apply IZR_le, Z.pow_le_mono_r; lia). change (2 ^ 50) with 1125899906842624 in *.
  assert (Hi : (0 < / IZR (2 ^ LD) <= / 1125899906842624)%R) by (split; [apply Rinv_0_lt_compat; lra|apply Rinv_le_contravar; lra]).
  set (y := IZR (2 ^ LD)) in *. set (w := powerRZ 2 (-900)) in *.
  replace ((/ 2 + (4096 * u64 * (B * y) + w)) / y)%R with (/ 2 * / y + 4096 * (u64 * B) + w * / y)%R by (field; lra).
  assert (W : (0 <= w * / y <= / 9007199254740992 * / 1125899906842624)%R) by (split; [apply Rmult_le_pos; lra|apply Rmult_le_compat; lra]).
  assert (UB : (0 <= u64 * B <= / 9007199254740992 * B)%R) by (split; [apply Rmult_le_pos; lra|apply Rmult_le_compat_r; lra]). lra.
Qed.
Lemma ft_rounding : (0 <= f_boot_rounding 512 h 60 60 4 dlc 23 dmax <= 42 / IZR (10 ^ 5))%R.
Proof.
  unfold f_boot_rounding, f_cts_rounding. fold E.
  assert (Ha : forall d : nat, (0 <= Rpower 2 (- / INR 4) <= 1)%R).
  { intros _. split; [apply Rlt_le; unfold Rpower; apply exp_pos|]. rewrite <- (Rpower_O 2) by lra. apply Rle_Rpower; [lra|]. change (INR 4) with (1 + 1 + 1 + 1)%R. lra. }
  assert (Hz : (0 <= IZR 512 * (IZR 23 + dmax) <= 11777)%R) by lra.
  assert (Hd : (0 <= dlc <= 42 / 10000000000)%R).
  { pose proof (ft_row 2 60 (powerRZ 2 (-40)) ltac:(lra) ltac:(lia) ltac:(apply Rlt_le, p2_pos)) as H. fold dlc in H. rewrite p40 in H. pose proof u_small.
    change (2 ^ 50) with 1125899906842624 in H. lra. }
  destruct (size_error_mono _ (fun _ => 1%R) _ _ _ _ _ (fun _ => 2 / IZR (10 ^ 12))%R 4 Ha Hd Hz (fun k => Hsw (2 ^ 60) k ltac:(lia))) as [_ [H1 H2]]. change (boot_q 60) with q. split; [lra|].
  eapply Rle_trans; [apply Rmult_le_compat_l; [lra|exact H2]|]. cbn [error_after size_after]. change (10 ^ 12) with 1000000000000. change (10 ^ 5) with 100000. lra.
Qed.
Lemma ft_24 : (IZR 23 + dmax + f_boot_rounding 512 h 60 60 4 dlc 23 dmax + / 4 <= 24)%R.
Proof. pose proof ft_rounding as H. change (10 ^ 5) with 100000 in H. lra. Qed.
Lemma ft_cts_noise : (0 <= boot_cts_noise 512 h 60 60 4 <= 29 / IZR (10 ^ 15))%R.
Proof.
  apply t_cts_noise; try lia; [exact O|].
change (2 ^ 240) with 1766847064778384329583297500742918515827483896875618958121606201292619776. change (2 ^ 60) with 1152921504606846976. change (10 ^ 15) with 1000000000000000. change (16 * 512 + 129) with 8321. lra.
Qed.
Lemma ft_mod_error : (0 <= f_boot_mod_error u64 eta64 512 h 60 60 4 dlc 23 dmax <= 13 / IZR (10 ^ 9))%R.
Proof.
  unfold f_boot_mod_error. pose proof ft_cts_noise as Hc. pose proof ft_rounding as Hr. set (e := boot_cts_noise 512 h 60 60 4) in *. set (rho := f_boot_rounding 512 h 60 60 4 dlc 23 dmax) in *.
  assert (Hi : (0 <= IZR (1 + h) <= 129)%R) by (split; apply IZR_le; lia).
  pose proof u_small as Hu. pose proof eta_pos as Heta. pose proof (eta_u 10 ltac:(lia) ltac:(lia)) as Heu. change (2 ^ 10) with 1024 in Heu.
  change (10 ^ 15) with 1000000000000000 in *.
  assert (Hb : (0 <= f_evalmod_error u64 eta64 512 h (boot_q 60) 24 e <= 340000 * (36 / IZR (10 ^ 15)) + 3 / IZR (10 ^ 12))%R).
  { apply f_evalmod_error_bound; try lia; try lra; try exact Qp.
    - change (8 * 10 ^ 15) with 8000000000000000. lra.
    - assert (Hin : (f_em_in u64 eta64 (boot_q 60) 24 e <= e + 4 / 1000000000000000)%R).
      { unfold f_em_in, boot_q. change (2 ^ 60) with 1152921504606846976. assert (Hx : ((u64 + 24 * (eta64 / 1152921504606846976)) * (e + 24 + 2) <= 11 / 10 * / 9007199254740992 * 27)%R) by (apply Rmult_le_compat; lra). lra. }
      unfold em_arg_error, rescale_noise, mul_noise, boot_q in *. replace (8 * 512 + 1 + h) with (4096 + (1 + h)) by lia. rewrite (plus_IZR 4096). change (10 ^ 15) with 1000000000000000.
      change (2 ^ 60) with 1152921504606846976 in *. lra. }
  assert (P : (0 <= 6 / 5 * PI ^ 4 <= 117)%R).
  { destruct PI_bounds as [P1 P2]. pose proof PI_RGT_0. assert (PI <= 3.1416)%R by lra. assert (PI * PI <= 9.86966)%R by nra. assert (0 <= PI * PI)%R by nra. split; [|nra].
    apply Rmult_le_pos; [lra|apply pow_le; lra]. }
  assert (X : (0 <= (dmax + rho) ^ 5 <= (/ 400) ^ 5)%R).
  { assert (Hx : (0 <= dmax + rho <= / 400)%R) by (change (10 ^ 5) with 100000 in Hr; lra). split; [apply pow_le; lra|apply pow_incr; lra]. }
  assert (Y : (0 <= 6 / 5 * PI ^ 4 * (dmax + rho) ^ 5 <= 117 * (/ 400) ^ 5)%R) by (split; [apply Rmult_le_pos; lra|apply Rmult_le_compat; lra]).
  change (10 ^ 15) with 1000000000000000 in *. change (10 ^ 12) with 1000000000000 in *. change (10 ^ 9) with 1000000000. cbn [pow] in Y |- *. lra.
Qed.
Lemma ft_stc z z' r : (0 <= z <= z')%R -> (2 * error_after (fun _ => 4) (86 / IZR (10 ^ 10)) z' (fun _ => 2 / IZR (10 ^ 12)) 4 <= r)%R ->
  (f_stc_error 512 (2 ^ LDs) E 2 4 dls z (boot_q 60) <= r)%R.
Proof.
  intros Hz Hr. unfold f_stc_error. assert (Hd : (0 <= dls <= 86 / IZR (10 ^ 10))%R).
  { pose proof (ft_row (2 ^ 2) LDs (powerRZ 2 (-37)) ltac:(lra) HLDs ltac:(apply Rlt_le, p2_pos)) as H. fold dls in H. rewrite p37 in H. pose proof u_small.
    change (2 ^ 50) with 1125899906842624 in H. change (10 ^ 10) with 10000000000. lra. }
  assert (Ha : forall d : nat, (0 <= 2 ^ 2 <= 4)%R) by (intros _; lra).
  assert (H1' : 1 <= 2 ^ LDs) by (pose proof (Z.pow_pos_nonneg 2 LDs); lia).
  destruct (size_error_mono _ (fun _ => 4%R) _ _ _ _ _ (fun _ => 2 / IZR (10 ^ 12))%R 4 Ha Hd Hz (fun k => Hsw (2 ^ LDs) k H1')) as [_ [H1 H2]]. change (boot_q 60) with q. lra.
Qed.
Lemma ft_proposed : (IZR (2 ^ 60) * f_proposed_error u64 eta64 512 h 60 60 LDs 2 4 dlc dls 23 dmax + IZR (1 + h) / 2 <= IZR (2 ^ 47))%R.
Proof.
  assert (Hi : (0 <= IZR (1 + h) <= 129)%R) by (split; apply IZR_le; lia).
  unfold f_proposed_error. fold E. pose proof ft_cts_noise as Hc. pose proof ft_mod_error as Hm. set (e := boot_cts_noise 512 h 60 60 4) in *. set (em := f_boot_mod_error _ _ 512 h 60 60 4 dlc 23 dmax) in *.
  change (10 ^ 15) with 1000000000000000 in *. change (10 ^ 9) with 1000000000 in *.
  assert (H' : (f_stc_error 512 (2 ^ LDs) E 2 4 dls (IZR 23 + (e + em)) (boot_q 60) <= 12 / 100000)%R).
  { apply (ft_stc _ (231 / 10)); [lra|]. cbn [error_after size_after]. change (10 ^ 12) with 1000000000000. change (10 ^ 10) with 10000000000. lra. }
  change (2 ^ 60) with 1152921504606846976. change (2 ^ 47) with 140737488355328. lra.
Qed.
Lemma ft_conventional : (IZR (2 ^ 60) * f_conventional_error u64 eta64 512 h 60 60 LDs 2 4 dlc dls 23 dmax + IZR (1 + h) / 2 <= IZR (2 ^ 50))%R.
Proof.
  assert (Hi : (0 <= IZR (1 + h) <= 129)%R) by (split; apply IZR_le; lia).
  unfold f_conventional_error. fold E. pose proof ft_rounding as Hr. pose proof ft_mod_error as Hm. set (rho := f_boot_rounding 512 h 60 60 4 dlc 23 dmax) in *. set (em := f_boot_mod_error _ _ 512 h 60 60 4 dlc 23 dmax) in *.
  change (10 ^ 5) with 100000 in *. change (10 ^ 9) with 1000000000 in *.
  assert (H' : (f_stc_error 512 (2 ^ LDs) E 2 4 dls (dmax + rho + em) (boot_q 60) <= 1 / 10000000)%R).
  { apply (ft_stc _ (/ 300)); [lra|]. cbn [error_after size_after]. change (10 ^ 12) with 1000000000000. change (10 ^ 10) with 10000000000. lra. }
  change (2 ^ 60) with 1152921504606846976. change (2 ^ 50) with 1125899906842624. lra.
Qed.
End Numbers.
Theorem C121_proposed_512 : forall F lpow pw s, double F -> power_within pw lpow -> (pw <= powerRZ 2 (-52))%R -> ternary 512 s -> norm1 512 (coef s) <= 128 ->
  almost_all 60 512 (8 / IZR (10 ^ 9)) (fun a => forall RM rnd ct m stc sts st pos, rand_stream RM rnd ->
    f_cts_static F lpow 1450 9 60 2 stc -> f_stc_static F 490 9 60 2 sts -> f_ifft_static F 9 st ->
    holdsP 60 512 (snd ct) (coef a) -> decrypts 60 512 ct (coef s) m -> (forall i, 0 <= i < 512 -> Z.abs (m i) <= 2 ^ 51) ->
    exists stc' sts' st' pos' ct' w, f_proposed_boot F lpow 60 1450 9 60 60 60 2 24 RM rnd stc sts st pos ct (map Some s) = Ok (stc', sts', st', pos', ct') /\
      decrypts 250 512 ct' (coef s) w /\ forall i, 0 <= i < 512 -> Z.abs (w i - m i) <= 2 ^ 47).
Proof.
  intros F lpow pw s HF Hpw Hp52 Hs Hh'. assert (Hh : 0 <= norm1 512 (coef s) <= 128) by (split; [apply norm1_nonneg|exact Hh']).
  eapply almost_all_impl; [| |apply (C116_128 60 512 s ltac:(lia) ltac:(lia) Hs Hh')]; [unfold Rdiv; change (10 ^ 12) with 1000000000000; change (10 ^ 9) with 1000000000; change (10 ^ 8) with 100000000; lra|].
  cbv beta. intros a H RM rnd ct m stc sts st pos Hr Hstc Hsts Hst Hsnd Hd Hm.
  destruct (H 1450 ct (sq_new 1450 512) m ltac:(lia) (new_object2 1450 512 ltac:(lia) ltac:(lia)) Hsnd Hd) as (ct_m & I & E & Hdm & HI).
  { intros i Hi. specialize (Hm i Hi). lia. }
  assert (HI' : forall i, 0 <= i < 512 -> Z.abs (I i) <= 23) by (intros i Hi; specialize (HI i Hi); lia).
  destruct (C121_proposed_double F HF lpow pw Hpw Hp52 9 60 1450 60 60 2 4 (t_params 9 2 60 ltac:(lia) ltac:(lia)) RM rnd s Hr Hs ltac:(lia) ltac:(lia) ltac:(lia) 23 (/ IZR (2 ^ 9))%R ct ct_m m I stc sts st pos)
    as (stc' & sts' & st' & pos' & ct' & w & E' & _ & _ & _ & Hd' & Hw); auto.
  - intros i Hi. specialize (Hm i Hi). rewrite <- abs_IZR. apply IZR_le in Hm. unfold boot_q. change (2 ^ 51) with 2251799813685248 in Hm. change (2 ^ 60) with 1152921504606846976. change (2 ^ 9) with 512. lra.
  - change (2 ^ 9) with 512. apply ft_24; lia.
  - exists stc', sts', st', pos', ct', w. split; [exact E'|]. split; [exact Hd'|].
    intros i Hi. apply Rabs_IZR_le. rewrite minus_IZR. eapply Rle_trans; [apply (Hw i Hi)|]. change (2 ^ 9) with 512. apply ft_proposed; lia.
Qed.
Theorem C121_conventional_512 : forall F lpow pw s, double F -> power_within pw lpow -> (pw <= powerRZ 2 (-52))%R -> ternary 512 s -> norm1 512 (coef s) <= 128 ->
  almost_all 60 512 (8 / IZR (10 ^ 9)) (fun a => forall RM rnd ct m stc sts st pos, rand_stream RM rnd ->
    f_cts_static F lpow 1450 9 60 2 stc -> f_stc_static F 490 9 50 2 sts -> f_ifft_static F 9 st ->
    holdsP 60 512 (snd ct) (coef a) -> decrypts 60 512 ct (coef s) m -> (forall i, 0 <= i < 512 -> Z.abs (m i) <= 2 ^ 51) ->
    exists stc' sts' st' pos' ct' w, f_conventional_boot F lpow 60 1450 9 60 60 50 2 24 RM rnd stc sts st pos ct (map Some s) = Ok (stc', sts', st', pos', ct') /\
      decrypts 290 512 ct' (coef s) w /\ forall i, 0 <= i < 512 -> Z.abs (w i - m i) <= 2 ^ 50).
Proof.
  intros F lpow pw s HF Hpw Hp52 Hs Hh'. assert (Hh : 0 <= norm1 512 (coef s) <= 128) by (split; [apply norm1_nonneg|exact Hh']).
  eapply almost_all_impl; [| |apply (C116_128 60 512 s ltac:(lia) ltac:(lia) Hs Hh')]; [unfold Rdiv; change (10 ^ 12) with 1000000000000; change (10 ^ 9) with 1000000000; change (10 ^ 8) with 100000000; lra|].
  cbv beta. intros a H RM rnd ct m stc sts st pos Hr Hstc Hsts Hst Hsnd Hd Hm.
  destruct (H 1450 ct (sq_new 1450 512) m ltac:(lia) (new_object2 1450 512 ltac:(lia) ltac:(lia)) Hsnd Hd) as (ct_m & I & E & Hdm & HI).
  { intros i Hi. specialize (Hm i Hi). lia. }
  assert (HI' : forall i, 0 <= i < 512 -> Z.abs (I i) <= 23) by (intros i Hi; specialize (HI i Hi); lia).
  destruct (C121_conventional_double F HF lpow pw Hpw Hp52 9 60 1450 60 50 2 4 (t_params 9 2 50 ltac:(lia) ltac:(lia)) RM rnd s Hr Hs ltac:(lia) ltac:(lia) ltac:(lia) 23 (/ IZR (2 ^ 9))%R ct ct_m m I stc sts st pos)
    as (stc' & sts' & st' & pos' & ct' & w & E' & _ & _ & _ & Hd' & Hw); auto.
  - intros i Hi. specialize (Hm i Hi). rewrite <- abs_IZR. apply IZR_le in Hm. unfold boot_q. change (2 ^ 51) with 2251799813685248 in Hm. change (2 ^ 60) with 1152921504606846976. change (2 ^ 9) with 512. lra.
  - change (2 ^ 9) with 512. apply ft_24; lia.
  - exists stc', sts', st', pos', ct', w. split; [exact E'|]. split; [exact Hd'|].
    intros i Hi. apply Rabs_IZR_le. rewrite minus_IZR. eapply Rle_trans; [apply (Hw i Hi)|]. change (2 ^ 9) with 512. apply ft_conventional; lia.
Qed.

(** ** Instance: IEEE double precision, correctly rounded pow, a key with 128 nonzero coefficients, for which some ciphertexts of 0 have larger multiples (C79) *)
Example C121_case : exists a, length a = 512%nat /\ Forall (fun x => - 2 ^ 59 <= x < 2 ^ 59) a /\
  forall m RM rnd pos, rand_stream RM rnd -> (forall i, 0 <= i < 512 -> Z.abs (m i) <= 2 ^ 51) ->
  let ct := repS 60 512 (fun i => m i - negconv 512 (coef key128) (coef a) i) (coef a) in
  decrypts 60 512 ct (coef key128) m /\
  exists stc' sts' st' pos' ct' w, f_proposed_boot F64 pow64 60 1450 9 60 60 60 2 24 RM rnd None None None pos ct (map Some key128) = Ok (stc', sts', st', pos', ct') /\
    decrypts 250 512 ct' (coef key128) w /\ forall i, 0 <= i < 512 -> Z.abs (w i - m i) <= 2 ^ 47.
Proof.
  assert (He : (8 / IZR (10 ^ 9) < 1)%R) by (change (10 ^ 9) with 1000000000; lra).
  destruct (almost_all_one 60 512 _ _ ltac:(lia) He (C121_proposed_512 F64 pow64 _ key128 C87_binary64 pow64_within (Rle_refl _) key128_ternary ltac:(rewrite key128_norm; lia))) as (a & Hl & Ha & H).
  exists a. split; [exact Hl|]. split; [exact Ha|]. intros m RM rnd pos Hr Hm. cbv zeta.
  match goal with |- ?A /\ _ => assert (Hd : A) end.
  { apply decrypts_rep; try lia. eexists _, _. split; [reflexivity|]. apply pcong_peq. intros i Hi. unfold padd. lia. }
  split; [exact Hd|]. apply (H RM rnd _ m None None None pos Hr); auto; try apply (repP_holds 60 512); try lia; constructor.
Qed.

