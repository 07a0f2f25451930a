(** C113-C115: the two bootstrappings in floating-point arithmetic (compare C74-C77). *)
From Coq Require Import ZArith List Bool Lia Reals Lra Ring.
From Verif Require Import Base BaseFacts Sums ZQ ZQFacts RQ RQFacts Conv Rot Core CoreFacts Util UtilFacts GSum Matrix MatrixFacts MatMulFacts DFT DFTTheory DFTFacts FFTFacts
  SpecZQ SpecPoly SpecPolyFacts PolyCong SpecScheme SpecMat Properties_Mat SpecDFT Properties_DFT SpecEnc SlotFacts
  Encode EncodeFacts Properties_Conv Properties_Core Properties_Rot Properties_Enc Properties_Plain Noise SpecLin LinTrans LinTransFacts LinSlots Properties_Lin
  Bootstrap BootFacts SpecBoot BootSlots Properties_Boot Poly SpecEval EvalFacts EvalPoly SpecMod EvalMod EvalModFacts PiBound EvalModBound Properties_EvalMod SpecPipe Pipeline PipeFacts Properties_Pipe
  Float SpecFloat FloatNum Binary64 Properties_Float SpecFloatLin FloatLin FloatSerial FloatGrouped SpecFloatBoot FloatBoot FloatBootSlots FloatBootNum Properties_FloatLin FloatMod SpecFloatMod FloatModFacts FloatModBound Properties_FloatMod.
From Verif Require Import SpecFloatPipe FloatPipeFacts FloatPipe.
Import ListNotations.
Open Scope Z_scope.

Section Any.
Context (F : fpu) (u eta top t : R) (ar : arithmetic u eta top t (rnd F) (dpi F) (lcos F) (lsin F)).
Context (lpow : R -> R -> R) (pw : R) (Hpw : power_within pw lpow).
Context (LOGN LOGq LOGQ LDc LDs : Z) (G D : nat) (HP : boot_params LOGN LOGq LOGQ LDc LDs G D).
Context (RM : Z) (rnd : nat -> Z) (s : list Z) (Hr : rand_stream RM rnd).
Let N := 2 ^ LOGN.
Context (Hs : ternary N s).
Let h := norm1 N (coef s).
Let q := boot_q LOGq.
Let g := Z.of_nat G.
Let Q2 := LOGQ - Z.of_nat D * LDc - 12 * LOGq.
Let Q3 := Q2 - Z.of_nat D * LDs.
Let k := Z.to_nat (LOGN - 1).
Context (Hsmall : (table_error u eta t N <= / 64)%R) (Hbig : (IZR (2 ^ 66) <= top)%R).
(** the errors of the rows of the groups of matrices, and the largest entries *)
Let rc := cts_group_error u eta t pw LOGN G.
Let rs := stc_group_error u eta t LOGN G.
Let Bc := (Rpower 2 (- / INR D) + rc)%R.
Let Bs := (2 ^ (G - 1) + rs)%R.
Context (Hfitc : cts_group_fits u eta top t pw LOGN G) (Hfits : stc_group_fits u eta top t LOGN G).
Context (Hencc : encodable u eta top t LOGQ N k (2 ^ LDc) Bc) (Hencs : encodable u eta top t Q2 N k (2 ^ LDs) Bs).
Let dlc := f_row N (2 ^ LDc) G rc (diag_error u eta t N k Bc (2 ^ LDc)).
Let dls := f_row N (2 ^ LDs) G rs (diag_error u eta t N k Bs (2 ^ LDs)).

Let HL : 2 <= LOGN <= 27. Proof. destruct HP. lia. Qed.
Let HQ : 1 <= LOGQ. Proof. destruct HP. unfold widths in *. lia. Qed.
Let HQ2 : 1 <= Q2. Proof. destruct HP. unfold Q2. lia. Qed.
Let HLDc : 0 <= LDc < 64. Proof. destruct HP. lia. Qed.
Let HLDs : 0 <= LDs < 64. Proof. destruct HP. lia. Qed.
Let H62 : (IZR (2 ^ 62) <= top)%R. Proof. eapply Rle_trans; [|exact Hbig]. apply IZR_le. discriminate. Qed.
Let Hec : (0 <= diag_error u eta t N k Bc (2 ^ LDc))%R. Proof. apply diag_error_pos; try apply ar; [apply Z.pow_nonneg; lia|apply Hencc|apply Z.pow_nonneg; lia]. Qed.
Let Hes : (0 <= diag_error u eta t N k Bs (2 ^ LDs))%R. Proof. apply diag_error_pos; try apply ar; [apply Z.pow_nonneg; lia|apply Hencs|apply Z.pow_nonneg; lia]. Qed.
Let Ec := encodes_any F u eta top t ar LOGQ LOGN LDc Bc HQ HL HLDc Hsmall Hbig Hencc.
Let Es := encodes_any F u eta top t ar Q2 LOGN LDs Bs HQ2 HL HLDs Hsmall Hbig Hencs.

Theorem C113_conventional B dmax ct ct_m m I stc sts st pos :
  f_cts_static F lpow LOGQ LOGN LDc g stc -> f_stc_static F Q2 LOGN LDs g sts -> f_ifft_static F LOGN st ->
  mod_raise LOGq LOGQ N ct (sq_new LOGQ N) = Ok ct_m -> decrypts LOGQ N ct_m (coef s) (fun i => m i + 2 ^ LOGq * I i) ->
  (forall i, 0 <= i < N -> Z.abs (I i) <= B) -> (forall i, 0 <= i < N -> (Rabs (IZR (m i)) <= q * dmax)%R) ->
  (IZR B + dmax + f_boot_rounding N h LOGq LDc D dlc B dmax + / 4 <= 24)%R ->
  exists stc' sts' st' pos' ct' w, f_conventional_boot F lpow LOGq LOGQ LOGN LDc LOGq LDs g 24 RM rnd stc sts st pos ct (map Some s) = Ok (stc', sts', st', pos', ct') /\
    f_cts_static F lpow LOGQ LOGN LDc g stc' /\ f_stc_static F Q2 LOGN LDs g sts' /\ f_ifft_static F LOGN st' /\ decrypts Q3 N ct' (coef s) w /\
    forall i, 0 <= i < N -> (Rabs (IZR (w i) - IZR (m i)) <= q * f_conventional_error u eta N h LOGq LDc LDs G D dlc dls B dmax + IZR (1 + h) / 2)%R.
Proof. exact (conventional_core F u eta top t ar H62 lpow pw Hpw LOGN LOGq LOGQ LDc LDs G D HP RM rnd s Hr Hs Hsmall Bc _ rc Ec Hec Hfitc (Rle_refl _) (Rle_refl _) Bs _ rs Es Hes Hfits (Rle_refl _) (Rle_refl _) B dmax ct ct_m m I stc sts st pos). Qed.
Theorem C113_conventional_key B dmax ct m stc sts st pos :
  f_cts_static F lpow LOGQ LOGN LDc g stc -> f_stc_static F Q2 LOGN LDs g sts -> f_ifft_static F LOGN st ->
  decrypts LOGq N ct (coef s) m -> (forall i, 0 <= i < N -> - 2 ^ (LOGq - 1) <= m i < 2 ^ (LOGq - 1)) -> (forall i, 0 <= i < N -> (Rabs (IZR (m i)) <= q * dmax)%R) ->
  h + 2 <= 2 * B -> (IZR B + dmax + f_boot_rounding N h LOGq LDc D dlc B dmax + / 4 <= 24)%R ->
  exists stc' sts' st' pos' ct' w, f_conventional_boot F lpow LOGq LOGQ LOGN LDc LOGq LDs g 24 RM rnd stc sts st pos ct (map Some s) = Ok (stc', sts', st', pos', ct') /\
    f_cts_static F lpow LOGQ LOGN LDc g stc' /\ f_stc_static F Q2 LOGN LDs g sts' /\ f_ifft_static F LOGN st' /\ decrypts Q3 N ct' (coef s) w /\
    forall i, 0 <= i < N -> (Rabs (IZR (w i) - IZR (m i)) <= q * f_conventional_error u eta N h LOGq LDc LDs G D dlc dls B dmax + IZR (1 + h) / 2)%R.
Proof. exact (conventional_key_core F u eta top t ar H62 lpow pw Hpw LOGN LOGq LOGQ LDc LDs G D HP RM rnd s Hr Hs Hsmall Bc _ rc Ec Hec Hfitc (Rle_refl _) (Rle_refl _) Bs _ rs Es Hes Hfits (Rle_refl _) (Rle_refl _) B dmax ct m stc sts st pos). Qed.
Theorem C114_proposed B dmax ct ct_m m I stc sts st pos :
  f_cts_static F lpow LOGQ LOGN LDc g stc -> f_stc_static F Q2 LOGN LDs g sts -> f_ifft_static F LOGN st ->
  mod_raise LOGq LOGQ N ct (sq_new LOGQ N) = Ok ct_m -> decrypts LOGQ N ct_m (coef s) (fun i => m i + 2 ^ LOGq * I i) ->
  (forall i, 0 <= i < N -> Z.abs (I i) <= B) -> (forall i, 0 <= i < N -> (Rabs (IZR (m i)) <= q * dmax)%R) ->
  (IZR B + dmax + f_boot_rounding N h LOGq LDc D dlc B dmax + / 4 <= 24)%R ->
  exists stc' sts' st' pos' ct' w, f_proposed_boot F lpow LOGq LOGQ LOGN LDc LOGq LDs g 24 RM rnd stc sts st pos ct (map Some s) = Ok (stc', sts', st', pos', ct') /\
    f_cts_static F lpow LOGQ LOGN LDc g stc' /\ f_stc_static F Q2 LOGN LDs g sts' /\ f_ifft_static F LOGN st' /\ decrypts Q3 N ct' (coef s) w /\
    forall i, 0 <= i < N -> (Rabs (IZR (w i) - IZR (m i)) <= q * f_proposed_error u eta N h LOGq LDc LDs G D dlc dls B dmax + IZR (1 + h) / 2)%R.
Proof. exact (proposed_core F u eta top t ar H62 lpow pw Hpw LOGN LOGq LOGQ LDc LDs G D HP RM rnd s Hr Hs Hsmall Bc _ rc Ec Hec Hfitc (Rle_refl _) (Rle_refl _) Bs _ rs Es Hes Hfits (Rle_refl _) (Rle_refl _) B dmax ct ct_m m I stc sts st pos). Qed.
Theorem C114_proposed_key B dmax ct m stc sts st pos :
  f_cts_static F lpow LOGQ LOGN LDc g stc -> f_stc_static F Q2 LOGN LDs g sts -> f_ifft_static F LOGN st ->
  decrypts LOGq N ct (coef s) m -> (forall i, 0 <= i < N -> - 2 ^ (LOGq - 1) <= m i < 2 ^ (LOGq - 1)) -> (forall i, 0 <= i < N -> (Rabs (IZR (m i)) <= q * dmax)%R) ->
  h + 2 <= 2 * B -> (IZR B + dmax + f_boot_rounding N h LOGq LDc D dlc B dmax + / 4 <= 24)%R ->
  exists stc' sts' st' pos' ct' w, f_proposed_boot F lpow LOGq LOGQ LOGN LDc LOGq LDs g 24 RM rnd stc sts st pos ct (map Some s) = Ok (stc', sts', st', pos', ct') /\
    f_cts_static F lpow LOGQ LOGN LDc g stc' /\ f_stc_static F Q2 LOGN LDs g sts' /\ f_ifft_static F LOGN st' /\ decrypts Q3 N ct' (coef s) w /\
    forall i, 0 <= i < N -> (Rabs (IZR (w i) - IZR (m i)) <= q * f_proposed_error u eta N h LOGq LDc LDs G D dlc dls B dmax + IZR (1 + h) / 2)%R.
Proof. exact (proposed_key_core F u eta top t ar H62 lpow pw Hpw LOGN LOGq LOGQ LDc LDs G D HP RM rnd s Hr Hs Hsmall Bc _ rc Ec Hec Hfitc (Rle_refl _) (Rle_refl _) Bs _ rs Es Hes Hfits (Rle_refl _) (Rle_refl _) B dmax ct m stc sts st pos). Qed.
End Any.

(** ** Double precision *)
Section Double.
Context (F : fpu) (HF : double F).
Context (lpow : R -> R -> R) (pw : R) (Hpw : power_within pw lpow) (Hp52 : (pw <= powerRZ 2 (-52))%R).
Context (LOGN LOGq LOGQ LDc LDs : Z) (G D : nat) (HP : boot_params LOGN LOGq LOGQ LDc LDs G D).
Context (RM : Z) (rnd : nat -> Z) (s : list Z) (Hr : rand_stream RM rnd).
Let N := 2 ^ LOGN.
Context (Hs : ternary N s).
Let h := norm1 N (coef s).
Let q := boot_q LOGq.
Let g := Z.of_nat G.
Let Q2 := LOGQ - Z.of_nat D * LDc - 12 * LOGq.
Let Q3 := Q2 - Z.of_nat D * LDs.
Context (HQ48 : LOGQ <= 2048) (HLDc : 1 <= LDc <= 62 /\ LDc + 2 <= LOGQ) (HLDs : 1 <= LDs /\ LDs + g <= 63 /\ LDs + g + 1 <= Q2).
(** the rows of the groups err by 2^-40 and 2^-37 before encoding; encoding adds 2^-41 of the scaled entries *)
Let dlc := f_row N (2 ^ LDc) G (powerRZ 2 (-40)) (enc41 2 (2 ^ LDc)).
Let dls := f_row N (2 ^ LDs) G (powerRZ 2 (-37)) (enc41 (2 ^ G) (2 ^ LDs)).

Let HL : 2 <= LOGN <= 17. Proof. destruct HP. lia. Qed.
Let HG : (1 <= G <= 4)%nat. Proof. destruct HP. lia. Qed.
Let HQ : 1 <= LOGQ <= 2048. Proof. destruct HP. unfold widths in *. lia. Qed.
Let HQ2 : 1 <= Q2 <= 2048. Proof. destruct HP. unfold Q2. lia. Qed.
Let HLDc' : 0 <= LDc < 64. Proof. lia. Qed.
Let HLDs' : 0 <= LDs < 64. Proof. lia. Qed.
Let D1 : (1 <= D)%nat. Proof. destruct HP. nia. Qed.
Let Hpu : (0 <= pw <= 2 * u64)%R.
Proof. split; [apply Hpw|]. pose proof (u_is 1 ltac:(lia)) as U. change (2 ^ 1) with 2 in U. rewrite U. exact Hp52. Qed.
Let H40 : (powerRZ 2 (-40) <= 1)%R. Proof. rewrite p40. pose proof u_small. lra. Qed.
Let H37 : (powerRZ 2 (-37) <= 1)%R. Proof. rewrite p37. pose proof u_small. lra. Qed.
Let Hc := num_cts_group LOGN HL pw G HG Hpu.
Let Hst := num_stc_group LOGN HL G HG.
Let HBc : (Rpower 2 (- / INR D) + cts_group_error u64 eta64 t64 pw LOGN G <= 2)%R.
Proof. pose proof (cts_row_le D D1). destruct Hc as [[_ X] _]. lra. Qed.
Let HBs : (2 ^ (G - 1) + stc_group_error u64 eta64 t64 LOGN G <= 2 ^ G)%R.
Proof.
  assert (Hg1 : (1 <= 2 ^ (G - 1))%R) by (apply pow_R1_Rle; lra). assert (Hg2 : (2 ^ G = 2 * 2 ^ (G - 1))%R) by (rewrite (tech_pow_Rmult 2 (G - 1)); f_equal; lia).
  destruct Hst as [[_ X] _]. lra.
Qed.
Let Ec : encodes_within F LOGQ LOGN LDc 2 (enc41 2 (2 ^ LDc)).
Proof.
  assert (Hd2 : (2 <= IZR (2 ^ LDc))%R) by (apply IZR_le; change 2 with (2 ^ 1) at 1; apply Z.pow_le_mono_r; lia).
  assert (P4 : forall x, LDc + 2 <= x -> (4 * IZR (2 ^ LDc) <= IZR (2 ^ x))%R).
  { intros x Hx. rewrite <- mult_IZR. apply IZR_le. change 4 with (2 ^ 2). rewrite <- Z.pow_add_r by lia. apply Z.pow_le_mono_r; lia. }
  pose proof (enc41_small 2 (2 ^ LDc) ltac:(lra)) as Hs2. pose proof (P4 64 ltac:(lia)) as Q1. pose proof (P4 LOGQ ltac:(lia)) as Q2'.
  apply encodes_double; auto; lra.
Qed.
Let Es : encodes_within F Q2 LOGN LDs (2 ^ G) (enc41 (2 ^ G) (2 ^ LDs)).
Proof.
  assert (Hg1 : (1 <= 2 ^ (G - 1))%R) by (apply pow_R1_Rle; lra). assert (Hg2 : (2 ^ G = 2 * 2 ^ (G - 1))%R) by (rewrite (tech_pow_Rmult 2 (G - 1)); f_equal; lia).
  assert (Hd2 : (2 <= IZR (2 ^ LDs))%R) by (apply IZR_le; change 2 with (2 ^ 1) at 1; apply Z.pow_le_mono_r; lia).
  assert (P4 : forall x, LDs + g + 1 <= x -> (2 * (2 ^ G * IZR (2 ^ LDs)) <= IZR (2 ^ x))%R).
  { intros x Hx. rewrite pow_IZR, <- !mult_IZR. apply IZR_le. unfold g in Hx. rewrite <- Z.pow_add_r, <- Z.pow_succ_r by lia. apply Z.pow_le_mono_r; lia. }
  assert (Hx : (4 <= 2 ^ G * IZR (2 ^ LDs))%R) by (rewrite Hg2; nra).
  pose proof (enc41_small (2 ^ G) (2 ^ LDs) ltac:(lra)) as Hs2. pose proof (P4 64 ltac:(lia)) as Q1. pose proof (P4 Q2 ltac:(lia)) as Q2'.
  apply encodes_double; auto; lra.
Qed.
Let Hec : (0 <= enc41 2 (2 ^ LDc))%R. Proof. apply enc41_pos; [lra|apply Z.pow_nonneg; lia]. Qed.
Let Hes : (0 <= enc41 (2 ^ G) (2 ^ LDs))%R. Proof. apply enc41_pos; [apply pow_le; lra|apply Z.pow_nonneg; lia]. Qed.

Theorem C113_conventional_double B dmax ct m stc sts st pos :
  f_cts_static F lpow LOGQ LOGN LDc g stc -> f_stc_static F Q2 LOGN LDs g sts -> f_ifft_static F LOGN st ->
  decrypts LOGq N ct (coef s) m -> (forall i, 0 <= i < N -> - 2 ^ (LOGq - 1) <= m i < 2 ^ (LOGq - 1)) -> (forall i, 0 <= i < N -> (Rabs (IZR (m i)) <= q * dmax)%R) ->
  h + 2 <= 2 * B -> (IZR B + dmax + f_boot_rounding N h LOGq LDc D dlc B dmax + / 4 <= 24)%R ->
  exists stc' sts' st' pos' ct' w, f_conventional_boot F lpow LOGq LOGQ LOGN LDc LOGq LDs g 24 RM rnd stc sts st pos ct (map Some s) = Ok (stc', sts', st', pos', ct') /\
    f_cts_static F lpow LOGQ LOGN LDc g stc' /\ f_stc_static F Q2 LOGN LDs g sts' /\ f_ifft_static F LOGN st' /\ decrypts Q3 N ct' (coef s) w /\
    forall i, 0 <= i < N -> (Rabs (IZR (w i) - IZR (m i)) <= q * f_conventional_error u64 eta64 N h LOGq LDc LDs G D dlc dls B dmax + IZR (1 + h) / 2)%R.
Proof. exact (conventional_key_core F u64 eta64 top64 t64 HF (top64_big 62 ltac:(lia)) lpow pw Hpw LOGN LOGq LOGQ LDc LDs G D HP RM rnd s Hr Hs (num_small LOGN HL) 2 _ _ Ec Hec (proj2 Hc) HBc (proj2 (proj1 Hc)) (2 ^ G) _ _ Es Hes (proj2 Hst) HBs (proj2 (proj1 Hst)) B dmax ct m stc sts st pos). Qed.
Theorem C114_proposed_double B dmax ct m stc sts st pos :
  f_cts_static F lpow LOGQ LOGN LDc g stc -> f_stc_static F Q2 LOGN LDs g sts -> f_ifft_static F LOGN st ->
  decrypts LOGq N ct (coef s) m -> (forall i, 0 <= i < N -> - 2 ^ (LOGq - 1) <= m i < 2 ^ (LOGq - 1)) -> (forall i, 0 <= i < N -> (Rabs (IZR (m i)) <= q * dmax)%R) ->
  h + 2 <= 2 * B -> (IZR B + dmax + f_boot_rounding N h LOGq LDc D dlc B dmax + / 4 <= 24)%R ->
  exists stc' sts' st' pos' ct' w, f_proposed_boot F lpow LOGq LOGQ LOGN LDc LOGq LDs g 24 RM rnd stc sts st pos ct (map Some s) = Ok (stc', sts', st', pos', ct') /\
    f_cts_static F lpow LOGQ LOGN LDc g stc' /\ f_stc_static F Q2 LOGN LDs g sts' /\ f_ifft_static F LOGN st' /\ decrypts Q3 N ct' (coef s) w /\
    forall i, 0 <= i < N -> (Rabs (IZR (w i) - IZR (m i)) <= q * f_proposed_error u64 eta64 N h LOGq LDc LDs G D dlc dls B dmax + IZR (1 + h) / 2)%R.
Proof. exact (proposed_key_core F u64 eta64 top64 t64 HF (top64_big 62 ltac:(lia)) lpow pw Hpw LOGN LOGq LOGQ LDc LDs G D HP RM rnd s Hr Hs (num_small LOGN HL) 2 _ _ Ec Hec (proj2 Hc) HBc (proj2 (proj1 Hc)) (2 ^ G) _ _ Es Hes (proj2 Hst) HBs (proj2 (proj1 Hst)) B dmax ct m stc sts st pos). Qed.
Theorem C115_conventional_experiment B dmax stc sts st pos pt m :
  f_cts_static F lpow LOGQ LOGN LDc g stc -> f_stc_static F Q2 LOGN LDs g sts -> f_ifft_static F LOGN st ->
  holdsP LOGq N pt m -> (forall i, 0 <= i < N -> - 2 ^ (LOGq - 1) <= m i - 8 /\ m i + 8 < 2 ^ (LOGq - 1)) -> (forall i, 0 <= i < N -> (Rabs (IZR (m i)) + 8 <= q * dmax)%R) ->
  h + 2 <= 2 * B -> (IZR B + dmax + f_boot_rounding N h LOGq LDc D dlc B dmax + / 4 <= 24)%R ->
  exists e d, boot_experiment LOGq LOGQ LOGN LDc LOGq LDs g RM rnd (f_conventional_boot F lpow LOGq LOGQ LOGN LDc LOGq LDs g 24 RM rnd) stc sts st pos pt (map Some s) = Ok e /\ holdsP Q3 N e d /\
    forall i, 0 <= i < N -> (Rabs (IZR (d i)) <= q * f_conventional_error u64 eta64 N h LOGq LDc LDs G D dlc dls B dmax + IZR (1 + h) / 2 + 8)%R.
Proof. exact (conventional_experiment_core F u64 eta64 top64 t64 HF (top64_big 62 ltac:(lia)) lpow pw Hpw LOGN LOGq LOGQ LDc LDs G D HP RM rnd s Hr Hs (num_small LOGN HL) 2 _ _ Ec Hec (proj2 Hc) HBc (proj2 (proj1 Hc)) (2 ^ G) _ _ Es Hes (proj2 Hst) HBs (proj2 (proj1 Hst)) B dmax stc sts st pos pt m). Qed.
Theorem C115_proposed_experiment B dmax stc sts st pos pt m :
  f_cts_static F lpow LOGQ LOGN LDc g stc -> f_stc_static F Q2 LOGN LDs g sts -> f_ifft_static F LOGN st ->
  holdsP LOGq N pt m -> (forall i, 0 <= i < N -> - 2 ^ (LOGq - 1) <= m i - 8 /\ m i + 8 < 2 ^ (LOGq - 1)) -> (forall i, 0 <= i < N -> (Rabs (IZR (m i)) + 8 <= q * dmax)%R) ->
  h + 2 <= 2 * B -> (IZR B + dmax + f_boot_rounding N h LOGq LDc D dlc B dmax + / 4 <= 24)%R ->
  exists e d, boot_experiment LOGq LOGQ LOGN LDc LOGq LDs g RM rnd (f_proposed_boot F lpow LOGq LOGQ LOGN LDc LOGq LDs g 24 RM rnd) stc sts st pos pt (map Some s) = Ok e /\ holdsP Q3 N e d /\
    forall i, 0 <= i < N -> (Rabs (IZR (d i)) <= q * f_proposed_error u64 eta64 N h LOGq LDc LDs G D dlc dls B dmax + IZR (1 + h) / 2 + 8)%R.
Proof. exact (proposed_experiment_core F u64 eta64 top64 t64 HF (top64_big 62 ltac:(lia)) lpow pw Hpw LOGN LOGq LOGQ LDc LDs G D HP RM rnd s Hr Hs (num_small LOGN HL) 2 _ _ Ec Hec (proj2 Hc) HBc (proj2 (proj1 Hc)) (2 ^ G) _ _ Es Hes (proj2 Hst) HBs (proj2 (proj1 Hst)) B dmax stc sts st pos pt m). Qed.
End Double.

(** ** Numbers: dimension 512, scale 2^60, groups of two matrices, SlotToCoeff with scale 2^50, as in C77 *)
Section Numbers.
Context (LDc h : Z) (HLDc : 40 <= LDc <= 60) (Hh : 0 <= h <= 44).
Let dmax := (/ IZR (2 ^ 8))%R.
Let E := boot_noise 512 h.
Let dlc := f_row 512 (2 ^ LDc) 2 (powerRZ 2 (-40)) (enc41 2 (2 ^ LDc)).
Let dls := f_row 512 (2 ^ 50) 2 (powerRZ 2 (-37)) (enc41 (2 ^ 2) (2 ^ 50)).
Let Q60 : (0 < IZR (2 ^ 60))%R. Proof. apply IZR_lt. reflexivity. Qed.
Lemma f_row_bound B Delta x : (0 <= B)%R -> (IZR (2 ^ 40) <= IZR Delta)%R -> (0 <= x)%R ->
  (0 <= f_row 512 Delta 2 x (enc41 B Delta) <= x + 4608 * (/ (2 * IZR (2 ^ 40)) + (4096 * B + 1) / 9007199254740992))%R.
Proof.
  intros HB HD Hx. unfold f_row, encoded_error, enc41. change (3 ^ Z.of_nat 2) with 9. rewrite (p41 2).
  assert (H9 : (0 < powerRZ 2 (-900) <= u64)%R) by (split; [apply p2_pos|]; unfold u64; apply p2_le; lia). pose proof u_small as Hu.
  change (2 ^ 40) with 1099511627776 in *. assert (Hi : (0 < / IZR Delta <= / 1099511627776)%R) by (split; [apply Rinv_0_lt_compat; lra|apply Rinv_le_contravar; lra]).
  set (y := IZR Delta) in *. set (w := powerRZ 2 (-900)) in *.
  replace ((/ 2 + (4096 * u64 * (B * y) + w)) / y)%R with (/ 2 * / y + 4096 * (u64 * B) + w * / y)%R by (field; lra).
  assert (W : (0 <= w * / y <= / 9007199254740992 * 1)%R) by (split; [apply Rmult_le_pos; lra|apply Rmult_le_compat; lra]).
  assert (UB : (0 <= u64 * B <= / 9007199254740992 * B)%R) by (split; [apply Rmult_le_pos; lra|apply Rmult_le_compat_r; lra]). lra.
Qed.
Lemma f_num_rounding : (0 <= f_boot_rounding 512 h 60 LDc 4 dlc 23 dmax <= 7 / IZR (10 ^ 4))%R.
Proof.
  unfold f_boot_rounding, f_cts_rounding. fold E.
  assert (Ha : forall d : nat, (0 <= Rpower 2 (- / INR 4) <= 1)%R).
  { intros _. split; [apply Rlt_le; unfold Rpower; apply exp_pos|]. rewrite <- (Rpower_O 2) by lra. apply Rle_Rpower; [lra|]. change (INR 4) with (1 + 1 + 1 + 1)%R. lra. }
  assert (Hz : (0 <= IZR 512 * (IZR 23 + dmax) <= 11778)%R) by (unfold dmax; change (2 ^ 8) with 256; lra).
  assert (Hd : (0 <= dlc <= 65 / 10000000000)%R).
  { pose proof (f_row_bound 2 (2 ^ LDc) (powerRZ 2 (-40)) ltac:(lra) ltac:(apply IZR_le, Z.pow_le_mono_r; lia) ltac:(apply Rlt_le, p2_pos)) as H. fold dlc in H. rewrite p40 in H. pose proof u_small.
    change (2 ^ 40) with 1099511627776 in H. lra. }
  destruct (size_error_mono _ (fun _ => 1%R) _ _ _ _ _ (fun _ => 2 / IZR (10 ^ 12))%R 4 Ha Hd Hz (num_k LDc h HLDc Hh)) as [_ [H1 H2]]. change (boot_q 60) with (IZR (2 ^ 60)). split; [fold E in H1; lra|].
  eapply Rle_trans; [apply Rmult_le_compat_l; [lra|exact H2]|]. cbn [error_after size_after]. change (10 ^ 12) with 1000000000000. change (10 ^ 4) with 10000. lra.
Qed.
Lemma f_num_mod_error : (0 <= f_boot_mod_error u64 eta64 512 h 60 LDc 4 dlc 23 dmax <= 5 / IZR (10 ^ 9))%R.
Proof.
  unfold f_boot_mod_error. pose proof (num_cts_noise LDc h HLDc Hh) as Hc. pose proof f_num_rounding as Hr. set (e := boot_cts_noise 512 h 60 LDc 4) in *. set (rho := f_boot_rounding 512 h 60 LDc 4 dlc 23 dmax) in *.
  assert (Hi : (0 <= IZR (1 + h) <= 45)%R) by (split; apply IZR_le; lia).
  pose proof u_small as Hu. pose proof eta_pos as Heta. pose proof (eta_u 10 ltac:(lia) ltac:(lia)) as Heu. change (2 ^ 10) with 1024 in Heu.
  change (10 ^ 15) with 1000000000000000 in *.
  assert (Hb : (0 <= f_evalmod_error u64 eta64 512 h (boot_q 60) 24 e <= 340000 * (12 / IZR (10 ^ 15)) + 3 / IZR (10 ^ 12))%R).
  { apply f_evalmod_error_bound; try lia; try lra; try exact Q60.
    - change (8 * 10 ^ 15) with 8000000000000000. lra.
    - assert (Hin : (f_em_in u64 eta64 (boot_q 60) 24 e <= e + 4 / 1000000000000000)%R).
      { unfold f_em_in, boot_q. change (2 ^ 60) with 1152921504606846976. assert (Hx : ((u64 + 24 * (eta64 / 1152921504606846976)) * (e + 24 + 2) <= 11 / 10 * / 9007199254740992 * 27)%R) by (apply Rmult_le_compat; lra). lra. }
      unfold em_arg_error, rescale_noise, mul_noise, boot_q in *. replace (8 * 512 + 1 + h) with (4096 + (1 + h)) by lia. rewrite (plus_IZR 4096). change (10 ^ 15) with 1000000000000000.
      change (2 ^ 60) with 1152921504606846976 in *. lra. }
  assert (P : (0 <= 6 / 5 * PI ^ 4 <= 117)%R).
  { destruct PI_bounds as [P1 P2]. pose proof PI_RGT_0. assert (PI <= 3.1416)%R by lra. assert (PI * PI <= 9.86966)%R by nra. assert (0 <= PI * PI)%R by nra. split; [|nra].
    apply Rmult_le_pos; [lra|apply pow_le; lra]. }
  assert (X : (0 <= (dmax + rho) ^ 5 <= (/ 200) ^ 5)%R).
  { assert (Hx : (0 <= dmax + rho <= / 200)%R) by (revert Hr; unfold dmax; change (2 ^ 8) with 256; change (10 ^ 4) with 10000; lra). split; [apply pow_le; lra|apply pow_incr; lra]. }
  assert (Y : (0 <= 6 / 5 * PI ^ 4 * (dmax + rho) ^ 5 <= 117 * (/ 200) ^ 5)%R) by (split; [apply Rmult_le_pos; lra|apply Rmult_le_compat; lra]).
  change (10 ^ 15) with 1000000000000000 in *. change (10 ^ 12) with 1000000000000 in *. change (10 ^ 9) with 1000000000. cbn [pow] in Y |- *. lra.
Qed.
Lemma f_num_stc z z' r : (0 <= z <= z')%R -> (2 * error_after (fun _ => 4) (86 / IZR (10 ^ 10)) z' (fun _ => 2 / IZR (10 ^ 12)) 4 <= r)%R ->
  (f_stc_error 512 (2 ^ 50) E 2 4 dls z (boot_q 60) <= r)%R.
Proof.
  intros Hz Hr. unfold f_stc_error. assert (Hd : (0 <= dls <= 86 / IZR (10 ^ 10))%R).
  { pose proof (f_row_bound (2 ^ 2) (2 ^ 50) (powerRZ 2 (-37)) ltac:(lra) ltac:(apply IZR_le; lia) ltac:(apply Rlt_le, p2_pos)) as H. fold dls in H. rewrite p37 in H. pose proof u_small.
    assert (H' : dls = (powerRZ 2 (-37) + 4608 * (/ (2 * IZR (2 ^ 50)) + 16384 * u64 + powerRZ 2 (-900) / IZR (2 ^ 50)))%R).
    { unfold dls, f_row, encoded_error, enc41. change (3 ^ Z.of_nat 2) with 9. rewrite (p41 2). change (2 ^ 50) with 1125899906842624. field. }
    assert (H9 : (0 < powerRZ 2 (-900) <= u64)%R) by (split; [apply p2_pos|]; unfold u64; apply p2_le; lia).
    split; [apply H|]. rewrite H', p37. change (2 ^ 50) with 1125899906842624. change (10 ^ 10) with 10000000000. lra. }
  assert (Ha : forall d : nat, (0 <= 2 ^ 2 <= 4)%R) by (intros _; lra).
  destruct (size_error_mono _ (fun _ => 4%R) _ _ _ _ _ (fun _ => 2 / IZR (10 ^ 12))%R 4 Ha Hd Hz (num_ks h Hh)) as [_ [H1 H2]]. change (boot_q 60) with (IZR (2 ^ 60)). fold E in H2. lra.
Qed.
Lemma f_num_proposed : (IZR (2 ^ 60) * f_proposed_error u64 eta64 512 h 60 LDc 50 2 4 dlc dls 23 dmax + IZR (1 + h) / 2 <= IZR (2 ^ 47))%R.
Proof.
  assert (Hi : (0 <= IZR (1 + h) <= 45)%R) by (split; apply IZR_le; lia).
  unfold f_proposed_error. fold E. pose proof (num_cts_noise LDc h HLDc Hh) as Hc. pose proof f_num_mod_error as Hm. set (e := boot_cts_noise 512 h 60 LDc 4) in *. set (em := f_boot_mod_error _ _ 512 h 60 LDc 4 dlc 23 dmax) in *.
  change (10 ^ 15) with 1000000000000000 in *. change (10 ^ 9) with 1000000000 in *.
  assert (H' : (f_stc_error 512 (2 ^ 50) E 2 4 dls (IZR 23 + (e + em)) (boot_q 60) <= 12 / 100000)%R).
  { apply (f_num_stc _ (231 / 10)); [lra|]. cbn [error_after size_after]. change (10 ^ 12) with 1000000000000. change (10 ^ 10) with 10000000000. lra. }
  change (2 ^ 60) with 1152921504606846976. change (2 ^ 47) with 140737488355328. lra.
Qed.
Lemma f_num_conventional : (IZR (2 ^ 60) * f_conventional_error u64 eta64 512 h 60 LDc 50 2 4 dlc dls 23 dmax + IZR (1 + h) / 2 <= IZR (2 ^ 51))%R.
Proof.
  assert (Hi : (0 <= IZR (1 + h) <= 45)%R) by (split; apply IZR_le; lia).
  unfold f_conventional_error. fold E. pose proof f_num_rounding as Hr. pose proof f_num_mod_error as Hm. set (rho := f_boot_rounding 512 h 60 LDc 4 dlc 23 dmax) in *. set (em := f_boot_mod_error _ _ 512 h 60 LDc 4 dlc 23 dmax) in *.
  change (10 ^ 4) with 10000 in *. change (10 ^ 9) with 1000000000 in *.
  assert (H' : (f_stc_error 512 (2 ^ 50) E 2 4 dls (dmax + rho + em) (boot_q 60) <= 1 / 10000000)%R).
  { apply (f_num_stc _ (/ 200)); [unfold dmax; change (2 ^ 8) with 256; lra|]. cbn [error_after size_after]. change (10 ^ 12) with 1000000000000. change (10 ^ 10) with 10000000000. lra. }
  change (2 ^ 60) with 1152921504606846976. change (2 ^ 51) with 2251799813685248. lra.
Qed.
Lemma f_num_24 : (IZR 23 + dmax + f_boot_rounding 512 h 60 LDc 4 dlc 23 dmax + / 4 <= 24)%R.
Proof. pose proof f_num_rounding as Hr. revert Hr. unfold dmax. change (2 ^ 8) with 256. change (10 ^ 4) with 10000. lra. Qed.
End Numbers.

(** the proposed bootstrapping with matrices, coefficients and constants in double precision *)
Theorem C115_proposed_512 : forall F lpow pw LDc RM rnd s ct m stc sts st pos, double F -> power_within pw lpow -> (pw <= powerRZ 2 (-52))%R ->
  40 <= LDc <= 60 -> rand_stream RM rnd -> ternary 512 s -> norm1 512 (coef s) <= 44 ->
  f_cts_static F lpow 1450 9 LDc 2 stc -> f_stc_static F (730 - 4 * LDc) 9 50 2 sts -> f_ifft_static F 9 st ->
  decrypts 60 512 ct (coef s) m -> (forall i, 0 <= i < 512 -> Z.abs (m i) <= 2 ^ 52) ->
  exists stc' sts' st' pos' ct' w, f_proposed_boot F lpow 60 1450 9 LDc 60 50 2 24 RM rnd stc sts st pos ct (map Some s) = Ok (stc', sts', st', pos', ct') /\
    decrypts (530 - 4 * LDc) 512 ct' (coef s) w /\ forall i, 0 <= i < 512 -> Z.abs (w i - m i) <= 2 ^ 47.
Proof.
  intros F lpow pw LDc RM rnd s ct m stc sts st pos HF Hpw Hp52 HL Hr Hs Hh Hstc Hsts Hst Hd Hm. assert (Hh0 : 0 <= norm1 512 (coef s)) by (apply norm1_nonneg).
  assert (E1 : 1450 - Z.of_nat 4 * LDc - 12 * 60 = 730 - 4 * LDc) by lia. 
  destruct (C114_proposed_double F HF lpow pw Hpw Hp52 9 60 1450 LDc 50 2 4 (num_params LDc HL) RM rnd s Hr Hs ltac:(lia) ltac:(lia) ltac:(lia) 23 (/ IZR (2 ^ 8))%R ct m stc sts st pos)
    as (stc' & sts' & st' & pos' & ct' & w & E & _ & _ & _ & Hd' & Hw); auto.
  - rewrite E1. exact Hsts.
  - intros i Hi. specialize (Hm i Hi). lia.
  - intros i Hi. specialize (Hm i Hi). rewrite <- abs_IZR. apply IZR_le in Hm. unfold boot_q. change (2 ^ 52) with 4503599627370496 in Hm. change (2 ^ 60) with 1152921504606846976. change (2 ^ 8) with 256. lra.
  - change (2 ^ 9) with 512. lia.
  - change (2 ^ 9) with 512. apply f_num_24; lia.
  - exists stc', sts', st', pos', ct', w. split; [exact E|]. split.
    + replace (530 - 4 * LDc) with (1450 - Z.of_nat 4 * LDc - 12 * 60 - Z.of_nat 4 * 50) by lia. exact Hd'.
    + intros i Hi. apply Rabs_IZR_le. rewrite minus_IZR. eapply Rle_trans; [apply (Hw i Hi)|]. change (2 ^ 9) with 512. apply f_num_proposed; lia.
Qed.
Theorem C115_conventional_512 : forall F lpow pw LDc RM rnd s ct m stc sts st pos, double F -> power_within pw lpow -> (pw <= powerRZ 2 (-52))%R ->
  40 <= LDc <= 60 -> rand_stream RM rnd -> ternary 512 s -> norm1 512 (coef s) <= 44 ->
  f_cts_static F lpow 1450 9 LDc 2 stc -> f_stc_static F (730 - 4 * LDc) 9 50 2 sts -> f_ifft_static F 9 st ->
  decrypts 60 512 ct (coef s) m -> (forall i, 0 <= i < 512 -> Z.abs (m i) <= 2 ^ 52) ->
  exists stc' sts' st' pos' ct' w, f_conventional_boot F lpow 60 1450 9 LDc 60 50 2 24 RM rnd stc sts st pos ct (map Some s) = Ok (stc', sts', st', pos', ct') /\
    decrypts (530 - 4 * LDc) 512 ct' (coef s) w /\ forall i, 0 <= i < 512 -> Z.abs (w i - m i) <= 2 ^ 51.
Proof.
  intros F lpow pw LDc RM rnd s ct m stc sts st pos HF Hpw Hp52 HL Hr Hs Hh Hstc Hsts Hst Hd Hm. assert (Hh0 : 0 <= norm1 512 (coef s)) by (apply norm1_nonneg).
  assert (E1 : 1450 - Z.of_nat 4 * LDc - 12 * 60 = 730 - 4 * LDc) by lia. 
  destruct (C113_conventional_double F HF lpow pw Hpw Hp52 9 60 1450 LDc 50 2 4 (num_params LDc HL) RM rnd s Hr Hs ltac:(lia) ltac:(lia) ltac:(lia) 23 (/ IZR (2 ^ 8))%R ct m stc sts st pos)
    as (stc' & sts' & st' & pos' & ct' & w & E & _ & _ & _ & Hd' & Hw); auto.
  - rewrite E1. exact Hsts.
  - intros i Hi. specialize (Hm i Hi). lia.
  - intros i Hi. specialize (Hm i Hi). rewrite <- abs_IZR. apply IZR_le in Hm. unfold boot_q. change (2 ^ 52) with 4503599627370496 in Hm. change (2 ^ 60) with 1152921504606846976. change (2 ^ 8) with 256. lra.
  - change (2 ^ 9) with 512. lia.
  - change (2 ^ 9) with 512. apply f_num_24; lia.
  - exists stc', sts', st', pos', ct', w. split; [exact E|]. split.
    + replace (530 - 4 * LDc) with (1450 - Z.of_nat 4 * LDc - 12 * 60 - Z.of_nat 4 * 50) by lia. exact Hd'.
    + intros i Hi. apply Rabs_IZR_le. rewrite minus_IZR. eapply Rle_trans; [apply (Hw i Hi)|]. change (2 ^ 9) with 512. apply f_num_conventional; lia.
Qed.

(** The hypotheses of C113 and C114 in any arithmetic hold for IEEE double precision. *)
Example C113_C114_hypotheses_case : boot_params 9 60 1450 60 50 2 4 /\
  (table_error u64 eta64 t64 (2 ^ 9) <= / 64)%R /\ (IZR (2 ^ 66) <= top64)%R /\ cts_group_fits u64 eta64 top64 t64 (powerRZ 2 (-52)) 9 2 /\ stc_group_fits u64 eta64 top64 t64 9 2 /\
  encodable u64 eta64 top64 t64 1450 (2 ^ 9) (Z.to_nat (9 - 1)) (2 ^ 60) (Rpower 2 (- / INR 4) + cts_group_error u64 eta64 t64 (powerRZ 2 (-52)) 9 2) /\
  encodable u64 eta64 top64 t64 490 (2 ^ 9) (Z.to_nat (9 - 1)) (2 ^ 50) (2 ^ (2 - 1) + stc_group_error u64 eta64 t64 9 2).
Proof.
  pose proof u_small as Hu. pose proof (u_is 1 ltac:(lia)) as U. change (2 ^ 1) with 2 in U. change (1 - 53) with (-52) in U.
  destruct (num_cts_group 9 ltac:(lia) (powerRZ 2 (-52)) 2 ltac:(lia) ltac:(rewrite <- U; lra)) as [E1 F1]. destruct (num_stc_group 9 ltac:(lia) 2 ltac:(lia)) as [E2 F2]. rewrite p40 in E1. rewrite p37 in E2.
  pose proof (cts_row_le 4 ltac:(lia)) as Hrow. assert (Hpos : (0 < Rpower 2 (- / INR 4))%R) by (unfold Rpower; apply exp_pos).
  split; [apply num_params; lia|]. split; [apply num_small; lia|]. split; [apply top64_big; lia|]. split; [exact F1|]. split; [exact F2|]. cbn [Nat.sub pow].
  set (x1 := cts_group_error _ _ _ _ _ _) in *. set (x2 := stc_group_error _ _ _ _ _) in *. set (y := Rpower _ _) in *. clearbody x1 x2 y.
  pose proof (enc41_small (y + x1) (2 ^ 60)) as X. pose proof (enc41_small (2 * 1 + x2) (2 ^ 50)) as Y.
  assert (M1 : (IZR (2 ^ 60) * 16 <= IZR (2 ^ 64))%R) by (rewrite <- mult_IZR; apply IZR_le; lia). assert (M2 : (IZR (2 ^ 60) * 16 <= IZR (2 ^ 1450))%R) by (rewrite <- mult_IZR; apply IZR_le; apply Z.leb_le; vm_compute; reflexivity).
  assert (M3 : (IZR (2 ^ 50) * 16 <= IZR (2 ^ 64))%R) by (rewrite <- mult_IZR; apply IZR_le; lia). assert (M4 : (IZR (2 ^ 50) * 16 <= IZR (2 ^ 490))%R) by (rewrite <- mult_IZR; apply IZR_le; apply Z.leb_le; vm_compute; reflexivity).
  set (a64 := IZR (2 ^ 64)) in *. set (a1450 := IZR (2 ^ 1450)) in *. set (a490 := IZR (2 ^ 490)) in *. change (2 ^ 60) with 1152921504606846976 in X, M1, M2. change (2 ^ 50) with 1125899906842624 in Y, M3, M4.
  split; apply encodable_double; fold a64 a1450 a490; change (2 ^ 60) with 1152921504606846976; change (2 ^ 50) with 1125899906842624; lia || lra.
Qed.
(** A ciphertext, with IEEE double precision and a correctly rounded pow; the slots of the plaintext and the key are those of C77_case. *)
Example C115_case RM rnd pos : rand_stream RM rnd ->
  decrypts 60 512 pipe_ct (coef pipe_key) pipe_m /\
  (exists stc sts st pos' ct' w, f_proposed_boot F64 pow64 60 1450 9 45 60 50 2 24 RM rnd None None None pos pipe_ct (map Some pipe_key) = Ok (stc, sts, st, pos', ct') /\
    decrypts 350 512 ct' (coef pipe_key) w /\ forall i, 0 <= i < 512 -> Z.abs (w i - pipe_m i) <= 2 ^ 47) /\
  (exists stc sts st pos' ct' w, f_conventional_boot F64 pow64 60 1450 9 60 60 50 2 24 RM rnd None None None pos pipe_ct (map Some pipe_key) = Ok (stc, sts, st, pos', ct') /\
    decrypts 290 512 ct' (coef pipe_key) w /\ forall i, 0 <= i < 512 -> Z.abs (w i - pipe_m i) <= 2 ^ 51) /\
  exists e d, boot_experiment 60 1450 9 60 60 50 2 RM rnd (f_proposed_boot F64 pow64 60 1450 9 60 60 50 2 24 RM rnd) None None None pos (repP 60 512 pipe_m) (map Some pipe_key) = Ok e /\ holdsP 290 512 e d /\
    forall i, 0 <= i < 512 -> Z.abs (d i) <= 2 ^ 47 + 8.
Proof.
  intros Hr. assert (Hd : decrypts 60 512 pipe_ct (coef pipe_key) pipe_m).
  { apply decrypts_rep; try lia. eexists _, _. split; [reflexivity|]. apply pcong_peq. intros i Hi. unfold padd. lia. }
  assert (Hm : forall i, 0 <= i < 512 -> Z.abs (pipe_m i) <= 2 ^ 52) by (intros i Hi; pose proof (pipe_small i Hi); lia).
  split; [exact Hd|]. split; [|split].
  - apply (C115_proposed_512 F64 pow64 _ 45 RM rnd pipe_key pipe_ct pipe_m None None None pos C87_binary64 pow64_within (Rle_refl _)); auto using pipe_key_ternary; try lia; try constructor. rewrite pipe_key_norm. lia.
  - apply (C115_conventional_512 F64 pow64 _ 60 RM rnd pipe_key pipe_ct pipe_m None None None pos C87_binary64 pow64_within (Rle_refl _)); auto using pipe_key_ternary; try lia; try constructor. rewrite pipe_key_norm. lia.
  - destruct (C115_proposed_experiment F64 C87_binary64 pow64 _ pow64_within (Rle_refl _) 9 60 1450 60 50 2 4 (num_params 60 ltac:(lia)) RM rnd pipe_key Hr pipe_key_ternary ltac:(lia) ltac:(lia) ltac:(lia) 23 (/ IZR (2 ^ 8))%R None None None pos (repP 60 512 pipe_m) pipe_m) as (e & d & E & He & Hd'); [constructor|constructor|constructor| | | | | |].
    + apply repP_holds; lia.
    + intros i Hi. pose proof (pipe_small i Hi). lia.
    + intros i Hi. pose proof (pipe_small i Hi) as Hs. apply IZR_le in Hs. rewrite abs_IZR in Hs. unfold boot_q. change (2 ^ 48 - 8) with 281474976710648 in Hs. change (2 ^ 60) with 1152921504606846976. change (2 ^ 8) with 256. lra.
    + change (2 ^ 9) with 512. rewrite pipe_key_norm. lia.
    + change (2 ^ 9) with 512. apply f_num_24; [lia|]. rewrite pipe_key_norm. lia.
    + exists e, d. split; [exact E|]. split; [exact He|]. intros i Hi. apply Rabs_IZR_le. eapply Rle_trans; [apply (Hd' i Hi)|]. rewrite (plus_IZR (2 ^ 47)). change (2 ^ 9) with 512.
      apply Rplus_le_compat_r. apply f_num_proposed; [lia|]. rewrite pipe_key_norm. lia.
Qed.

Print Assumptions C113_conventional.
Print Assumptions C113_conventional_key.
Print Assumptions C113_conventional_double.
Print Assumptions C114_proposed.
Print Assumptions C114_proposed_key.
Print Assumptions C114_proposed_double.
Print Assumptions C115_conventional_experiment.
Print Assumptions C115_proposed_experiment.
Print Assumptions C115_proposed_512.
Print Assumptions C115_conventional_512.
