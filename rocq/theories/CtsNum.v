(** C100, continued: the parameters of the programs. *)
From Coq Require Import ZArith List Bool Lia Reals Lra Ring.
From Verif Require Import Base BaseFacts Sums ZQ ZQFacts ZQFacts2 RQ RQFacts Util UtilFacts GSum Rot Conv Core SpecZQ SpecZQFacts SpecPoly SpecPolyFacts SpecScheme ConvFacts Matrix MatrixFacts MatMulFacts DFT DFTTheory DFTFacts FFTFacts SpecMat SpecDFT SpecEnc SlotFacts Encode EncodeFacts
  Properties_ZQ Properties_Conv Properties_Core Properties_Rot Properties_DFT Properties_Mat Properties_Msg Properties_Enc Properties_Plain Plain PlainFacts SpecLin LinTrans LinTransFacts LinSlots Properties_Lin Bootstrap SpecBoot BootSlots Properties_Boot SpecPipe Pipeline PipeFacts Properties_Pipe
  StatFacts Section3 SpecStat Properties_Stat Properties_MatErr Properties_Serial Section4 SupFacts Messages MeasFacts Measure Constants EmTest.
From Verif Require Import CtsMeasure CtsProps CtsProg.
Import ListNotations.
Open Scope Z_scope.
Add Ring RCctn : HR.

(** Bounds for the error of CoeffToSlot at the parameters (LOGN, G) of the two programs, in slots of size up to N*67072 *)
Definition cts_bound (LOGN : Z) : R := (if LOGN =? 9 then 6 / 10000 else if LOGN =? 13 then / 2 else 350)%R.
Definition cts_instance (LOGN : Z) (G : nat) : Prop := (LOGN = 9 /\ G = 2%nat) \/ (LOGN = 13 /\ G = 3%nat) \/ (LOGN = 17 /\ G = 4%nat).
Lemma cts_num LOGN G : cts_instance LOGN G ->
  (0 <= cts_error (2 ^ LOGN) (2 ^ 50) (16 * 2 ^ LOGN + 1 + 128) G 4 (IZR (2 ^ LOGN) * ((IZR (2 ^ (60 - 1)) + IZR (2 ^ (60 - 1)) * IZR (128 + 2)) / IZR (2 ^ 50))) (IZR (2 ^ 50)) <= cts_bound LOGN)%R.
Proof.
  intros HI. set (E := 16 * 2 ^ LOGN + 1 + 128).
  assert (Bv : ((IZR (2 ^ (60 - 1)) + IZR (2 ^ (60 - 1)) * IZR (128 + 2)) / IZR (2 ^ 50) = 67072)%R).
  { change (2 ^ (60 - 1)) with 576460752303423488. change (2 ^ 50) with 1125899906842624. change (128 + 2) with 130. lra. }
  rewrite Bv.
  assert (Ha : forall d : nat, (0 <= Rpower 2 (- / INR 4) <= 1)%R).
  { intros _. split; [apply Rlt_le; unfold Rpower; apply exp_pos|]. rewrite <- (Rpower_O 2) by lra. apply Rle_Rpower; [lra|]. change (INR 4) with (1 + 1 + 1 + 1)%R. lra. }
  assert (PN : 0 < 2 ^ LOGN) by (apply Z.pow_pos_nonneg; destruct HI as [[-> _]|[[-> _]|[-> _]]]; lia). assert (PNR : (0 < IZR (2 ^ LOGN))%R) by (apply IZR_lt; exact PN).
  set (k := (IZR (2 ^ LOGN) * IZR E / (2 * IZR (2 ^ 50)))%R).
  assert (Hk : forall d, (0 <= switch_noise (2 ^ LOGN) (2 ^ 50) E (IZR (2 ^ 50)) d <= k)%R).
  { intros d. destruct (switch_noise_mono (2 ^ LOGN) (2 ^ 50) E E (IZR (2 ^ 50)) d 1%R) as [A1 A2]; try lra; try (unfold E; lia).
    - apply pow_R1_Rle. apply IZR_le. discriminate.
    - rewrite Rmult_1_l in A2. fold k in A2. split; [exact A1|exact A2]. }
  set (dl := row_rounding (2 ^ LOGN) (2 ^ 50) G). assert (Hd : (0 <= dl <= dl)%R).
  { split; [|apply Rle_refl]. unfold dl, row_rounding. apply Rmult_le_pos; [apply IZR_le, Z.pow_nonneg; lia|]. apply Rlt_le, Rdiv_lt_0_compat; [exact PNR|]. change (2 ^ 50) with 1125899906842624. lra. }
  assert (Hz : (0 <= IZR (2 ^ LOGN) * 67072 <= IZR (2 ^ LOGN) * 67072)%R) by lra.
  destruct (size_error_mono _ (fun _ => 1%R) _ _ _ _ _ (fun _ => k) 4 Ha Hd Hz Hk) as [_ [H1 H2]]. specialize (Hk 4%nat).
  unfold cts_error, cts_rounding. fold E dl.
  match goal with |- context [error_after ?a ?b ?c ?d ?e] => set (X := error_after a b c d e) in *; set (Y := error_after (fun _ => 1%R) b c (fun _ => k) e) in * end.
  match goal with |- context [switch_noise ?a ?b ?c ?d ?e] => set (S := switch_noise a b c d e) in * end.
  assert (HY : (2 * Y + k <= cts_bound LOGN)%R); [|lra].
  unfold Y, k, dl, E, row_rounding. clear -HI. cbn [error_after size_after]. unfold cts_bound.
  destruct HI as [[-> ->]|[[-> ->]|[-> ->]]]; cbn [Z.eqb Pos.eqb]; change (2 ^ 50) with 1125899906842624.
  - change (2 ^ 9) with 512. change (3 ^ Z.of_nat 2) with 9. change (16 * 512 + 1 + 128) with 8321. lra.
  - change (2 ^ 13) with 8192. change (3 ^ Z.of_nat 3) with 27. change (16 * 8192 + 1 + 128) with 131201. lra.
  - change (2 ^ 17) with 131072. change (3 ^ Z.of_nat 4) with 81. change (16 * 131072 + 1 + 128) with 2097281. lra.
Qed.
Lemma cts_size LOGN G : cts_instance LOGN G ->
  (IZR (2 ^ (50 + Z.of_nat 4 * 50)) * (IZR (2 ^ LOGN) * ((IZR (2 ^ (60 - 1)) + IZR (2 ^ (60 - 1)) * IZR (128 + 2)) / IZR (2 ^ 50)) + 
    cts_error (2 ^ LOGN) (2 ^ 50) (16 * 2 ^ LOGN + 1 + 128) G 4 (IZR (2 ^ LOGN) * ((IZR (2 ^ (60 - 1)) + IZR (2 ^ (60 - 1)) * IZR (128 + 2)) / IZR (2 ^ 50))) (IZR (2 ^ 50))) < IZR (2 ^ (1450 - 1)))%R.
Proof.
  intros HI. pose proof (cts_num LOGN G HI) as [_ H]. 
  match goal with |- context [cts_error ?a ?b ?c ?d ?e ?f ?g] => set (X := cts_error a b c d e f g) in * end.
  assert (HB : (cts_bound LOGN <= 350)%R) by (unfold cts_bound; destruct HI as [[-> _]|[[-> _]|[-> _]]]; cbn [Z.eqb Pos.eqb]; lra).
  assert (HN : (IZR (2 ^ LOGN) <= IZR 131072)%R) by (apply IZR_le; destruct HI as [[-> _]|[[-> _]|[-> _]]]; vm_compute; discriminate).
  assert (Bv : ((IZR (2 ^ (60 - 1)) + IZR (2 ^ (60 - 1)) * IZR (128 + 2)) / IZR (2 ^ 50) = 67072)%R).
  { change (2 ^ (60 - 1)) with 576460752303423488. change (2 ^ 50) with 1125899906842624. change (128 + 2) with 130. lra. }
  rewrite Bv. apply Rle_lt_trans with (IZR (2 ^ (50 + Z.of_nat 4 * 50)) * IZR (2 ^ 40))%R.
  - apply Rmult_le_compat_l; [apply IZR_le; vm_compute; discriminate|]. change (2 ^ 40) with 1099511627776. lra.
  - rewrite <- mult_IZR. apply IZR_lt. vm_compute. reflexivity.
Qed.

(** The programs as they are called: with a message with entries up to 1 they end in undefined behaviour; before that the norm of z_amb is that of the
    raised polynomial, and each difference is below [cts_bound] as long as its coefficient fits into a word. *)
Theorem C100_parameters LOGN G fuel RM rnd stc st st2 pos (z : Z -> CC) rev : cts_instance LOGN G -> rand_stream RM rnd ->
  cts_static 1450 LOGN 50 (Z.of_nat G) stc -> ifft_static LOGN st -> fft_static LOGN st2 -> (forall j, 0 <= j < 2 ^ (LOGN - 1) -> (modulus (z j) <= 1)%R) ->
  (forall j, 0 <= j < 2 ^ (LOGN - 1) -> reverses (LOGN - 1) j (rev j)) ->
  keygen fuel (2 ^ LOGN) rnd 128 (fresh (2 ^ LOGN)) pos = Diverge \/
  measure_cts_error fuel 60 1450 LOGN 50 50 (Z.of_nat G) 128 RM rnd stc st st2 pos (carray (2 ^ (LOGN - 1)) z) = Undef /\
  measure_sup_norm fuel 60 1450 LOGN 50 50 (Z.of_nat G) 128 RM rnd stc st st2 pos (carray (2 ^ (LOGN - 1)) z) = Undef /\
  exists st1 pos1 s pt ct mm stc' st' st2' pos' w0 w1 nz norm_z,
    cts_input fuel 60 1450 LOGN 50 128 RM rnd st pos (carray (2 ^ (LOGN - 1)) z) = Ok (st1, pos1, (map Some s, pt, ct)) /\
    cts_errors 1450 LOGN 50 50 (Z.of_nat G) RM rnd stc st1 st2 pos1 ct (map Some s) = Ok (stc', st', st2', pos',
      (nz, carray (K := Rops) (2 ^ (LOGN - 1)) (e_slots (2 ^ LOGN) 250 50 w0 mm rev 0), carray (K := Rops) (2 ^ (LOGN - 1)) (e_slots (2 ^ LOGN) 250 50 w1 mm rev (2 ^ (LOGN - 1))))) /\
    msg_norm (2 ^ (LOGN - 1)) nz = Ok norm_z /\ (norm_z <= sqrt (IZR (2 ^ (LOGN - 1)) * IZR (2 ^ LOGN)) * 67072)%R /\
    forall j, 0 <= j < 2 ^ (LOGN - 1) ->
      (Z.abs (mm (rev j)) < 2 ^ 64 -> (modulus (e_slots (2 ^ LOGN) 250 50 w0 mm rev 0 j) <= cts_bound LOGN)%R) /\
      (Z.abs (mm (rev j + 2 ^ (LOGN - 1))) < 2 ^ 64 -> (modulus (e_slots (2 ^ LOGN) 250 50 w1 mm rev (2 ^ (LOGN - 1)) j) <= cts_bound LOGN)%R).
Proof.
  intros HI Hr Hstc Hst Hst2 Hz Hrev. assert (HL : 2 <= LOGN <= 17) by (destruct HI as [[-> _]|[[-> _]|[-> _]]]; lia).
  destruct (some_m LOGN ltac:(lia) z) as [m Hm].
  assert (Hb : forall i, 0 <= i < 2 ^ LOGN -> (Rabs (m i) * IZR (2 ^ 50) < IZR (2 ^ 64) - / 2)%R /\ (Rabs (m i) * IZR (2 ^ 50) + 9 <= IZR (2 ^ (60 - 1)))%R).
  { intros i Hi. assert (Rabs (m i) <= 1)%R by (apply (coef_slots LOGN m 1 ltac:(lia)); [intros j Hj; rewrite Hm by auto; auto|exact Hi]).
    change (2 ^ 50) with 1125899906842624. change (2 ^ 64) with 18446744073709551616. change (2 ^ (60 - 1)) with 576460752303423488. lra. }
  assert (WQ : widths 1450 /\ widths (2 * 1450)) by (unfold widths; lia). destruct WQ as [WQ WQ2].
  assert (HG : (1 <= G <= 4)%nat) by (destruct HI as [[_ ->]|[[_ ->]|[_ ->]]]; lia). assert (HGD : LOGN - 1 = Z.of_nat (G * 4)) by (destruct HI as [[-> ->]|[[-> ->]|[-> ->]]]; reflexivity).
  pose proof (cts_size LOGN G HI) as Hsz. pose proof (cts_num LOGN G HI) as [_ Hnum].
  destruct (C100_programs_undefined 60 1450 LOGN 50 50 128 RM rnd G 4 WQ WQ2 HL ltac:(lia) ltac:(lia) ltac:(lia) Hr HG HGD ltac:(lia) ltac:(lia) ltac:(lia) Hsz fuel stc st st2 pos z m Hstc Hst Hst2 Hm Hb) as [E|[E1 E2]]; [left; exact E|].
  destruct (C100_measurement 60 1450 LOGN 50 50 128 RM rnd G 4 WQ WQ2 HL ltac:(lia) ltac:(lia) ltac:(lia) Hr HG HGD ltac:(lia) ltac:(lia) ltac:(lia) Hsz fuel stc st st2 pos z m rev Hstc Hst Hst2 Hm Hrev Hb)
    as [[E _]|(st1 & pos1 & s & pt & ct & c & e & I & stc' & st' & st2' & pos' & w0 & w1 & nz & E3 & Hc & E4 & E5 & He & _)]; [left; exact E|right].
  split; [exact E1|]. split; [exact E2|]. cbv zeta in E4, E5, He. change (50 + Z.of_nat 4 * 50) with 250 in *.
  eexists st1, pos1, s, pt, ct, _, stc', st', st2', pos', w0, w1, nz, _. split; [exact E3|]. split; [exact E4|]. split; [exact E5|]. split.
  - assert (Hn : 0 < 2 ^ (LOGN - 1)) by (apply Z.pow_pos_nonneg; lia). assert (HN : 0 < 2 ^ LOGN) by (apply Z.pow_pos_nonneg; lia). apply IZR_lt in Hn, HN.
    rewrite <- (sqrt_square 67072) by lra. rewrite <- sqrt_mult_alt by nra. apply sqrt_le_1_alt. rewrite Rmult_assoc. apply Rmult_le_compat_l; [lra|].
    unfold squares. rewrite <- rsum_const by (apply Z.pow_nonneg; lia). apply rsum_le. intros i Hi. destruct (Hc i Hi) as (A1 & A2 & A3). destruct (Hb i Hi) as [_ A4].
    set (mm := c i + e i + 2 ^ 60 * I i). assert (HB : (Rabs (IZR mm / IZR (2 ^ 50)) <= 67072)%R).
    { unfold Rdiv. rewrite Rabs_mult, (Rabs_right (/ IZR (2 ^ 50))) by (apply Rle_ge, Rlt_le, Rinv_0_lt_compat; change (2 ^ 50) with 1125899906842624; lra).
      assert (HM : Z.abs mm <= 67072 * 2 ^ 50); [|apply IZR_le in HM; rewrite abs_IZR, mult_IZR in HM; change (2 ^ 50) with 1125899906842624 in *; lra].
      unfold nearest in A1. pose proof (Rabs_triang_inv (IZR (c i)) (m i * IZR (2 ^ 50))) as T. rewrite Rabs_mult, (Rabs_right (IZR (2 ^ 50))) in T by (apply Rle_ge, IZR_le; discriminate). rewrite <- abs_IZR in T.
      assert (A5 : (IZR (Z.abs (c i)) < IZR (2 ^ (60 - 1) - 8))%R) by (rewrite minus_IZR; lra). apply lt_IZR in A5. unfold mm. change (2 ^ 50) with 1125899906842624. change (2 ^ (60 - 1)) with 576460752303423488 in A5. change (2 ^ 60) with 1152921504606846976. lia. }
    pose proof (Rabs_pos (IZR mm / IZR (2 ^ 50))). replace (IZR mm / IZR (2 ^ 50) * (IZR mm / IZR (2 ^ 50)))%R with (Rabs (IZR mm / IZR (2 ^ 50)) * Rabs (IZR mm / IZR (2 ^ 50)))%R; [apply Rmult_le_compat; auto|].
    rewrite <- Rabs_mult. apply Rabs_right, Rle_ge, Rle_0_sqr.
  - intros j Hj. destruct (He j Hj) as (B1 & B2 & _). split; intros W; [specialize (B1 W)|specialize (B2 W)]; lra.
Qed.

(** With a key of weight 128 there are ciphertexts of the message 0 modulo 2^60 for which a coefficient of the raised polynomial does not fit into a word: the measurement reports
    a difference of more than 16000 although CoeffToSlot errs by less than 1. *)
Theorem C100_words_refuted RM rnd s stc st st2 pos rev : rand_stream RM rnd -> ternary 512 s -> norm1 512 (coef s) = 128 ->
  cts_static 1450 9 50 2 stc -> ifft_static 9 st -> fft_static 9 st2 -> (forall j, 0 <= j < 256 -> reverses 8 j (rev j)) ->
  exists ct_q ct mm stc' st' st2' pos' ct0 ct1 w1 z e0 e1, decrypts 60 512 ct_q (coef s) (fun _ => 0) /\ sq_resize 60 1450 512 ct_q (sq_new 1450 512) = Ok ct /\ decrypts 1450 512 ct (coef s) mm /\
    cts_errors 1450 9 50 50 2 RM rnd stc st st2 pos ct (map Some s) = Ok (stc', st', st2', pos', (z, e0, carray (K := Rops) 256 e1)) /\
    CoeffToSlot 1450 9 50 RM rnd 2 stc st pos ct (map Some s) (sq_new 1450 512) (sq_new 1450 512) = Ok (stc', st', pos', ct0, ct1) /\ decrypts 1450 512 ct1 (coef s) w1 /\
    (modulus (slots 512%Z (powerRZ 2 250%Z) w1 255%Z - real (IZR (mm 511%Z) / IZR (2 ^ 50)))%num <= 1)%R /\ (16000 <= modulus (e1 255%Z))%R.
Proof.
  intros Hr Hs Hh Hstc Hst Hst2 Hrev.
  destruct (C78_mod_raise_sharp 60 1450 512 s ltac:(lia) ltac:(lia) Hs ltac:(rewrite Hh; vm_compute; discriminate)) as (ct_q & ct & I & D1 & E1 & D2 & I1 & I2). rewrite Hh in I1, I2.
  set (mm := fun i => 2 ^ 60 * I i) in *.
  assert (Bm : forall i, 0 <= i < 512 -> Z.abs (mm i) <= 67072 * 2 ^ 50) by (intros i Hi; specialize (I1 i Hi); unfold mm; change (2 ^ 60) with 1152921504606846976; change (2 ^ 50) with 1125899906842624; lia).
  assert (WQ : widths 1450 /\ widths (2 * 1450)) by (unfold widths; lia). destruct WQ as [WQ WQ2].
  pose proof (cts_size 9 2 ltac:(left; auto)) as Hsz. pose proof (cts_num 9 2 ltac:(left; auto)) as [Hpos Hnum].
  assert (Bv : ((IZR (2 ^ (60 - 1)) + IZR (2 ^ (60 - 1)) * IZR (128 + 2)) / IZR (2 ^ 50) = 67072)%R).
  { change (2 ^ (60 - 1)) with 576460752303423488. change (2 ^ 50) with 1125899906842624. change (128 + 2) with 130. lra. }
  rewrite Bv in *. change (2 ^ 9) with 512 in *.
  assert (En : noise 512 (coef s) = 16 * 512 + 1 + 128) by (unfold noise; rewrite Hh; reflexivity). rewrite <- En in *.
  assert (Hz : forall j, 0 <= j < 2 ^ (9 - 1) -> (modulus (slots (2 ^ 9) (IZR (2 ^ 50)) mm j) <= IZR 512 * 67072)%R).
  { intros j Hj. apply (slots_coef_bound 9); [lia|apply IZR_lt; reflexivity|]. intros i Hi. specialize (Bm i Hi). apply IZR_le in Bm. rewrite abs_IZR, mult_IZR in Bm. lra. }
  assert (Sm : forall i, 0 <= i < 512 -> - 2 ^ (1450 - 1) <= mm i < 2 ^ (1450 - 1)).
  { intros i Hi. specialize (Bm i Hi). assert (67072 * 2 ^ 50 < 2 ^ (1450 - 1)) by (vm_compute; reflexivity). lia. }
  destruct (C100_cts_errors 1450 9 50 50 RM rnd s WQ WQ2 ltac:(lia) ltac:(lia) ltac:(lia) ltac:(lia) Hr Hs 2 4 ltac:(lia) eq_refl ct mm stc st st2 pos rev (IZR 512 * 67072)%R Hstc Hst Hst2 (conj D2 Sm) Hrev Hz Hsz)
    as (stc' & st' & st2' & pos' & ct0 & ct1 & w0 & w1 & E2 & _ & [Dw _] & E3 & He).
  destruct (He 255 ltac:(change (2 ^ (9 - 1)) with 256; lia)) as [_ B].
  assert (R : rev 255 = 255).
  { pose proof (proj1 (reverses_brv 8 255 (rev 255) ltac:(lia)) (Hrev 255 ltac:(lia))) as R. rewrite R. vm_compute. reflexivity. }
  change (2 ^ 9) with 512 in *. change (2 ^ (9 - 1)) with 256 in *. rewrite R in B. change (255 + 256) with 511 in B. change (50 + Z.of_nat 4 * 50) with 250 in *.
  eexists ct_q, ct, mm, stc', st', st2', pos', ct0, ct1, w1, _, _, _. split; [exact D1|]. split; [exact E1|]. split; [exact D2|]. split; [exact E3|]. split; [exact E2|]. split; [exact Dw|].
  assert (CB : (cts_bound 9 <= 1)%R) by (unfold cts_bound; cbn [Z.eqb Pos.eqb]; lra).
  split; [eapply Rle_trans; [exact B|lra]|].
  apply word_error in B; [|apply IZR_lt; reflexivity]. destruct B as [_ B].
  unfold e_slots. rewrite R. change (255 + 256) with 511. eapply Rle_trans; [|apply B].
  - change (2 ^ 64) with 18446744073709551616. change (2 ^ 50) with 1125899906842624 in *. lra.
  - unfold mm. change (512 - 1) with 511 in I2. change (2 ^ 60) with 1152921504606846976. change (2 ^ 64) with 18446744073709551616. lia.
Qed.

(** ** Instances *)
(** the call main of example_sup_norm.cpp makes first, with the results 0, 1, 2, ... of rand() and the message 1 in every slot *)
Example C100_case : exists fuel, measure_cts_error fuel 60 1450 9 50 50 2 128 (2 ^ 31 - 1) counting None None None 0 (carray (2 ^ 8) (fun _ => real 1)) = Undef /\
  measure_sup_norm fuel 60 1450 9 50 50 2 128 (2 ^ 31 - 1) counting None None None 0 (carray (2 ^ 8) (fun _ => real 1)) = Undef.
Proof.
  destruct (C34_keygen_returns (2 ^ 9) counting (2 ^ 31 - 1) 128 (fresh (2 ^ 9)) 0 ltac:(lia) ltac:(lia) counting_stream (repeat_length _ _)) as (F & r & HF).
  { intros j p Hj. exists (Z.to_nat (512 * Z.of_nat p + j)). split; [lia|]. unfold counting. rewrite Z2Nat.id by lia. change (2 ^ 9) with 512 in *. change (2 ^ 31) with (512 * 4194304).
    rewrite Z.rem_mul_r by lia. rewrite (Z.mul_comm 512 (_ mod 4194304)), Z.mod_add by lia. rewrite Z.mod_mod by lia. rewrite Z.add_comm, Z.mul_comm, Z.mod_add, Z.mod_small by lia. reflexivity. }
  exists F. destruct (C100_parameters 9 2 F (2 ^ 31 - 1) counting None None None 0 (fun _ => real 1) (brv 8) ltac:(left; auto) counting_stream (cts_first _ _ _ _) (ifft_first 9) (fft_first 9)) as [E|(E1 & E2 & _)].
  - intros j Hj. rewrite modulus_real, Rabs_right by lra. lra.
  - intros j Hj. apply reverses_brv; [lia|reflexivity].
  - rewrite (HF F (le_n F)) in E. discriminate.
  - split; [exact E1|exact E2].
Qed.
Example C100_words_case : exists ct_q ct mm stc' st' st2' pos' ct0 ct1 w1 z e0 e1, decrypts 60 512 ct_q (coef key128) (fun _ => 0) /\ sq_resize 60 1450 512 ct_q (sq_new 1450 512) = Ok ct /\ decrypts 1450 512 ct (coef key128) mm /\
    cts_errors 1450 9 50 50 2 (2 ^ 31 - 1) counting None None None 0 ct (map Some key128) = Ok (stc', st', st2', pos', (z, e0, carray (K := Rops) 256 e1)) /\
    CoeffToSlot 1450 9 50 (2 ^ 31 - 1) counting 2 None None 0 ct (map Some key128) (sq_new 1450 512) (sq_new 1450 512) = Ok (stc', st', pos', ct0, ct1) /\ decrypts 1450 512 ct1 (coef key128) w1 /\
    (modulus (slots 512%Z (powerRZ 2 250%Z) w1 255%Z - real (IZR (mm 511%Z) / IZR (2 ^ 50)))%num <= 1)%R /\ (16000 <= modulus (e1 255%Z))%R.
Proof.
  apply (C100_words_refuted (2 ^ 31 - 1) counting key128 None None None 0 (brv 8) counting_stream key128_ternary key128_norm (cts_first _ _ _ _) (ifft_first 9) (fft_first 9)).
  intros j Hj. apply reverses_brv; [lia|reflexivity].
Qed.
