(** C126, continued: linear_transform_test of matmul_test.cpp in double precision. *)
From Coq Require Import ZArith List Bool Lia Reals Lra Ring.
From Verif Require Import Base BaseFacts Sums ZQ ZQFacts ZQFacts2 RQ RQFacts Conv Rot Util GSum Core CoreFacts Matrix MatrixFacts MatMulFacts
  DFT DFTTheory DFTFacts FFTFacts SpecZQ SpecPoly SpecPolyFacts SpecScheme ConvFacts SpecMat Properties_Mat Properties_Msg SpecDFT Properties_DFT SpecEnc Properties_Core Properties_Rot Properties_Conv
  GroupFacts SlotFacts Encode EncodeFacts Plain BootFacts Properties_Enc Properties_Plain SpecLin LinTrans LinTransFacts LinSlots GroupSlots SpecBoot BootSlots PlainFacts SpecStat StatFacts Section3 Properties_Stat Properties_MatErr Properties_Serial
  Properties_Lin Properties_Boot Poly EvalMod SpecMod EvalModFacts PiBound EvalModBound Properties_EvalMod SpecPipe Pipeline PipeFacts Properties_Pipe Bootstrap SpecEval EvalFacts Section4 SupFacts MeasFacts Measure UtilFacts Properties_ZQ CtsMeasure CtsProps Messages SupRatio TestProg TestLayers EmTest TestLinT TestBoot TestBootP TestLin TestCts.
From Verif Require Import Float SpecFloat FloatNum Binary64 Properties_Float SpecFloatLin FloatLin FloatSerial FloatGrouped SpecFloatBoot FloatBoot FloatBootSlots FloatBootNum Properties_FloatLin FloatMod SpecFloatMod FloatModFacts FloatModBound Properties_FloatMod.
From Verif Require Import FloatDot FloatMsg Properties_FloatMsg Properties_FloatMsg2 FloatDirect Properties_FloatDFT Properties_FloatDFT2 FloatSetup Properties_FloatSetup FloatTestBoot Properties_FloatTestBoot.
From Verif Require Import FloatSimple Properties_FloatSimple FloatTests Properties_FloatTests Properties_FloatTests2.
From Verif Require Import Properties_FloatTests3.
From Verif Require Import TestMat FloatFacts FloatGroup FloatMM FloatError.
From Verif Require Import FloatTestMat.
Import ListNotations.
Open Scope Z_scope.
Add Ring RCftw : HR.

(** The tables of set_test_U0_matrix (setup.h:86-97) hold matrices whose rows differ from the exact ones by at most [stc_row_error] *)
Section Tabs.
Context (F : fpu) (u eta top t : R) (ar : arithmetic u eta top t (rnd F) (dpi F) (lcos F) (lsin F)) (LOGN : Z) (HL : 2 <= LOGN <= 27) (Hsmall : (table_error u eta t (2 ^ LOGN) <= / 64)%R).
Local Notation n := (2 ^ (LOGN - 1)).
Local Notation T := (table_error u eta t (2 ^ LOGN)).
Lemma f_inv_good : fgood n 3 (LOGN - 1) (LOGN - 1) (fst (f_bwd_tables F LOGN)) (snd (f_bwd_tables F LOGN)) (uM LOGN) (fun _ => 2)%R (fun _ => 2)%R (fun _ => stc_row_error u eta t LOGN).
Proof.
  pose proof (n_pos LOGN HL) as Hn. assert (Hn30 : n <= 2 ^ 30) by (apply Z.pow_le_mono_r; lia).
  assert (HT : (0 <= T)%R) by (eapply Rle_trans; [apply Rabs_pos|apply (fcs_T F u eta top t ar LOGN HL Hsmall 0 0)]).
  apply (fgood_tab LOGN). intros d Hd. destruct (stage_shape LOGN 0 d Hd) as (HM & Hp2 & HnM).
  set (A := uA LOGN d). set (A' := bA n (Md LOGN d) (2 ^ d) (fcs F LOGN d) (fsn F LOGN d)).
  assert (Hrow : forall i, 0 <= i < n -> (gsum (K := Rops) 3 (fun s => modulus (A s i)) <= 2)%R).
  { intros i Hi. exact (bA_rows n (Md LOGN d) (2 ^ d) HM Hp2 HnM (csd LOGN d) (snd_ LOGN d) (unit_d LOGN d) i Hi). }
  pose proof (rows_of n ltac:(lia) 3 A (uo LOGN d) _ ltac:(lia) Hrow) as HR.
  rewrite <- !diagonals_sdi.
  apply (frep_near n 3 A A' (uo LOGN d) (zR (2 ^ d)) zI (uM LOGN d)); [lia|lia| |reflexivity|exact Hrow|lra| | |].
  - pose proof (bA_flags n (Md LOGN d) (2 ^ d) HM Hp2 HnM (fcs F LOGN d) (fsn F LOGN d) 1%R) as Fl. intros s Hs. specialize (Fl s Hs). destruct (zR (2 ^ d) s && zI s); [|exact Fl].
    intros j Hj. destruct (Fl j Hj) as [F1 F2]. rewrite Rmult_1_r in F1, F2. split; assumption.
  - intros s i Hs Hi. eapply Rle_trans; [|apply (Hrow i Hi)]. exact (gsum_member_mod 3 (fun s => A s i) s Hs).
  - intros i j Hi Hj. eapply Rle_trans; [|apply (HR i Hi)]. exact (gsum_member_mod n (fun j => matrix_of n 3 A (uo LOGN d) i j) j Hj).
  - intros i Hi. eapply Rle_trans; [apply (sum3 LOGN _ (3 / 2 * T)%R)|].
    + intros s Hs. eapply Rle_trans; [apply (modulus_comp _ T)|lra]; cbn.
      * unfold TR, tr_vec. destruct (_ >? 0); apply (VR_err F u eta top t ar LOGN HL); intros; apply (fcs_T F u eta top t ar LOGN HL Hsmall).
      * assert (E : forall a b, (Rabs (a - b) <= T -> Rabs (- a - - b) <= T)%R) by (intros a b Hab; replace (- a - - b)%R with (- (a - b))%R by ring; rewrite Rabs_Ropp; auto).
        unfold TI, tr_vec. apply E. destruct (_ >? 0); apply (VI_err F u eta top t ar LOGN HL); intros; apply (fsn_T F u eta top t ar LOGN HL Hsmall).
    + unfold stc_row_error. lra.
Qed.
End Tabs.

(** Error of the slots after K groups of G of the matrices at scale [Delta], for messages bounded by X *)
Definition f_lt_err (N LD h : Z) (G K : nat) (X : R) : R :=
  (error_after (fun _ => 2 ^ G)%R (f_row N (2 ^ LD) G (powerRZ 2 (-37)) (enc41 (2 * 2 ^ G) (2 ^ LD))) (f_start N LD X) (switch_noise N (2 ^ LD) (16 * N + 1 + h) (IZR (2 ^ LD))) K
   + IZR N * ((enc_off LD X + 8) / IZR (2 ^ LD)))%R.

Section LT.
Context (F : fpu) (HF : double F) (LOGQ LOGN LD RM h : Z) (rnd : nat -> Z) (s : list Z).
Context (HQ : 66 <= LOGQ <= 1525) (HL : 3 <= LOGN <= 17) (HD : 1 <= LD <= 58) (Hr : rand_stream RM rnd).
Local Notation N := (2 ^ LOGN).
Local Notation n := (2 ^ (LOGN - 1)).
Context (Hs : ternary N s) (Hh : norm1 N (coef s) = h).
Context (m : Z -> R) (m' : Z -> Z) (X : R) (ct : sq) (Hct : decrypts LOGQ N ct (coef s) m')
  (Hm : forall i, 0 <= i < N -> (Rabs (m i) <= X /\ Rabs (IZR (m' i) / IZR (2 ^ LD) - m i) <= (enc_off LD X + 8) / IZR (2 ^ LD))%R)
  (Hz : forall j, 0 <= j < n -> (modulus (slots N (IZR (2 ^ LD)) m' j) <= f_start N LD X)%R).

Lemma f_grouped_result (G K : nat) st st2 pos : (1 <= G <= 4)%nat -> LOGN - 1 = Z.of_nat (G * K) -> f_ifft_static F LOGN st -> f_fft_static F LOGN st2 ->
  let e := f_lt_err N LD h G K X in
  (IZR (2 ^ (LD + Z.of_nat K * LD)) * (IZR N * X + e) < IZR (2 ^ (LOGQ - 1)))%R -> (IZR N * X + e <= powerRZ 2 900)%R ->
  exists st' pos' A pt st2' y, f_grouped_lt F LOGQ LOGN LD RM rnd 3 (LOGN - 1) (Z.of_nat G) st pos (fst (f_bwd_tables F LOGN)) (snd (f_bwd_tables F LOGN)) ct (map Some s) (sq_new LOGQ N) = Ok (st', pos', A) /\ f_ifft_static F LOGN st' /\
    dec LOGQ N A (map Some s) (rq_new LOGQ N) = Ok pt /\
    f_decode_log F LOGQ LOGN st2 pt (LD + Z.of_nat K * LD) (fst (carray (K := Rops) n (fun _ => (0%num : CC)))) (snd (carray (K := Rops) n (fun _ => (0%num : CC)))) = Ok (st2', carray (K := Rops) n y) /\ f_fft_static F LOGN st2' /\
    forall j r, 0 <= j < n -> reverses (LOGN - 1) j r -> (modulus (y j - mk Rops (IZR n * m r)%R (IZR n * m (r + n)%Z)%R)%num <= e + dec_off N (IZR N * X + e))%R.
Proof.
  intros HG HGK Hst Hst2 e Hsz H9. assert (PD : (0 < IZR (2 ^ LD))%R) by (apply IZR_lt, Z.pow_pos_nonneg; lia). pose proof (n_pos LOGN ltac:(lia)) as Hn. pose proof (N2 LOGN ltac:(lia)) as HN2.
  assert (LQ : 1 <= LOGQ) by lia. assert (W1 : widths LOGQ) by (unfold widths; lia). assert (W2 : widths (2 * LOGQ)) by (unfold widths; lia).
  pose proof (f_inv_good F u64 eta64 top64 t64 HF LOGN ltac:(lia) (num_small LOGN ltac:(lia))) as HA. rewrite HGK in HA at 2 3.
  destruct (num_stc_group LOGN ltac:(lia) G HG) as [He Hfit].
  assert (H37 : (powerRZ 2 (-37) <= 1)%R) by (rewrite p37; pose proof u_small; lra).
  assert (Hg1 : (2 <= 2 ^ G)%R) by (apply Rle_trans with (2 ^ 1)%R; [lra|apply Rle_pow; [lra|lia]]).
  assert (Hd2 : (2 <= IZR (2 ^ LD))%R) by (apply IZR_le; change 2 with (2 ^ 1) at 1; apply Z.pow_le_mono_r; lia).
  assert (P4 : forall x, LD + Z.of_nat G + 2 <= x -> (2 * (2 * 2 ^ G * IZR (2 ^ LD)) <= IZR (2 ^ x))%R).
  { intros x Hx. rewrite pow_IZR, <- !mult_IZR. apply IZR_le. rewrite <- (Z.pow_succ_r 2 (Z.of_nat G)), <- Z.pow_add_r, <- Z.pow_succ_r by lia. apply Z.pow_le_mono_r; lia. }
  assert (Hx : (4 <= 2 * 2 ^ G * IZR (2 ^ LD))%R) by nra.
  pose proof (enc41_small (2 * 2 ^ G) (2 ^ LD) ltac:(lra)) as Hs2. pose proof (P4 64 ltac:(lia)) as Q1. pose proof (P4 LOGQ ltac:(lia)) as Q2.
  destruct (f_grouped_good F u64 eta64 top64 t64 HF LOGQ LOGN LD RM rnd s W1 W2 ltac:(lia) ltac:(lia) Hr Hs (2 * 2 ^ G)%R _ (powerRZ 2 (-37)) G K 3 _ _ _ _ _ _ (f_start N LD X) (IZR (2 ^ LD)) ct m' st pos (sq_new LOGQ N)
    (encodes_double F LOGQ LOGN LD (2 * 2 ^ G) HF ltac:(lia) ltac:(lia) ltac:(lia) ltac:(lra) ltac:(lra) ltac:(lra)) (enc41_pos (2 * 2 ^ G) (2 ^ LD) ltac:(lra) ltac:(apply Z.pow_nonneg; lia)) HG ltac:(lia) HA) as (st' & pos' & A & w & E1 & Hst' & Hw & Hsl); auto.
  { intros d Hd. cbv zeta. rewrite group_error_const. fold (stc_group_error u64 eta64 t64 LOGN G). split; [|apply He]. rewrite <- group_entries_same by lia. unfold group_rows. rewrite rprod_const. lra. }
  { apply new_object2; lia. }
  assert (EE : noise N (coef s) = 16 * N + 1 + h) by (unfold noise; rewrite Hh; reflexivity).
  assert (ES : (IZR (2 ^ LD) ^ K * IZR (2 ^ LD))%R = IZR (2 ^ (LD + Z.of_nat K * LD))).
  { rewrite pow_IZR, <- mult_IZR. f_equal. rewrite <- Z.pow_mul_r, <- Z.pow_add_r by lia. f_equal. lia. }
  set (sc := LD + Z.of_nat K * LD) in *. assert (K16 : Z.of_nat K <= 16) by nia. assert (S30 : 0 <= sc <= 2 ^ 30) by (change (2 ^ 30) with 1073741824; nia).
  assert (Erow : forall d, group_rows G (fun k => 2%R) d = (2 ^ G)%R) by (intros d; unfold group_rows; apply rprod_const).
  set (e0 := error_after (fun _ => 2 ^ G)%R (f_row N (2 ^ LD) G (powerRZ 2 (-37)) (enc41 (2 * 2 ^ G) (2 ^ LD))) (f_start N LD X) (switch_noise N (2 ^ LD) (16 * N + 1 + h) (IZR (2 ^ LD))) K).
  assert (B : forall j, 0 <= j < n -> (modulus (slots N (IZR (2 ^ sc)) w j - uz LOGN (slots N (IZR (2 ^ LD)) m') (Z.to_nat (LOGN - 1)) j)%num <= e0)%R).
  { intros j Hj. destruct (Hsl j Hj) as [_ B2]. rewrite ES, EE in B2. rewrite chain_uz in B2. replace (G * K)%nat with (Z.to_nat (LOGN - 1)) in B2 by lia.
    eapply Rle_trans; [exact B2|]. apply Req_le. apply rows_ext'. exact Erow. }
  assert (Rv : forall j, 0 <= j < n -> reverses (LOGN - 1) j (brv (Z.to_nat (LOGN - 1)) j)) by (intros j Hj; apply reverses_brv; [lia|reflexivity]).
  set (rev := brv (Z.to_nat (LOGN - 1))) in *. assert (Hrn : forall j, 0 <= j < n -> 0 <= rev j < n) by (intros j Hj; apply (Rv j Hj)).
  set (x := fun j => mk Rops (IZR n * m (rev j))%R (IZR n * m (rev j + n)%Z)%R : CC). assert (Nn : (0 < IZR n)%R) by (apply IZR_lt; lia).
  assert (HX : forall j, 0 <= j < n -> (modulus (x j) <= IZR N * X)%R).
  { intros j Hj. specialize (Hrn j Hj). eapply Rle_trans; [apply modulus_parts|]. rewrite !Rabs_mult, (Rabs_right (IZR n)) by lra. destruct (Hm (rev j) ltac:(lia)) as [M1 _]. destruct (Hm (rev j + n) ltac:(lia)) as [M2 _].
    rewrite HN2, mult_IZR. apply (Rmult_le_compat_l (IZR n)) in M1; [|lra]. apply (Rmult_le_compat_l (IZR n)) in M2; [|lra]. lra. }
  assert (HE : forall j, 0 <= j < n -> (modulus (slots N (IZR (2 ^ sc)) w j - x j)%num <= e)%R).
  { intros j Hj. specialize (B j Hj). pose proof (uz_slots LOGN ltac:(lia) 0 ltac:(lia) (fun i => IZR (m' i) / IZR (2 ^ LD))%R j (rev j) Hj (Rv j Hj)) as U. specialize (Hrn j Hj).
    unfold slots in B at 2. match type of B with (modulus (?a - ?b)%num <= _)%R => replace b with (mk Rops (IZR n * (IZR (m' (rev j)) / IZR (2 ^ LD)))%R (IZR n * (IZR (m' (rev j + n)%Z) / IZR (2 ^ LD)))%R : CC) in B by (symmetry; exact U) end.
    set (uu := mk Rops _ _ : CC) in B. set (y := slots N _ w j) in *. replace (y - x j)%num with ((y - uu) + (uu - x j))%num by ring. eapply Rle_trans; [apply modulus_add|]. unfold e, f_lt_err. fold e0. apply Rplus_le_compat; [exact B|].
    replace (uu - x j)%num with (mk Rops (IZR n * (IZR (m' (rev j)) / IZR (2 ^ LD) - m (rev j)))%R (IZR n * (IZR (m' (rev j + n)%Z) / IZR (2 ^ LD) - m (rev j + n)%Z))%R : CC) by (unfold uu, x; apply RC_eq; cbn; ring).
    eapply Rle_trans; [apply modulus_parts|]. rewrite !Rabs_mult, (Rabs_right (IZR n)) by lra. destruct (Hm (rev j) ltac:(lia)) as [_ M1]. destruct (Hm (rev j + n) ltac:(lia)) as [_ M2].
    rewrite HN2, mult_IZR. apply (Rmult_le_compat_l (IZR n)) in M1; [|lra]. apply (Rmult_le_compat_l (IZR n)) in M2; [|lra]. lra. }
  assert (ON : objectP LOGQ N (rq_new LOGQ N)) by (apply objP_object; try lia; apply objP_new).
  destruct (C35_dec LOGQ N A s w (rq_new LOGQ N) LQ ltac:(lia) Hs ON Hw) as (pt & F1 & P1).
  destruct (carray_of_carray n (fun _ => 0%num)) as [Ca Cb].
  destruct (f_decode_slots F HF LOGN ltac:(lia) LOGQ sc st2 pt w x e (IZR N * X)%R (fst (carray (K := Rops) n (fun _ => (0%num : CC)))) (snd (carray (K := Rops) n (fun _ => (0%num : CC)))) ltac:(lia) ltac:(lia) Hst2 P1 HE HX Hsz H9 Ca Cb) as (st2' & y & G1 & Hst2' & HY).
  exists st', pos', A, pt, st2', y. rewrite HGK at 1. split; [exact E1|]. split; [exact Hst'|]. split; [exact F1|]. split; [exact G1|]. split; [exact Hst2'|].
  intros j r Hj Hrev. pose proof (proj1 (reverses_brv (LOGN - 1) j r ltac:(lia)) Hrev) as ER. fold rev in ER. subst r. apply (HY j Hj).
Qed.
End LT.

(** linear_transform_test: the three results are n times the coefficients of the message in bit-reversed order, up to [f_lt_err] for groups of 1, 2 and 4 and the error of decode_log. *)
Theorem C126_linear_transform_test : forall F, double F -> forall fuel LOGQ LOGN LD h RM rnd st st2 pos (z : Z -> CC) X K, 66 <= LOGQ <= 1525 -> 1 <= LD <= 58 -> 0 <= h -> rand_stream RM rnd -> f_ifft_static F LOGN st -> f_fft_static F LOGN st2 ->
  LOGN - 1 = 4 * Z.of_nat K -> 3 <= LOGN <= 17 ->
  (forall j, 0 <= j < 2 ^ (LOGN - 1) -> (modulus (z j) <= X)%R) -> (X * IZR (2 ^ LD) + powerRZ 2 (-41) * (X * IZR (2 ^ LD)) + 2 < IZR (2 ^ 64))%R ->
  let e1 := f_lt_err (2 ^ LOGN) LD h 1 (4 * K) X in let e2 := f_lt_err (2 ^ LOGN) LD h 2 (2 * K) X in let e4 := f_lt_err (2 ^ LOGN) LD h 4 K X in
  (IZR (2 ^ (LD + (LOGN - 1) * LD)) * (IZR (2 ^ LOGN) * X + e1) < IZR (2 ^ (LOGQ - 1)))%R -> (IZR (2 ^ (LD + (LOGN - 1) / 2 * LD)) * (IZR (2 ^ LOGN) * X + e2) < IZR (2 ^ (LOGQ - 1)))%R ->
  (IZR (2 ^ (LD + (LOGN - 1) / 4 * LD)) * (IZR (2 ^ LOGN) * X + e4) < IZR (2 ^ (LOGQ - 1)))%R ->
  (IZR (2 ^ LOGN) * X + e1 <= powerRZ 2 900)%R -> (IZR (2 ^ LOGN) * X + e2 <= powerRZ 2 900)%R -> (IZR (2 ^ LOGN) * X + e4 <= powerRZ 2 900)%R ->
  keygen fuel (2 ^ LOGN) rnd h (fresh (2 ^ LOGN)) pos = Diverge /\ f_linear_transform_test F fuel LOGQ LOGN LD (LOGN - 1) h RM rnd st st2 pos (carray (K := Rops) (2 ^ (LOGN - 1)) z) = Diverge \/
  exists st' st2' pos' y1 y2 y4, f_linear_transform_test F fuel LOGQ LOGN LD (LOGN - 1) h RM rnd st st2 pos (carray (K := Rops) (2 ^ (LOGN - 1)) z) =
    Ok (st', st2', pos', (carray (K := Rops) (2 ^ (LOGN - 1)) y1, carray (K := Rops) (2 ^ (LOGN - 1)) y2, carray (K := Rops) (2 ^ (LOGN - 1)) y4)) /\
    forall m, (forall j, 0 <= j < 2 ^ (LOGN - 1) -> slot (2 ^ LOGN) m j = z j) -> forall j r, 0 <= j < 2 ^ (LOGN - 1) -> reverses (LOGN - 1) j r ->
      let u := mk Rops (IZR (2 ^ (LOGN - 1)) * m r)%R (IZR (2 ^ (LOGN - 1)) * m (r + 2 ^ (LOGN - 1))%Z)%R : CC in
      (modulus (y1 j - u)%num <= e1 + dec_off (2 ^ LOGN) (IZR (2 ^ LOGN) * X + e1))%R /\ (modulus (y2 j - u)%num <= e2 + dec_off (2 ^ LOGN) (IZR (2 ^ LOGN) * X + e2))%R /\
      (modulus (y4 j - u)%num <= e4 + dec_off (2 ^ LOGN) (IZR (2 ^ LOGN) * X + e4))%R.
Proof.
  intros F HF fuel LOGQ LOGN LD h RM rnd st st2 pos z X K HQ HLD Hh0 Hrnd Hst Hst2 HK HL Hz HX e1 e2 e4 S1 S2 S4 T1 T2 T4. set (N := 2 ^ LOGN) in *. set (n := 2 ^ (LOGN - 1)) in *. assert (Hn : 0 < n) by (apply Z.pow_pos_nonneg; lia).
  assert (HN : 1 <= N) by (pose proof (pow2_pos LOGN ltac:(lia)); unfold N; lia).
  unfold f_linear_transform_test. cbv zeta. fold N. assert (Eq : Z.quot N 2 = n) by (apply half_quot; lia). rewrite Eq.
  rewrite (f_inv_tables_ok F LOGN ltac:(lia)). rewrite (surjective_pairing (f_bwd_tables F LOGN)). cbn [bind].
  destruct (C34_keygen fuel N rnd RM h (fresh N) pos HN ltac:(lia) Hrnd (repeat_length _ _)) as [E0|(s & pos1 & E0 & Hs & Hh)]; [left; rewrite E0; split; reflexivity|right].
  rewrite E0. cbn [bind]. rewrite <- norm1_count in Hh by exact Hs.
  destruct (some_m LOGN ltac:(lia) z) as [m Hm]. fold N n in Hm.
  destruct (f_enc_coefs F HF LOGN ltac:(lia) LOGQ LD RM rnd s st pos1 z m X ltac:(lia) ltac:(lia) Hrnd Hs Hst Hm Hz HX) as (st1 & pt & c & ct & pos2 & m' & E1 & Hst1 & _ & E2 & Hct & HP & HB0). fold N n in E1, E2, Hct, HP, HB0.
  assert (HB : forall j, 0 <= j < n -> (modulus (slots N (IZR (2 ^ LD)) m' j) <= f_start N LD X)%R) by (intros j Hj; eapply Rle_trans; [apply (modulus_near _ (z j))|]; unfold f_start; apply Rplus_le_compat; auto).
  match goal with |- context [f_encode F LOGQ LOGN st ?x ?y ?u ?v] => replace (f_encode F LOGQ LOGN st x y u v) with (Ok (st1, pt)) by (symmetry; exact E1) end. cbn [bind]. rewrite E2. cbn [bind].
  assert (D2 : (LOGN - 1) / 2 = Z.of_nat (2 * K)) by (rewrite HK; symmetry; apply (Z.div_unique _ 2 _ 0); lia).
  assert (D4 : (LOGN - 1) / 4 = Z.of_nat K) by (rewrite HK; symmetry; apply (Z.div_unique _ 4 _ 0); lia).
  assert (D1 : LOGN - 1 = Z.of_nat (4 * K)) by lia.
  rewrite D2 in S2. rewrite D4 in S4. rewrite D1 in S1.
  assert (HP' : forall i, 0 <= i < N -> (Rabs (m i) <= X /\ Rabs (IZR (m' i) / IZR (2 ^ LD) - m i) <= (enc_off LD X + 8) / IZR (2 ^ LD))%R).
  { intros i Hi. split; [|apply (HP i Hi)]. apply (coef_slots LOGN m X ltac:(lia)); auto. intros j Hj. fold N n. rewrite (Hm j Hj). apply Hz. exact Hj. }
  assert (R1 := fun G K' st st2 pos => f_grouped_result F HF LOGQ LOGN LD RM h rnd s HQ HL HLD Hrnd Hs Hh m m' X ct Hct HP' HB G K' st st2 pos). fold N n in R1.
  destruct (R1 1%nat (4 * K)%nat st1 st2 pos2 ltac:(lia) ltac:(lia) Hst1 Hst2 S1 T1) as (st3 & pos3 & A1 & pt1 & st23 & y1 & F1 & Hst3 & G1 & J1 & Hst23 & B1).
  destruct (R1 2%nat (2 * K)%nat st3 st23 pos3 ltac:(lia) ltac:(lia) Hst3 Hst23 S2 T2) as (st4 & pos4 & A2 & pt2 & st24 & y2 & F2 & Hst4 & G2 & J2 & Hst24 & B2).
  destruct (R1 4%nat K%nat st4 st24 pos4 ltac:(lia) ltac:(lia) Hst4 Hst24 S4 T4) as (st5 & pos5 & A4 & pt4 & st25 & y4 & F4 & Hst5 & G4 & J4 & Hst25 & B4).
  clear R1. change (Z.of_nat 1) with 1 in F1. change (Z.of_nat 2) with 2 in F2. change (Z.of_nat 4) with 4 in F4.
  unfold f_grouped_lt in F1. cbn [Z.eqb Pos.eqb] in F1. rewrite F1. cbn [bind]. rewrite F2. cbn [bind]. rewrite F4. cbn [bind].
  rewrite !(C68_new (K := Rops)) by lia. cbn [bind]. rewrite G1, G2, G4. cbn [bind].
  assert (Q2 : Z.quot (LOGN - 1) 2 = Z.of_nat (2 * K)) by (rewrite Z.quot_div_nonneg by lia; exact D2). assert (Q4 : Z.quot (LOGN - 1) 4 = Z.of_nat K) by (rewrite Z.quot_div_nonneg by lia; exact D4).
  rewrite Q2, Q4. rewrite <- D1 in J1. rewrite (int_in (LD + (LOGN - 1) * LD)) by nia. cbn [bind].
  match goal with |- context [f_decode_log F LOGQ LOGN st2 ?x ?a ?u ?v] => replace (f_decode_log F LOGQ LOGN st2 x a u v) with (Ok (st23, carray (K := Rops) n y1)) by (symmetry; exact J1) end. cbn [bind].
  rewrite int_in by nia. cbn [bind].
  match goal with |- context [f_decode_log F LOGQ LOGN st23 ?x ?a ?u ?v] => replace (f_decode_log F LOGQ LOGN st23 x a u v) with (Ok (st24, carray (K := Rops) n y2)) by (symmetry; exact J2) end. cbn [bind].
  rewrite int_in by nia. cbn [bind].
  match goal with |- context [f_decode_log F LOGQ LOGN st24 ?x ?a ?u ?v] => replace (f_decode_log F LOGQ LOGN st24 x a u v) with (Ok (st25, carray (K := Rops) n y4)) by (symmetry; exact J4) end. cbn [bind].
  exists st5, st25, pos5, y1, y2, y4. split; [reflexivity|]. intros p Hp j r Hj Hrev.
  assert (EQ : forall i, 0 <= i < N -> p i = m i).
  { intros i Hi. apply Rminus_diag_uniq. assert (Z0 : (Rabs (p i - m i) <= 0)%R). { apply (coef_slots LOGN (fun i => p i - m i)%R 0%R); auto; try lia. intros k Hk. fold N. fold n in Hk. rewrite slot_sub, (Hp k Hk), (Hm k Hk). replace (z k - z k)%num with (0%num : CC) by ring. rewrite modulus_0. lra. } pose proof (Rabs_pos (p i - m i)). destruct (Req_dec (p i - m i) 0) as [->|Hne]; [reflexivity|]. apply Rabs_pos_lt in Hne. lra. }
  pose proof (N2 LOGN ltac:(lia)) as HN2. fold N n in HN2. assert (Hrn : 0 <= r < n) by apply Hrev. rewrite (EQ r), (EQ (r + n)) by lia. split; [apply B1; auto|]. split; [apply B2; auto|apply B4; auto].
Qed.

(** The parameters of test.h: LOGQ 1450, LOGN 9, LOGDELTA 50, H 128, a random message *)
Lemma f_lt_num G K : (G = 1 /\ K = 8 \/ G = 2 /\ K = 4 \/ G = 4 /\ K = 2)%nat -> (0 <= f_lt_err 512 50 128 G K 1 <= 29 / 10 ^ 6)%R.
Proof.
  intros HI. set (E := 16 * 512 + 1 + 128). set (k := (IZR 512 * IZR E / (2 * IZR (2 ^ 50)))%R).
  assert (Hk : forall d, (0 <= switch_noise 512 (2 ^ 50) E (IZR (2 ^ 50)) d <= k)%R).
  { intros d. destruct (switch_noise_mono 512 (2 ^ 50) E E (IZR (2 ^ 50)) d 1%R) as [A1 A2]; try lra; try (unfold E; lia).
    - apply pow_R1_Rle. apply IZR_le. discriminate.
    - rewrite Rmult_1_l in A2. fold k in A2. split; [exact A1|exact A2]. }
  set (b := (/ 137438953472 + IZR (3 ^ Z.of_nat G) * IZR 512 * (/ 1125899906842624 + / 2199023255552 * (2 * 2 ^ G)))%R).
  assert (G0 : (0 <= 2 ^ G)%R) by (apply pow_le; lra). assert (G3 : (0 <= IZR (3 ^ Z.of_nat G))%R) by (apply IZR_le, Z.pow_nonneg; lia).
  assert (Hd : (0 <= f_row 512 (2 ^ 50) G (powerRZ 2 (-37)) (enc41 (2 * 2 ^ G) (2 ^ 50)) <= b)%R).
  { unfold f_row, encoded_error, enc41. rewrite pw37, pw41. pose proof (p2_pos (-900)). pose proof (small_p (-900) ltac:(lia)). change (2 ^ 50) with 1125899906842624.
    set (g := (2 * 2 ^ G)%R). assert (0 <= g)%R by (unfold g; lra). set (c3 := IZR (3 ^ Z.of_nat G)) in *. set (q := ((/ 2 + (/ 2199023255552 * (g * 1125899906842624) + powerRZ 2 (-900))) / 1125899906842624)%R).
    assert (Q : (0 <= q <= / 1125899906842624 + / 2199023255552 * g)%R) by (unfold q; lra).
    assert (Q1 : (0 <= c3 * (512 * q) <= c3 * (512 * (/ 1125899906842624 + / 2199023255552 * g)))%R) by (split; [apply Rmult_le_pos|apply Rmult_le_compat_l]; lra).
    unfold b. fold c3 g. lra. }
  pose proof z9_num as Hz9. assert (Hz : (0 <= f_start 512 50 1 <= 101 / 100)%R) by lra.
  assert (Ha : forall d : nat, (0 <= 2 ^ G <= 2 ^ G)%R) by (intros _; lra).
  destruct (size_error_mono (fun _ => 2 ^ G)%R (fun _ => 2 ^ G)%R _ _ _ _ _ (fun _ => k) K Ha Hd Hz Hk) as [_ [H1 H2]]. unfold f_lt_err. fold E.
  assert (EO : (0 <= IZR 512 * ((enc_off 50 1 + 8) / IZR (2 ^ 50)) <= / 10 ^ 9)%R).
  { pose proof num_enc_off as EO. replace ((enc_off 50 1 + 8) / IZR (2 ^ 50))%R with (enc_off 50 1 / IZR (2 ^ 50) + 8 / IZR (2 ^ 50))%R by (unfold Rdiv; ring). set (y := (enc_off 50 1 / IZR (2 ^ 50))%R) in *. change (2 ^ 50) with 1125899906842624. cbn [pow] in *. lra. }
  split; [lra|]. eapply Rle_trans; [apply Rplus_le_compat; [exact H2|apply EO]|]. clear -HI. unfold k, b, E. change (2 ^ 50) with 1125899906842624; change (16 * 512 + 1 + 128) with 8321;
    destruct HI as [[-> ->]|[[-> ->]|[-> ->]]]; cbn [error_after size_after pow]; change (3 ^ Z.of_nat 1) with 3; change (3 ^ Z.of_nat 2) with 9; change (3 ^ Z.of_nat 4) with 81; lra.
Qed.
(** The three printed messages hold 256 times the coefficients in bit-reversed order, up to 3*10^-5 *)
Theorem C126_linear_transform_parameters : forall F, double F -> forall fuel RM rnd st st2 pos z, rand_stream RM rnd -> f_ifft_static F 9 st -> f_fft_static F 9 st2 -> random_message 256 z ->
  keygen fuel 512 rnd 128 (fresh 512) pos = Diverge /\ f_linear_transform_test F fuel 1450 9 50 8 128 RM rnd st st2 pos (carray (K := Rops) 256 z) = Diverge \/
  exists st' st2' pos' y1 y2 y4, f_linear_transform_test F fuel 1450 9 50 8 128 RM rnd st st2 pos (carray (K := Rops) 256 z) =
    Ok (st', st2', pos', (carray (K := Rops) 256 y1, carray (K := Rops) 256 y2, carray (K := Rops) 256 y4)) /\
    forall m, (forall j, 0 <= j < 256 -> slot 512 m j = z j) -> forall j r, 0 <= j < 256 -> reverses 8 j r ->
      let u := mk Rops (256 * m r)%R (256 * m (r + 256)%Z)%R : CC in
      (modulus (y1 j - u)%num <= 3 / 10 ^ 5)%R /\ (modulus (y2 j - u)%num <= 3 / 10 ^ 5)%R /\ (modulus (y4 j - u)%num <= 3 / 10 ^ 5)%R.
Proof.
  intros F HF fuel RM rnd st st2 pos z Hr Hst Hst2 Hz.
  pose proof (f_lt_num 1 8 ltac:(lia)) as B1. pose proof (f_lt_num 2 4 ltac:(lia)) as B2. pose proof (f_lt_num 4 2 ltac:(lia)) as B4.
  pose proof (C126_linear_transform_test F HF fuel 1450 9 50 128 RM rnd st st2 pos z 1%R 2 ltac:(lia) ltac:(lia) ltac:(lia) Hr Hst Hst2 eq_refl ltac:(lia) (random_message_modulus _ _ Hz) num_top50) as T. cbv zeta in T.
  change (2 ^ 9) with 512 in T. change (2 ^ (9 - 1)) with 256 in T. change (9 - 1) with 8 in T. change (4 * 2)%nat with 8%nat in T. change (2 * 2)%nat with 4%nat in T.
  set (e1 := f_lt_err 512 50 128 1 8 1) in *. set (e2 := f_lt_err 512 50 128 2 4 1) in *. set (e4 := f_lt_err 512 50 128 4 2 1) in *. cbn [pow] in B1, B2, B4.
  assert (HS : forall sc x, 0 <= sc <= 450 -> (x <= 514)%R -> (IZR (2 ^ sc) * x < IZR (2 ^ (1450 - 1)))%R).
  { intros sc x Hsc Hx. apply Rle_lt_trans with (IZR (2 ^ 450) * 514)%R; [|rewrite <- mult_IZR; apply IZR_lt; vm_compute; reflexivity].
    assert (0 < IZR (2 ^ sc) <= IZR (2 ^ 450))%R by (split; [apply IZR_lt, Z.pow_pos_nonneg; lia|apply IZR_le, Z.pow_le_mono_r; lia]). apply Rle_trans with (IZR (2 ^ sc) * 514)%R; [apply Rmult_le_compat_l; lra|apply Rmult_le_compat_r; lra]. }
  assert (P9 : (514 <= powerRZ 2 900)%R). { pose proof (p2_le 10 900 ltac:(lia)) as P. replace (powerRZ 2 10) with 1024%R in P by (change (powerRZ 2 10) with (2 ^ 10)%R; cbn [pow]; lra). lra. }
  assert (DO : forall A, (0 <= A <= 514)%R -> (dec_off 512 A <= 7 / 10 ^ 8)%R).
  { intros A HA. unfold dec_off. pose proof (p2_le (-1000) (-60) ltac:(lia)) as P. rewrite pw60 in P. assert (P2 : powerRZ 2 (-42) = (/ 4398046511104)%R) by exact (pw_is 42 ltac:(lia)). rewrite P2. cbn [pow]. lra. }
  assert (HE : forall e, (0 <= e <= 29 / 10 ^ 6)%R -> (e + dec_off 512 (512 * 1 + e) <= 3 / 10 ^ 5)%R). { intros e He. cbn [pow] in *. specialize (DO (512 * 1 + e)%R ltac:(lra)). lra. }
  destruct T as [[E1 E2]|(st' & st2' & pos' & y1 & y2 & y4 & E & H)]; try lra; try (apply HS; [vm_compute; split; discriminate|lra]).
  - left. split; [exact E1|exact E2].
  - right. exists st', st2', pos', y1, y2, y4. split; [exact E|]. intros m Hm j r Hj Hrev. destruct (H m Hm j r Hj Hrev) as (H1 & H2 & H4).
    split; [|split]; (eapply Rle_trans; [eassumption|]; apply HE; cbn [pow]; lra).
Qed.
(** The hypotheses hold in IEEE double precision, of the message with parts 1/2 and -1/2 and of the tables before the first call *)
Example C126_linear_case : double F64 /\ f_ifft_static F64 9 None /\ f_fft_static F64 9 None /\ random_message 256 (fun _ => (/ 2, - / 2)%R) /\ rand_stream (2 ^ 31 - 1) counting.
Proof. split; [apply C87_binary64|]. split; [constructor; reflexivity|]. split; [constructor; reflexivity|]. apply C102_case. Qed.
