(** C126, continued: ctxt_conv_test.cpp and evalMod_test.cpp in double precision. *)
From Coq Require Import ZArith List Bool Lia Reals Lra Ring.
From Verif Require Import Base BaseFacts Sums ZQ ZQFacts ZQFacts2 RQ RQFacts Conv Rot Util GSum Core CoreFacts Matrix MatrixFacts MatMulFacts
  DFT DFTTheory DFTFacts FFTFacts SpecZQ SpecPoly SpecPolyFacts SpecScheme ConvFacts SpecMat Properties_Mat Properties_Msg SpecDFT Properties_DFT SpecEnc Properties_Core Properties_Rot Properties_Conv
  GroupFacts SlotFacts Encode EncodeFacts Plain BootFacts Properties_Enc Properties_Plain SpecLin LinTrans LinTransFacts LinSlots GroupSlots SpecBoot BootSlots PlainFacts SpecStat StatFacts Section3 Properties_Stat Properties_MatErr Properties_Serial
  Properties_Lin Properties_Boot Poly EvalMod SpecMod EvalModFacts PiBound EvalModBound Properties_EvalMod SpecPipe Pipeline PipeFacts Properties_Pipe Bootstrap SpecEval EvalFacts Section4 SupFacts MeasFacts Measure UtilFacts Properties_ZQ CtsMeasure CtsProps Messages SupRatio TestProg TestLayers EmTest TestLinT TestBoot TestBootP.
From Verif Require Import Float SpecFloat FloatNum Binary64 Properties_Float SpecFloatLin FloatLin FloatSerial FloatGrouped SpecFloatBoot FloatBoot FloatBootSlots FloatBootNum Properties_FloatLin FloatMod SpecFloatMod FloatModFacts FloatModBound Properties_FloatMod.
From Verif Require Import FloatDot FloatMsg Properties_FloatMsg Properties_FloatMsg2 FloatDirect Properties_FloatDFT Properties_FloatDFT2 FloatSetup Properties_FloatSetup FloatTestBoot Properties_FloatTestBoot.
From Verif Require Import FloatSimple Properties_FloatSimple FloatTests Properties_FloatTests FloatEnc2.
Import ListNotations.
Open Scope Z_scope.
Add Ring RCftu : HR.

Section Help2.
Context (F : fpu) (HF : double F) (LOGN : Z) (HL : 2 <= LOGN <= 17).
Local Notation N := (2 ^ LOGN).
Local Notation n := (2 ^ (LOGN - 1)).
Lemma halfN : N / 2 = n.
Proof. rewrite (N2 LOGN ltac:(lia)), (Z.mul_comm 2), Z.div_mul by lia. reflexivity. Qed.
Lemma f_carries_decoded Q sc s ct (x : Z -> CC) e X st2 zr zi : 1 <= Q <= 2048 -> 0 <= sc <= 2 ^ 30 -> ternary N s -> f_fft_static F LOGN st2 ->
  carries Q N (coef s) ct (IZR (2 ^ sc)) x e -> (forall j, 0 <= j < n -> (modulus (x j) <= X)%R) -> (IZR (2 ^ sc) * (X + e) < IZR (2 ^ (Q - 1)))%R -> (X + e <= powerRZ 2 900)%R ->
  cells n zr -> cells n zi ->
  exists pt st2' y, dec Q N ct (map Some s) (rq_new Q N) = Ok pt /\ f_decode_log F Q LOGN st2 pt sc zr zi = Ok (st2', carray (K := Rops) n y) /\ f_fft_static F LOGN st2' /\
    forall j, 0 <= j < n -> (modulus (y j - x j)%num <= e + dec_off N (X + e))%R.
Proof.
  intros HQ Hsc Hs Hst2 (m & Hm & Hx) HX Hb H9 Hzr Hzi. rewrite halfN in Hx. pose proof (pow2_pos LOGN ltac:(lia)) as HN.
  destruct (C35_dec Q N ct s m (rq_new Q N) ltac:(lia) ltac:(lia) Hs ltac:(apply objP_object; try lia; apply objP_new) Hm) as (pt & E1 & H1).
  destruct (f_decode_slots F HF LOGN HL Q sc st2 pt m x e X zr zi HQ Hsc Hst2 H1 Hx HX Hb H9 Hzr Hzi) as (st2' & y & E2 & H2 & H3). exists pt, st2', y. auto.
Qed.
Lemma dec_off_mono A B : (A <= B)%R -> (dec_off N A <= dec_off N B)%R.
Proof.
  intros H. unfold dec_off. pose proof (p2_pos (-42)). pose proof (pow2_pos LOGN ltac:(lia)) as P. apply IZR_lt in P. apply Rplus_le_compat_r, Rmult_le_compat_l; [lra|]. apply Rmult_le_compat_l; lra.
Qed.
End Help2.

(** ** ctxt_conv_test *)
Theorem C126_ctxt_conv_test : forall F, double F -> forall fuel LOGQ LOGN LD h RM rng st st2 pos (z : Z -> CC) X, 2 <= LOGN <= 17 -> 66 <= LOGQ <= 1525 -> 0 <= LD <= 50 -> 0 <= h -> rand_stream RM rng -> f_ifft_static F LOGN st -> f_fft_static F LOGN st2 ->
  (forall j, 0 <= j < 2 ^ (LOGN - 1) -> (modulus (z j) <= X)%R) -> (X * IZR (2 ^ LD) + powerRZ 2 (-41) * (X * IZR (2 ^ LD)) + 2 < IZR (2 ^ 64))%R ->
  let e0 := (IZR (2 ^ LOGN) * ((enc_off LD X + 8) / IZR (2 ^ LD)))%R in
  let e := (2 * X * e0 + e0 * e0 + IZR (2 ^ LOGN) * IZR (8 * 2 ^ LOGN + 1 + h) / (2 * IZR (2 ^ (2 * LD))))%R in
  (IZR (2 ^ (2 * LD)) * (X * X + e) < IZR (2 ^ (LOGQ - 1)))%R -> (X * X + e <= powerRZ 2 900)%R ->
  keygen fuel (2 ^ LOGN) rng h (fresh (2 ^ LOGN)) pos = Diverge /\ f_ctxt_conv_test F fuel LOGQ LOGN LD h RM rng st st2 pos (carray (K := Rops) (2 ^ (LOGN - 1)) z) = Diverge \/
  exists st' st2' pos' y0 y, f_ctxt_conv_test F fuel LOGQ LOGN LD h RM rng st st2 pos (carray (K := Rops) (2 ^ (LOGN - 1)) z) =
    Ok (st', st2', pos', (carray (K := Rops) (2 ^ (LOGN - 1)) y0, carray (K := Rops) (2 ^ (LOGN - 1)) y)) /\
    forall j, 0 <= j < 2 ^ (LOGN - 1) -> (modulus (y0 j - z j * z j)%num <= powerRZ 2 (-50) * (X * X) + powerRZ 2 (-1000))%R /\ (modulus (y j - z j * z j)%num <= e + dec_off (2 ^ LOGN) (X * X + e))%R.
Proof.
  intros F HF fuel LOGQ LOGN LD h RM rng st st2 pos z X HL HQ HLD Hh0 Hrnd Hst Hst2 Hz HX e0 e Hbig H9. pose proof (halfN LOGN HL) as HN2. set (N := 2 ^ LOGN) in *. set (n := 2 ^ (LOGN - 1)) in *. assert (Hn : 0 < n) by (apply Z.pow_pos_nonneg; lia).
  assert (HN : 1 <= N) by (pose proof (pow2_pos LOGN ltac:(lia)); unfold N; lia).
  assert (HN30 : N <= 2 ^ 17) by (apply Z.pow_le_mono_r; lia).
  assert (X0 : (0 <= X)%R) by (eapply Rle_trans; [apply modulus_nonneg|apply (Hz 0); lia]).
  set (D := IZR (2 ^ LD)) in *. assert (PD : (0 < D)%R) by (apply IZR_lt, Z.pow_pos_nonneg; lia).
  assert (ED2 : IZR (2 ^ (2 * LD)) = (D * D)%R) by (unfold D; rewrite <- mult_IZR, <- Z.pow_add_r by lia; do 2 f_equal; lia).
  assert (E00 : (0 <= e)%R).
  { pose proof (enc_off_pos LD X ltac:(lia) X0) as EO. assert (ID : (0 < / D)%R) by (apply Rinv_0_lt_compat; lra). assert (E0' : (0 <= e0)%R). { unfold e0. apply Rmult_le_pos; [apply IZR_le; lia|]. apply Rmult_le_pos; lra. }
    unfold e. assert (0 <= X * e0)%R by (apply Rmult_le_pos; auto). assert (0 <= e0 * e0)%R by (apply Rmult_le_pos; auto). assert (0 <= IZR N * IZR (8 * N + 1 + h) / (2 * IZR (2 ^ (2 * LD))))%R; [|lra].
    apply Rmult_le_pos; [apply Rmult_le_pos; apply IZR_le; lia|]. apply Rlt_le, Rinv_0_lt_compat. rewrite ED2. assert (0 < D * D)%R by (apply Rmult_lt_0_compat; auto). lra. }
  unfold f_ctxt_conv_test. cbv zeta. fold N. assert (Eq : Z.quot N 2 = n) by (apply half_quot; lia). rewrite Eq. rewrite !(C68_new (K := Rops)) by lia. cbn [bind].
  assert (MM : forall j, 0 <= j < n -> (0 <= modulus (z j) * modulus (z j) <= X * X)%R) by (intros j Hj; pose proof (modulus_nonneg (z j)); split; [apply Rmult_le_pos; auto|apply Rmult_le_compat; auto]).
  destruct (C118_mul F u64 eta64 top64 t64 HF n z z (carray (K := Rops) n (fun _ => (0%num : CC))) ltac:(lia) (carray_of_carray _ _)) as (y0 & EM & HM).
  { intros j Hj. specialize (MM j Hj). pose proof (square_top X ltac:(lra)). lra. }
  match goal with |- context [msg_mul n ?x ?y ?u] => replace (msg_mul (K := Fops F) n x y u) with (Ok (carray (K := Rops) n y0)) by (symmetry; exact EM) end. cbn [bind].
  destruct (C34_keygen fuel N rng RM h (fresh N) pos HN ltac:(lia) Hrnd (repeat_length _ _)) as [E0|(s & pos1 & E0 & Hs & Hh)]; [left; rewrite E0; split; reflexivity|right].
  rewrite E0. cbn [bind]. rewrite <- norm1_count in Hh by exact Hs.
  destruct Hs as [Hl Hf] eqn:EHs. destruct (C33_conv_int_ternary N s s (fresh N) ltac:(change (2 ^ 17) with 131072 in HN30; change (2 ^ 30) with 1073741824; lia) Hl Hl (repeat_length _ _) Hf Hf) as (s2 & E1 & Hl2 & H1). rewrite E1. cbn [bind].
  destruct (C38_swkgen LOGQ N RM rng s2 s (sq_new (2 * LOGQ) N) pos1 ltac:(lia) HN Hrnd Hl2) as (evk & pos2 & E2 & H2).
  { apply Forall_forall. intros x Hx. destruct (In_nth _ _ 0 Hx) as (k & Hk & <-). destruct (H1 (Z.of_nat k) ltac:(lia)) as [_ B]. unfold coef in B. rewrite Nat2Z.id in B. change (2 ^ 17) with 131072 in HN30. change (2 ^ 31) with 2147483648. lia. }
  { exact Hs. } { apply new_object2; lia. }
  rewrite E2. cbn [bind].
  destruct (some_m LOGN ltac:(lia) z) as [m Hm].
  destruct (f_enc_coefs F HF LOGN HL LOGQ LD RM rng s st pos2 z m X ltac:(lia) ltac:(lia) Hrnd Hs Hst Hm Hz HX) as (st' & pt & c & ct & pos3 & m' & E3 & _ & _ & E4 & Hd & _ & Hsl).
  fold N n in E3, E4, Hd, Hsl. fold D e0 in Hsl.
  match goal with |- context [f_encode F LOGQ LOGN st ?x ?y ?u ?v] => replace (f_encode F LOGQ LOGN st x y u v) with (Ok (st', pt)) by (symmetry; exact E3) end. cbn [bind]. rewrite E4. cbn [bind].
  assert (H5 : carries LOGQ N (coef s) ct D z e0) by (exists m'; split; [exact Hd|]; rewrite HN2; exact Hsl).
  assert (H2' : switching_key LOGQ N evk (negconv N (coef s) (coef s)) (coef s)).
  { destruct H2 as (er & Her & Hd'). exists er. split; [exact Her|]. eapply decrypts_mod; [|exact Hd']. intros i Hi. cbv beta. destruct (H1 i Hi) as [-> _]. reflexivity. }
  destruct (carries_Mul LOGN ltac:(lia) (coef s) LOGQ ct ct evk (sq_new LOGQ N) D D z z e0 e0 X X ltac:(unfold widths; lia) ltac:(unfold widths; lia) H2') as (ct2 & E5 & H5').
  { apply new_object2; lia. } { exact PD. } { exact PD. } { intros j Hj; apply Hz; rewrite <- HN2; exact Hj. } { intros j Hj; apply Hz; rewrite <- HN2; exact Hj. } { exact H5. } { exact H5. }
  fold N in E5, H5'. rewrite E5. cbn [bind].
  destruct (carray_of_carray n (fun _ => (0%num : CC))) as [Ca Cb].
  rewrite <- ED2 in H5'. rewrite Hh in H5'.
  destruct (f_carries_decoded F HF LOGN HL LOGQ (2 * LD) s ct2 (fun j => z j * z j)%num e (X * X)%R st2 (fst (carray (K := Rops) n (fun _ => (0%num : CC)))) (snd (carray (K := Rops) n (fun _ => (0%num : CC)))) ltac:(lia) ltac:(change (2 ^ 30) with 1073741824; lia) Hs Hst2) as (pt2 & st2' & y & E6 & E7 & _ & H7); [| |exact Hbig|exact H9|exact Ca|exact Cb|].
  { eapply (carries_ext LOGN (coef s)); [|apply Req_le|exact H5']; [|unfold e; ring]. intros j Hj. reflexivity. }
  { intros j Hj. rewrite modulus_mul. apply MM. exact Hj. }
  fold N n in E6, E7, H7. rewrite E6. cbn [bind]. rewrite int_in by lia. cbn [bind].
  match goal with |- context [f_decode_log F LOGQ LOGN st2 ?x ?y1 ?u ?v] => replace (f_decode_log F LOGQ LOGN st2 x y1 u v) with (Ok (st2', carray (K := Rops) n y)) by (symmetry; exact E7) end. cbn [bind].
  exists st', st2', pos3, y0, y. split; [reflexivity|]. intros j Hj. split; [|apply H7; exact Hj].
  eapply Rle_trans; [apply HM; exact Hj|]. rewrite p50. pose proof u_pos. specialize (MM j Hj).
  assert (u64 * (modulus (z j) * modulus (z j)) <= u64 * (X * X))%R by (apply Rmult_le_compat_l; lra). assert (0 <= X * X)%R by (apply Rmult_le_pos; lra). assert (0 <= u64 * (X * X))%R by (apply Rmult_le_pos; lra).
  pose proof (proj1 (tiny 0)) as ES. pose proof eta_pos. lra.
Qed.

(** ** evalMod_test, with the parameters of test.h: every slot printed is 0.0001 up to the error, in spite of the integer parts 0 to 23 *)
Theorem C126_EvalMod_test : forall F, double F -> forall LOGN fuel RM rng st st2 pos, 2 <= LOGN <= 14 -> rand_stream RM rng -> f_ifft_static F LOGN st -> f_fft_static F LOGN st2 ->
  keygen fuel (2 ^ LOGN) rng 128 (fresh (2 ^ LOGN)) pos = Diverge /\ f_evalmod_test F fuel 1450 LOGN 60 24 128 RM rng st st2 pos = Diverge \/
  exists st' st2' pos' y, f_evalmod_test F fuel 1450 LOGN 60 24 128 RM rng st st2 pos = Ok (st', st2', pos', carray (K := Rops) (2 ^ (LOGN - 1)) y) /\
    forall j, 0 <= j < 2 ^ (LOGN - 1) -> (modulus (y j - real (/ 10000))%num <= IZR (2 ^ LOGN) / 6000000 + 2 / 10000000000)%R.
Proof.
  intros F HF LOGN fuel RM rng st st2 pos HL Hrnd Hst Hst2. unfold f_evalmod_test. cbv zeta. pose proof (halfN LOGN ltac:(lia)) as Hh2. set (N := 2 ^ LOGN) in *. set (n := 2 ^ (LOGN - 1)) in *.
  assert (HN : 1 <= N) by (pose proof (pow2_pos LOGN ltac:(lia)); unfold N; lia).
  assert (HN2 : N = 2 * n) by (apply (N2 LOGN ltac:(lia))). assert (Eq : Z.quot N 2 = n) by (rewrite HN2, Z.mul_comm; apply Z.quot_mul; lia). rewrite Eq.
  destruct (C34_keygen fuel N rng RM 128 (fresh N) pos HN ltac:(lia) Hrnd (repeat_length _ _)) as [E0|(s & pos1 & E0 & Hs & Hh)]; [left; rewrite E0; split; reflexivity|right].
  rewrite E0. cbn [bind]. rewrite <- norm1_count in Hh by exact Hs. assert (Hn : 1 <= n) by lia. rewrite !(C68_new (K := Rops)) by lia. cbn [bind].
  destruct (C123_evalmod_message_double F n (carray (K := Rops) n (fun _ => (0%num : CC))) HF ltac:(lia) (carray_of_carray _ _)) as (z & E1 & Hm).
  match goal with |- context [f_set_evalmod_message F n ?a] => replace (f_set_evalmod_message F n a) with (Ok (carray (K := Rops) n z)) by (symmetry; exact E1) end. cbn [bind].
  assert (NR : (4 <= IZR N <= 16384)%R) by (split; apply IZR_le; [change 4 with (2 ^ 2)|change 16384 with (2 ^ 14)]; apply Z.pow_le_mono_r; lia).
  assert (NR2 : IZR N = (2 * IZR n)%R) by (rewrite HN2, mult_IZR; reflexivity).
  set (x := fun j : Z => (IZR (j mod 24) + / 10000)%R).
  assert (X0 : forall j, (0 <= x j <= 23 + / 10000)%R). { intros j. pose proof (Z.mod_pos_bound j 24 ltac:(lia)) as [A B]. apply IZR_le in A. assert (B' : j mod 24 <= 23) by lia. apply IZR_le in B'. unfold x. lra. }
  set (p48 := powerRZ 2 (-48)) in *. assert (P48 : (0 < p48 <= / 281474976710656)%R). { split; [apply p2_pos|]. apply Req_le. unfold p48. change (powerRZ 2 (-48)) with (/ 2 ^ 48)%R. f_equal. rewrite pow_IZR. f_equal. }
  set (p41 := powerRZ 2 (-41)) in *. assert (P41 : (0 < p41 <= / 2199023255552)%R). { split; [apply p2_pos|]. apply Req_le. unfold p41. change (powerRZ 2 (-41)) with (/ 2 ^ 41)%R. f_equal. rewrite pow_IZR. f_equal. }
  assert (P42 : (0 < powerRZ 2 (-42) <= / 4398046511104)%R). { split; [apply p2_pos|]. apply Req_le. change (powerRZ 2 (-42)) with (/ 2 ^ 42)%R. f_equal. rewrite pow_IZR. f_equal. }
  assert (P900 : (0 < powerRZ 2 (-900) <= p41)%R) by (split; [apply p2_pos|apply p2_le; lia]). assert (P1000 : (0 < powerRZ 2 (-1000) <= p48)%R) by (split; [apply p2_pos|apply p2_le; lia]).
  assert (ZR : forall j, 0 <= j < n -> z j = real (fst (z j))). { intros j Hj. destruct (Hm j Hj) as [A _]. unfold real. rewrite <- A. apply surjective_pairing. }
  assert (ZD : forall j, 0 <= j < n -> (modulus (z j - real (x j))%num <= p48)%R). { intros j Hj. rewrite (ZR j Hj), real_minus, modulus_real. apply (Hm j Hj). }
  assert (ZB : forall j, 0 <= j < n -> (modulus (z j) <= x j + p48)%R). { intros j Hj. eapply Rle_trans; [apply (modulus_near _ (real (x j)))|]. rewrite modulus_real, (Rabs_right (x j)) by (apply Rle_ge, X0). specialize (ZD j Hj). lra. }
  destruct (some_m LOGN ltac:(lia) z) as [m Hms]. fold N n in Hms.
  assert (MB : forall i, 0 <= i < N -> (Rabs (m i) <= 13)%R).
  { intros i Hi. pose proof (coef_slots_mean LOGN m (fun j => x j + p48)%R ltac:(lia)) as CM. fold N n in CM. specialize (CM ltac:(intros j Hj; rewrite (Hms j Hj); apply ZB; exact Hj) i Hi).
    pose proof (mod24_sum n ltac:(lia)) as M. fold x in M. rewrite rsum_add, rsum_const in CM by lia. assert (1 <= IZR n)%R by (apply IZR_le; lia).
    assert (IZR n * Rabs (m i) <= IZR n * 13)%R by nra. apply (Rmult_le_reg_l (IZR n)); [lra|assumption]. }
  set (P60 := 1152921504606846976%R). assert (E60 : IZR (2 ^ 60) = P60) by reflexivity.
  destruct (C83_encode_mean_double F HF 1450 LOGN ltac:(lia) ltac:(lia) (2 ^ 60) st z m 24%R 13%R (rq_new 1450 N)) as (st' & pt & c & E2 & _ & Hc & Hc2); auto; try lra.
  { split; [apply Z.pow_pos_nonneg; lia|apply Z.pow_lt_mono_r; lia]. } { apply objP_object; try lia. apply objP_new. }
  { split; [lra|]. apply Rle_trans with (powerRZ 2 10); [rewrite powerRZ_2 by lia; change (2 ^ 10) with 1024; lra|apply p2_le; lia]. }
  { intros j Hj. eapply Rle_trans; [apply ZB; exact Hj|]. specialize (X0 j). lra. }
  { rewrite E60. change (IZR (2 ^ 64)) with 18446744073709551616%R. fold p41. unfold P60. lra. }
  { apply Rlt_le_trans with (IZR (2 ^ 64)); [|apply IZR_le, Z.pow_le_mono_r; lia]. rewrite E60. change (IZR (2 ^ 64)) with 18446744073709551616%R. fold p41. unfold P60. lra. }
  fold N n in E2, Hc, Hc2. fold p41 in Hc2. rewrite E60 in Hc2.
  match goal with |- context [f_encode F 1450 LOGN st ?a ?b ?c ?d] => replace (f_encode F 1450 LOGN st a b c d) with (Ok (st', pt)) by (symmetry; exact E2) end. cbn [bind].
  destruct (C35_enc_dec 1450 N RM rng pt c s (sq_new 1450 N) pos1 (rq_new 1450 N)) as (ct & pos2 & e0 & pt' & E3 & He0 & _ & _ & Hd); auto; try lia.
  { apply new_object2; lia. } { apply objP_object; try lia. apply objP_new. }
  rewrite E3. cbn [bind].
  set (err := (IZR N * (25 * p41) + p48)%R).
  assert (H4 : carries 1450 N (coef s) ct (IZR (2 ^ 60)) (fun j => real (IZR (j mod 24) + / 10000)) err).
  { set (w := fun i => c i + e0 i) in *. exists w. split; [exact Hd|]. rewrite Hh2. intros j Hj. fold (x j). replace (slots N (IZR (2 ^ 60)) w j - real (x j))%num with ((slots N (IZR (2 ^ 60)) w j - z j) + (z j - real (x j)))%num by ring.
    eapply Rle_trans; [apply modulus_add|]. unfold err. apply Rplus_le_compat; [|apply ZD; exact Hj]. rewrite <- (Hms j Hj). unfold slots. rewrite <- slot_sub. apply modulus_slot; [lia|]. intros i Hi. specialize (Hc2 i Hi). specialize (He0 i Hi). rewrite E60.
    unfold w. rewrite plus_IZR. replace ((IZR (c i) + IZR (e0 i)) / P60 - m i)%R with ((IZR (c i) - m i * P60 + IZR (e0 i)) * / P60)%R by (unfold P60; field).
    assert (IP : (0 < / P60)%R) by (unfold P60; lra). rewrite Rabs_mult, (Rabs_right (/ P60)) by lra. apply Rle_trans with ((25 * p41 * P60) * / P60)%R; [|apply Req_le; unfold P60; field]. apply Rmult_le_compat_r; [lra|].
    eapply Rle_trans; [apply Rabs_triang|]. rewrite <- (abs_IZR (e0 i)). apply IZR_le in He0.
    assert (/ 2199023255552 <= p41)%R. { apply Req_le. unfold p41. change (powerRZ 2 (-41)) with (/ 2 ^ 41)%R. f_equal. rewrite pow_IZR. f_equal. } unfold P60 in *. lra. }
  set (delta := (IZR N * (105 / 100 * p41) + / 10000000000000000 * 4)%R).
  assert (D1 : (delta <= / IZR (10 ^ 8))%R). { unfold delta. change (10 ^ 8) with 100000000. assert (IZR N * (105 / 100 * p41) <= 16384 * (105 / 100 * p41))%R by (apply Rmult_le_compat_r; lra). lra. }
  assert (D2 : (err / 24 + 26 / IZR (2 ^ 60) + IZR N * IZR (1 + norm1 N (coef s)) / (2 * IZR (2 ^ 60)) + IZR N * (8 * IZR N + IZR (1 + norm1 N (coef s))) / (IZR (2 ^ 60) * IZR (2 ^ 60)) + 2 / IZR (10 ^ 16) <= delta)%R).
  { rewrite Hh. change (1 + 128) with 129. change (10 ^ 16) with 10000000000000000. unfold err, delta. rewrite E60.
    assert (T : (IZR N * (8 * IZR N + 129) / (P60 * P60) <= IZR N * / 100 / P60)%R).
    { unfold Rdiv. rewrite Rinv_mult. rewrite <- !Rmult_assoc. apply Rmult_le_compat_r; [unfold P60; lra|]. rewrite Rmult_assoc. apply Rmult_le_compat_l; [lra|]. unfold P60. lra. }
    eapply Rle_trans; [apply Rplus_le_compat_r, Rplus_le_compat_l; exact T|]. assert (/ 2199023255552 <= p41)%R. { apply Req_le. unfold p41. change (powerRZ 2 (-41)) with (/ 2 ^ 41)%R. f_equal. rewrite pow_IZR. f_equal. }
    assert (IZR N * (/ 2199023255552) <= IZR N * p41)%R by (apply Rmult_le_compat_l; lra). unfold P60. lra. }
  set (err' := (340000 * delta + 3 / IZR (10 ^ 12) + 117 * (/ 10000) ^ 5)%R).
  destruct (C112_EvalMod_double F HF LOGN 60 1450 RM rng pos2 s ct (fun j => j mod 24) (fun _ => (/ 10000)%R) (/ 10000)%R err delta (sq_new (1450 - 12 * 60) N)) as (pos3 & cc & E4 & H5); auto.
  { apply rns_params. lia. } { intros j. specialize (X0 j). unfold x in X0. apply Rabs_le. split; lra. } { intros j. rewrite Rabs_right by lra. lra. } { apply new_object2; lia. }
  fold N err' in E4, H5. rewrite E4. cbn [bind].
  destruct (carray_of_carray n (fun _ => 0%num)) as [Ca Cb].
  assert (NP : (0 <= IZR N * p41 <= IZR N * / 2199023255552)%R) by (split; [apply Rmult_le_pos|apply Rmult_le_compat_l]; lra).
  assert (Herr' : (0 <= err' <= 1)%R). { unfold err', delta. change (10 ^ 12) with 1000000000000. cbn [pow]. split; lra. }
  destruct (f_carries_decoded F HF LOGN ltac:(lia) (1450 - 12 * 60) 60 s cc (fun _ => real (/ 10000)) err' 1%R st2 (fst (carray (K := Rops) n (fun _ => (0%num : CC)))) (snd (carray (K := Rops) n (fun _ => (0%num : CC)))) ltac:(lia) ltac:(change (2 ^ 30) with 1073741824; lia) Hs Hst2 H5) as (pt2 & st2' & y & E6 & E7 & _ & H7); [| | |exact Ca|exact Cb|].
  { intros j Hj. rewrite modulus_real, Rabs_right by lra. lra. }
  { apply Rle_lt_trans with (IZR (2 ^ 60) * 2)%R; [apply Rmult_le_compat_l; [apply IZR_le, Z.pow_nonneg; lia|lra]|]. rewrite <- (mult_IZR _ 2). apply IZR_lt. change (2 ^ 60 * 2) with (2 ^ 61). apply Z.pow_lt_mono_r; lia. }
  { apply Rle_trans with (powerRZ 2 10); [rewrite powerRZ_2 by lia; change (2 ^ 10) with 1024; lra|apply p2_le; lia]. }
  fold N n in E6, E7, H7. rewrite E6. cbn [bind].
  match goal with |- context [f_decode_log F ?a0 LOGN st2 ?a ?b ?c ?d] => replace (f_decode_log F a0 LOGN st2 a b c d) with (Ok (st2', carray (K := Rops) n y)) by (symmetry; exact E7) end. cbn [bind].
  exists st', st2', pos3, y. split; [reflexivity|]. intros j Hj. specialize (H7 j Hj). eapply Rle_trans; [exact H7|].
  apply Rle_trans with (err' + dec_off N 2)%R; [apply Rplus_le_compat_l; apply (dec_off_mono LOGN ltac:(lia)); lra|]. unfold dec_off.
  assert (powerRZ 2 (-42) * (IZR N * 2) <= / 4398046511104 * (IZR N * 2))%R by (apply Rmult_le_compat_r; lra).
  unfold err', delta. change (10 ^ 12) with 1000000000000. cbn [pow]. lra.
Qed.

(** ** With the constants of test.h *)
Lemma num_enc_off : (0 <= enc_off 50 1 / IZR (2 ^ 50) <= 46 / 10 ^ 14)%R.
Proof.
  unfold enc_off. rewrite Rmult_1_l. change (IZR (2 ^ 50)) with 1125899906842624%R. pose proof (p2_pos (-41)). pose proof (p2_pos (-900)). pose proof (p2_le (-900) (-41) ltac:(lia)).
  assert (P : powerRZ 2 (-41) = (/ 2199023255552)%R) by (change (powerRZ 2 (-41)) with (/ 2 ^ 41)%R; f_equal; rewrite pow_IZR; f_equal). rewrite P in *. cbn [pow]. split; lra.
Qed.
Lemma num_top50 : (1 * IZR (2 ^ 50) + powerRZ 2 (-41) * (1 * IZR (2 ^ 50)) + 2 < IZR (2 ^ 64))%R.
Proof. pose proof (small_p (-41) ltac:(lia)). change (2 ^ 50) with 1125899906842624. change (2 ^ 64) with 18446744073709551616. lra. Qed.
Lemma num_dec_off A : (0 <= A <= 2)%R -> (dec_off 512 A <= 24 / 10 ^ 11)%R.
Proof.
  intros HA. unfold dec_off. pose proof (p2_le (-1000) (-42) ltac:(lia)). pose proof (p2_pos (-1000)). assert (P : powerRZ 2 (-42) = (/ 4398046511104)%R) by (change (powerRZ 2 (-42)) with (/ 2 ^ 42)%R; f_equal; rewrite pow_IZR; f_equal).
  rewrite P in *. cbn [pow]. lra.
Qed.
Lemma one_900 : (2 <= powerRZ 2 900)%R.
Proof. pose proof p2_1. pose proof (p2_le 1 900 ltac:(lia)). lra. Qed.

(** conv_test.cpp *)
Theorem C126_conv_test_parameters : forall F, double F -> forall st st2 a b, f_ifft_static F 9 st -> f_fft_static F 9 st2 -> random_message 256 a -> random_message 256 b ->
  exists st' st2' c0 c, f_conv_test F 1450 9 50 st st2 (carray (K := Rops) 256 a) (carray (K := Rops) 256 b) = Ok (st', st2', (carray (K := Rops) 256 c0, carray (K := Rops) 256 c)) /\
    forall j, 0 <= j < 256 -> (modulus (c0 j - a j * b j)%num <= / 10 ^ 14)%R /\ (modulus (c j - a j * b j)%num <= / 10 ^ 9)%R.
Proof.
  intros F HF st st2 a b Hst Hst2 Ha Hb. pose proof num_enc_off as EO. set (e := (IZR (2 ^ 9) * (enc_off 50 1 / IZR (2 ^ 50)))%R).
  assert (He : (0 <= e <= 24 / 10 ^ 11)%R). { unfold e. change (2 ^ 9) with 512. cbn [pow] in *. lra. }
  assert (Hee : (0 <= e * e <= 1 / 10 ^ 11)%R). { split; [apply Rmult_le_pos; lra|]. apply Rle_trans with (24 / 10 ^ 11 * (24 / 10 ^ 11))%R; [apply Rmult_le_compat; lra|]. cbn [pow]. lra. }
  destruct (C126_conv_test F HF 9 ltac:(lia) 1450 50 st st2 a b 1%R ltac:(lia) ltac:(lia) Hst Hst2 (random_message_modulus _ _ Ha) (random_message_modulus _ _ Hb) num_top50) as (st' & st2' & c0 & c & E & H).
  { fold e. apply Rle_lt_trans with (IZR (2 ^ (2 * 50)) * 4)%R.
    - apply Rmult_le_compat_l; [apply IZR_le; vm_compute; discriminate|]. cbn [pow] in *. lra.
    - rewrite <- mult_IZR. apply IZR_lt. vm_compute. reflexivity. }
  exists st', st2', c0, c. split; [exact E|]. intros j Hj. destruct (H j Hj) as [H1 H2]. fold e in H2. change (2 ^ 9) with 512 in H2. split.
  - eapply Rle_trans; [exact H1|]. pose proof (p2_le (-1000) (-50) ltac:(lia)). assert (P : powerRZ 2 (-50) = (/ 1125899906842624)%R) by (change (powerRZ 2 (-50)) with (/ 2 ^ 50)%R; f_equal; rewrite pow_IZR; f_equal). rewrite P in *. cbn [pow]. lra.
  - eapply Rle_trans; [exact H2|]. pose proof (num_dec_off (1 * 1 + (2 * 1 * e + e * e)) ltac:(cbn [pow] in *; lra)). cbn [pow] in *. lra.
Qed.

(** ctxt_conv_test.cpp *)
Theorem C126_ctxt_conv_test_parameters : forall F, double F -> forall fuel RM rng st st2 pos z, rand_stream RM rng -> f_ifft_static F 9 st -> f_fft_static F 9 st2 -> random_message 256 z ->
  keygen fuel 512 rng 128 (fresh 512) pos = Diverge /\ f_ctxt_conv_test F fuel 1450 9 50 128 RM rng st st2 pos (carray (K := Rops) 256 z) = Diverge \/
  exists st' st2' pos' y0 y, f_ctxt_conv_test F fuel 1450 9 50 128 RM rng st st2 pos (carray (K := Rops) 256 z) = Ok (st', st2', pos', (carray (K := Rops) 256 y0, carray (K := Rops) 256 y)) /\
    forall j, 0 <= j < 256 -> (modulus (y0 j - z j * z j)%num <= / 10 ^ 14)%R /\ (modulus (y j - z j * z j)%num <= / 10 ^ 9)%R.
Proof.
  intros F HF fuel RM rng st st2 pos z Hr Hst Hst2 Hz. pose proof num_enc_off as EO. set (e0 := (IZR (2 ^ 9) * ((enc_off 50 1 + 8) / IZR (2 ^ 50)))%R).
  set (e := (2 * 1 * e0 + e0 * e0 + IZR (2 ^ 9) * IZR (8 * 2 ^ 9 + 1 + 128) / (2 * IZR (2 ^ (2 * 50))))%R).
  assert (He0 : (0 <= e0 <= 25 / 10 ^ 11)%R). { unfold e0. replace ((enc_off 50 1 + 8) / IZR (2 ^ 50))%R with (enc_off 50 1 / IZR (2 ^ 50) + 8 / IZR (2 ^ 50))%R by (unfold Rdiv; ring). set (y := (enc_off 50 1 / IZR (2 ^ 50))%R) in *. change (2 ^ 9) with 512. change (2 ^ 50) with 1125899906842624. cbn [pow] in *. lra. }
  assert (Hee : (0 <= e0 * e0 <= 1 / 10 ^ 11)%R). { split; [apply Rmult_le_pos; lra|]. apply Rle_trans with (25 / 10 ^ 11 * (25 / 10 ^ 11))%R; [apply Rmult_le_compat; lra|]. cbn [pow]. lra. }
  assert (He : (0 <= e <= 52 / 10 ^ 11)%R). { unfold e. change (2 ^ (2 * 50)) with 1267650600228229401496703205376. change (8 * 2 ^ 9 + 1 + 128) with 4225. change (2 ^ 9) with 512. cbn [pow] in *. lra. }
  destruct (C126_ctxt_conv_test F HF fuel 1450 9 50 128 RM rng st st2 pos z 1%R ltac:(lia) ltac:(lia) ltac:(lia) ltac:(lia) Hr Hst Hst2 (random_message_modulus _ _ Hz) num_top50) as [[E1 E2]|(st' & st2' & pos' & y0 & y & E & H)].
  { fold e0. fold e. apply Rle_lt_trans with (IZR (2 ^ (2 * 50)) * 4)%R.
    - apply Rmult_le_compat_l; [apply IZR_le; vm_compute; discriminate|]. cbn [pow] in *. lra.
    - rewrite <- mult_IZR. apply IZR_lt. vm_compute. reflexivity. }
  { fold e0. fold e. pose proof one_900. cbn [pow] in *. lra. }
  - left. split; [exact E1|exact E2].
  - right. exists st', st2', pos', y0, y. split; [exact E|]. intros j Hj. destruct (H j Hj) as [H1 H2]. fold e0 in H2. fold e in H2. change (2 ^ 9) with 512 in H2. split.
    + eapply Rle_trans; [exact H1|]. pose proof (p2_le (-1000) (-50) ltac:(lia)). assert (P : powerRZ 2 (-50) = (/ 1125899906842624)%R) by (change (powerRZ 2 (-50)) with (/ 2 ^ 50)%R; f_equal; rewrite pow_IZR; f_equal). rewrite P in *. cbn [pow]. lra.
    + eapply Rle_trans; [exact H2|]. pose proof (num_dec_off (1 * 1 + e) ltac:(cbn [pow] in *; lra)). cbn [pow] in *. lra.
Qed.

(** test.h: LOGN = 9, with the results 0, 1, 2, ... of rand(), in IEEE double precision *)
Example C126_case : exists fuel st' st2' pos' y, f_evalmod_test F64 fuel 1450 9 60 24 128 (2 ^ 31 - 1) counting None None 0 = Ok (st', st2', pos', carray (K := Rops) 256 y) /\
  forall j, 0 <= j < 256 -> (modulus (y j - real (/ 10000))%num <= 86 / 1000000)%R.
Proof.
  destruct (C34_keygen_returns (2 ^ 9) counting (2 ^ 31 - 1) 128 (fresh (2 ^ 9)) 0 ltac:(lia) ltac:(lia) counting_stream (repeat_length _ _)) as (fu & r & HF).
  { intros j p Hj. exists (Z.to_nat (512 * Z.of_nat p + j)). split; [lia|]. unfold counting. rewrite Z2Nat.id by lia. change (2 ^ 9) with 512 in *. change (2 ^ 31) with (512 * 4194304).
    rewrite Z.rem_mul_r by lia. rewrite (Z.mul_comm 512 (_ mod 4194304)), Z.mod_add by lia. rewrite Z.mod_mod by lia. rewrite Z.add_comm, Z.mul_comm, Z.mod_add, Z.mod_small by lia. reflexivity. }
  exists fu. destruct (C126_EvalMod_test F64 C87_binary64 9 fu (2 ^ 31 - 1) counting None None 0 ltac:(lia) counting_stream) as [[E _]|(st' & st2' & pos' & y & E & L)]; [constructor; reflexivity|constructor; reflexivity|rewrite (HF fu (le_n fu)) in E; discriminate|].
  exists st', st2', pos', y. split; [exact E|]. intros j Hj. eapply Rle_trans; [apply (L j Hj)|]. change (2 ^ 9) with 512. lra.
Qed.
