(** C102: what dft_test, conv_test and ctxt_conv_test print. *)
From Coq Require Import ZArith List Bool Lia Reals Lra Ring.
From Verif Require Import Base BaseFacts Sums ZQ RQ Util GSum Rot Conv Core SpecZQ SpecPoly SpecScheme ZQFacts RQFacts ConvFacts Matrix MatrixFacts MatMulFacts DFT DFTTheory DFTFacts FFTFacts SpecMat SpecDFT SpecEnc SlotFacts Encode EncodeFacts
  SpecEval EvalFacts EvalMod Plain PlainFacts StatFacts Properties_Conv Properties_Core Properties_Rot Properties_DFT Properties_Mat Properties_Msg Properties_Enc Properties_Plain SpecLin LinTrans LinTransFacts LinSlots BootSlots Properties_Stat Properties_MatErr.
From Verif Require Import Section3 Section4 Messages SupFacts MeasFacts Measure EmTest.
From Verif Require Import TestProg.
Import ListNotations.
Open Scope Z_scope.
Add Ring RCtl : HR.

Lemma half_quot LOGN : 2 <= LOGN -> Z.quot (2 ^ LOGN) 2 = 2 ^ (LOGN - 1).
Proof. intros H. replace LOGN with (LOGN - 1 + 1) at 1 by lia. rewrite Z.pow_add_r, Z.pow_1_r by lia. apply Z.quot_mul. lia. Qed.

(** ** dft_test *)
(** ifft_test prints the same coefficients twice, and they are integers divided by Delta: the coefficients of set_test_message rounded *)
Theorem C102_ifft_test : forall LOGN Delta st st2, 2 <= LOGN <= 17 -> ifft_static LOGN st -> fft_static LOGN st2 ->
  exists st' st2' m, (forall j, 0 <= j < 2 ^ (LOGN - 1) -> slot (2 ^ LOGN) m j = circle (IZR j / IZR (2 ^ (LOGN - 1)) * PI_macro)) /\
    exists c, (forall i, 0 <= i < 2 ^ LOGN -> nearest (m i * IZR Delta) (c i)) /\
    ifft_test LOGN Delta st st2 = Ok (st', st2', (array (2 ^ LOGN) (fun i => (IZR (c i) / IZR Delta)%R), array (2 ^ LOGN) (fun i => (IZR (c i) / IZR Delta)%R))).
Proof.
  intros LOGN Delta st st2 HL Hst Hst2. set (N := 2 ^ LOGN). set (n := 2 ^ (LOGN - 1)). assert (Hn : 0 < n) by (apply Z.pow_pos_nonneg; lia).
  unfold ifft_test. cbv zeta. fold N. assert (Eq : Z.quot N 2 = n) by (apply half_quot; lia). rewrite Eq. rewrite (C68_new (K := Rops)) by lia. cbn [bind].
  destruct (C95_test_message n (carray (K := Rops) n (fun _ => (0%num : CC))) ltac:(lia) (carray_of_carray _ _)) as [E1 _].
  match goal with |- context [set_test_message n ?a] => replace (set_test_message n a) with (Ok (carray (K := Rops) n (fun j => circle (IZR j / IZR n * PI_macro)))) by (symmetry; exact E1) end. cbn [bind].
  destruct (some_m LOGN ltac:(lia) (fun j => circle (IZR j / IZR n * PI_macro))) as [m Hm]. fold N n in Hm.
  destruct (rounded_message_ok LOGN HL Delta st st2 _ m Hst Hst2 Hm) as (st1 & st2' & E2 & H1 & H2). fold N n in E2.
  match goal with |- context [rounded_message LOGN Delta st st2 ?a] => replace (rounded_message LOGN Delta st st2 a) with (Ok (st1, st2', carray (K := Rops) n (slots N (IZR Delta) (fun i => rround (m i * IZR Delta))))) by (symmetry; exact E2) end. cbn [bind].
  set (z := slots N (IZR Delta) (fun i => rround (m i * IZR Delta))).
  destruct (C52_ifft_idft LOGN ltac:(lia) st1 z (gfresh R N) H1 (repeat_length _ _)) as (st' & m' & E3 & E4). fold N n in E3, E4.
  match goal with |- context [idft N ?a ?b ?c] => replace (idft N a b c) with (Ok m') by (symmetry; exact E4) end. cbn [bind].
  match goal with |- context [ifft LOGN st1 ?a ?b ?c] => replace (ifft LOGN st1 a b c) with (Ok (st', m')) by (symmetry; exact E3) end. cbn [bind].
  exists st', st2', m. split; [exact Hm|]. exists (fun i => rround (m i * IZR Delta)). split; [intros i Hi; apply rround_near|].
  destruct (ifft_slots LOGN ltac:(lia) st1 z (fun i => IZR (rround (m i * IZR Delta)) / IZR Delta)%R (gfresh R N) H1 (repeat_length _ _)) as [st'' E5]; [reflexivity|]. fold N n in E5.
  assert (Em : m' = gtab N (fun i => IZR (rround (m i * IZR Delta)) / IZR Delta)%R).
  { assert (X : Ok (st', m') = Ok (st'', gtab N (fun i => IZR (rround (m i * IZR Delta)) / IZR Delta)%R)) by (rewrite <- E5; symmetry; exact E3). injection X as _ X. exact X. }
  rewrite array_gtab, <- Em. reflexivity.
Qed.

(** run_test prints the message it started from *)
Theorem C102_run_test : forall LOGN st st2 (z : Z -> CC), 2 <= LOGN <= 27 -> ifft_static LOGN st -> fft_static LOGN st2 ->
  exists st' st2', fft_run_test LOGN st st2 (carray (K := Rops) (2 ^ (LOGN - 1)) z) = Ok (st', st2', carray (K := Rops) (2 ^ (LOGN - 1)) z).
Proof.
  intros LOGN st st2 z HL Hst Hst2. set (N := 2 ^ LOGN). set (n := 2 ^ (LOGN - 1)). assert (Hn : 0 < n) by (apply Z.pow_pos_nonneg; lia).
  unfold fft_run_test. cbv zeta. fold N. assert (Eq : Z.quot N 2 = n) by (apply half_quot; lia). rewrite Eq. rewrite (C68_new (K := Rops)) by lia. cbn [bind].
  destruct (C52_fft_ifft LOGN ltac:(lia) st z (gfresh R N) Hst (repeat_length _ _)) as (st' & c & E1 & H1). fold N n in E1, H1.
  match goal with |- context [ifft LOGN st ?a ?b ?c0] => replace (ifft LOGN st a b c0) with (Ok (st', array N c)) by (symmetry; exact E1) end. cbn [bind].
  destruct (carray_of_carray n (fun _ => (0%num : CC))) as [Ca Cb].
  destruct (C51_fft LOGN ltac:(lia) st2 c _ _ Hst2 Ca Cb) as [st2' E2]. fold N n in E2.
  match goal with |- context [fft LOGN st2 ?a ?b ?c0] => replace (fft LOGN st2 a b c0) with (Ok (st2', carray (K := Rops) n (slot N c))) by (symmetry; exact E2) end. cbn [bind].
  exists st', st2'. apply f_equal. apply f_equal2; [reflexivity|]. exact (carray_ext LOGN (slot N c) z H1).
Qed.

(** ** conv_test *)
Lemma encode_slots LOGN Q LD st (z : Z -> CC) X : 2 <= LOGN <= 17 -> 66 <= Q -> 0 <= LD <= 63 -> ifft_static LOGN st -> (forall j, 0 <= j < 2 ^ (LOGN - 1) -> (modulus (z j) <= X)%R) ->
  (X * IZR (2 ^ LD) <= IZR (2 ^ 64) - 1)%R ->
  exists st' pt c, encode Q LOGN st (fst (carray (K := Rops) (2 ^ (LOGN - 1)) z)) (snd (carray (K := Rops) (2 ^ (LOGN - 1)) z)) (2 ^ LD) (rq_new Q (2 ^ LOGN)) = Ok (st', pt) /\
    holdsP Q (2 ^ LOGN) pt c /\ forall j, 0 <= j < 2 ^ (LOGN - 1) -> (modulus (slots (2 ^ LOGN) (IZR (2 ^ LD)) c j - z j)%num <= IZR (2 ^ LOGN) / (2 * IZR (2 ^ LD)))%R.
Proof.
  intros HL HQ HLD Hst HX Hb. set (N := 2 ^ LOGN). set (n := 2 ^ (LOGN - 1)) in *. destruct (some_m LOGN ltac:(lia) z) as [m Hm]. fold N n in Hm.
  assert (HN : 1 <= N) by (pose proof (pow2_pos LOGN ltac:(lia)); unfold N; lia).
  assert (PD : (0 < IZR (2 ^ LD))%R) by (apply IZR_lt, Z.pow_pos_nonneg; lia).
  assert (MB : forall i, 0 <= i < N -> (Rabs (m i) * IZR (2 ^ LD) <= IZR (2 ^ 64) - 1)%R).
  { intros i Hi. pose proof (coef_slots LOGN m X ltac:(lia)) as C. specialize (C ltac:(intros j Hj; fold N; rewrite Hm by auto; auto) i Hi).
    eapply Rle_trans; [|exact Hb]. apply Rmult_le_compat_r; lra. }
  assert (W64 : (IZR (2 ^ 64) <= IZR (2 ^ Q))%R) by (apply IZR_le, Z.pow_le_mono_r; lia).
  destruct (C54_encode Q LOGN ltac:(lia) ltac:(lia) (2 ^ LD) st z m (rq_new Q N)) as (st' & pt & c & E1 & Hc & Hc2).
  { split; [apply Z.pow_pos_nonneg; lia|apply Z.pow_lt_mono_r; lia]. }
  { exact Hst. } { apply objP_object; try lia. apply objP_new. } { exact Hm. }
  { intros i Hi. specialize (MB i Hi). split; lra. }
  exists st', pt, c. split; [exact E1|]. split; [exact Hc|]. intros j Hj. rewrite <- (Hm j Hj). unfold slots. rewrite <- slot_sub.
  replace (IZR N / (2 * IZR (2 ^ LD)))%R with (IZR N * (/ 2 * / IZR (2 ^ LD)))%R by (field; lra). apply modulus_slot; [lia|]. intros i Hi. destruct (Hc2 i Hi) as [Hr _]. unfold nearest in Hr.
  replace (IZR (c i) / IZR (2 ^ LD) - m i)%R with ((IZR (c i) - m i * IZR (2 ^ LD)) * / IZR (2 ^ LD))%R by (field; lra).
  rewrite Rabs_mult, (Rabs_right (/ IZR (2 ^ LD))) by (apply Rle_ge, Rlt_le, Rinv_0_lt_compat; auto). apply Rmult_le_compat_r; [apply Rlt_le, Rinv_0_lt_compat; auto|]. lra.
Qed.
(** decode_log of an object that holds c, when the slots of c are small *)
Lemma decode_slots LOGN Q LD st2 pt c B zr zi : 2 <= LOGN <= 17 -> 1 <= Q <= 2 ^ 20 -> 0 <= LD <= 200 -> fft_static LOGN st2 -> holdsP Q (2 ^ LOGN) pt c ->
  (forall j, 0 <= j < 2 ^ (LOGN - 1) -> (modulus (slots (2 ^ LOGN) (IZR (2 ^ LD)) c j) <= B)%R) -> (IZR (2 ^ LD) * B < IZR (2 ^ (Q - 1)))%R ->
  cells (2 ^ (LOGN - 1)) zr -> cells (2 ^ (LOGN - 1)) zi ->
  exists st2', decode_log Q LOGN st2 pt LD zr zi = Ok (st2', carray (K := Rops) (2 ^ (LOGN - 1)) (slots (2 ^ LOGN) (IZR (2 ^ LD)) c)).
Proof.
  intros HL HQ HLD Hst2 Hc HB Hb Hr Hi. change (2 ^ 20) with 1048576 in HQ.
  destruct (C56_decode_log Q LOGN ltac:(lia) ltac:(lia) LD st2 pt c zr zi) as [st2' E]; auto; try (change (2 ^ 30) with 1073741824; lia).
  { split; [exact Hc|]. apply (signed_slots Q LOGN c (IZR (2 ^ LD)) B); auto; try lia. apply IZR_lt, Z.pow_pos_nonneg; lia. }
  exists st2'. rewrite E, powerRZ_2 by lia. reflexivity.
Qed.

(** Both messages are printed: c_orig is the product, and c is the product up to the rounding of the two encodings *)
Theorem C102_conv_test : forall LOGQ LOGN LD st st2 (a b : Z -> CC) X, 2 <= LOGN <= 17 -> 66 <= LOGQ <= 3051 -> 0 <= LD <= 63 -> ifft_static LOGN st -> fft_static LOGN st2 ->
  (forall j, 0 <= j < 2 ^ (LOGN - 1) -> (modulus (a j) <= X)%R) -> (forall j, 0 <= j < 2 ^ (LOGN - 1) -> (modulus (b j) <= X)%R) ->
  (X * IZR (2 ^ LD) <= IZR (2 ^ 64) - 1)%R ->
  let e := (IZR (2 ^ LOGN) / (2 * IZR (2 ^ LD)))%R in
  (IZR (2 ^ (2 * LD)) * (X + e) ^ 2 < IZR (2 ^ (LOGQ - 1)))%R ->
  exists st' st2' c, conv_test LOGQ LOGN LD st st2 (carray (K := Rops) (2 ^ (LOGN - 1)) a) (carray (K := Rops) (2 ^ (LOGN - 1)) b) =
    Ok (st', st2', (carray (K := Rops) (2 ^ (LOGN - 1)) (fun j => a j * b j)%num, carray (K := Rops) (2 ^ (LOGN - 1)) c)) /\
    forall j, 0 <= j < 2 ^ (LOGN - 1) -> (modulus (c j - a j * b j)%num <= 2 * X * e + e * e)%R.
Proof.
  intros LOGQ LOGN LD st st2 a b X HL HQ HLD Hst Hst2 Ha Hb HX e Hbig. set (N := 2 ^ LOGN) in *. set (n := 2 ^ (LOGN - 1)) in *. assert (Hn : 0 < n) by (apply Z.pow_pos_nonneg; lia).
  assert (HN : 1 <= N) by (pose proof (pow2_pos LOGN ltac:(lia)); unfold N; lia). set (D := IZR (2 ^ LD)) in *. assert (PD : (0 < D)%R) by (apply IZR_lt, Z.pow_pos_nonneg; lia).
  unfold conv_test. cbv zeta. fold N. assert (Eq : Z.quot N 2 = n) by (apply half_quot; lia). rewrite Eq. rewrite !(C68_new (K := Rops)) by lia. cbn [bind].
  destruct (encode_slots LOGN LOGQ LD st a X HL ltac:(lia) HLD Hst Ha HX) as (st1 & pa & ca & E1 & H1 & S1). fold N n D e in E1, H1, S1.
  match goal with |- context [encode LOGQ LOGN st ?x ?y ?u ?v] => replace (encode LOGQ LOGN st x y u v) with (Ok (st1, pa)) by (symmetry; exact E1) end. cbn [bind].
  pose proof (encode_static LOGQ LOGN _ _ _ _ _ _ _ Hst E1) as Hst1.
  destruct (encode_slots LOGN LOGQ LD st1 b X HL ltac:(lia) HLD Hst1 Hb HX) as (st' & pb & cb & E2 & H2 & S2). fold N n D e in E2, H2, S2.
  match goal with |- context [encode LOGQ LOGN st1 ?x ?y ?u ?v] => replace (encode LOGQ LOGN st1 x y u v) with (Ok (st', pb)) by (symmetry; exact E2) end. cbn [bind].
  rewrite (C68_mul (K := Rops)) by (try lia; apply carray_of_carray). cbn [bind].
  destruct (C27_conv LOGN LOGQ pa pb (rq_new LOGQ N) ca cb ltac:(lia) ltac:(unfold widths; lia) H1 H2) as (pc & E3 & H3). { apply objP_object; try lia. apply objP_new. }
  fold N in E3, H3. rewrite E3. cbn [bind]. rewrite int_in by lia. cbn [bind].
  assert (ED2 : IZR (2 ^ (2 * LD)) = (D * D)%R) by (unfold D; rewrite <- mult_IZR, <- Z.pow_add_r by lia; do 2 f_equal; lia).
  assert (S3 : forall j, 0 <= j < n -> (modulus (slots N (IZR (2 ^ (2 * LD))) (negconv N ca cb) j - a j * b j)%num <= X * e + X * e + e * e)%R).
  { intros j Hj. rewrite ED2, slots_negconv by (try lia; lra). apply near_mul; auto. }
  destruct (carray_of_carray n (fun _ => (0%num : CC))) as [Ca Cb].
  destruct (decode_slots LOGN LOGQ (2 * LD) st2 pc (negconv N ca cb) ((X + e) ^ 2)%R (fst (carray (K := Rops) n (fun _ => (0%num : CC)))) (snd (carray (K := Rops) n (fun _ => (0%num : CC)))) HL ltac:(change (2 ^ 20) with 1048576; lia) ltac:(lia) Hst2 H3) as [st2' E4]; [|exact Hbig|exact Ca|exact Cb|].
  { intros j Hj. fold N. rewrite ED2, slots_negconv by (try lia; lra). rewrite modulus_mul. pose proof (modulus_nonneg (slots N D ca j)). pose proof (modulus_nonneg (slots N D cb j)).
    replace ((X + e) ^ 2)%R with ((X + e) * (X + e))%R by ring. apply Rmult_le_compat; auto; [eapply Rle_trans; [apply (modulus_near _ (a j))|apply Rplus_le_compat; [apply Ha; exact Hj|apply S1; exact Hj]]|eapply Rle_trans; [apply (modulus_near _ (b j))|apply Rplus_le_compat; [apply Hb; exact Hj|apply S2; exact Hj]]]. }
  fold N n in E4. replace (LD * 2) with (2 * LD) by lia.
  match goal with |- context [decode_log LOGQ LOGN st2 ?x ?y ?u ?v] => replace (decode_log LOGQ LOGN st2 x y u v) with (Ok (st2', carray (K := Rops) n (slots N (IZR (2 ^ (2 * LD))) (negconv N ca cb)))) by (symmetry; exact E4) end. cbn [bind].
  exists st', st2', (slots N (IZR (2 ^ (2 * LD))) (negconv N ca cb)). split; [reflexivity|]. intros j Hj. specialize (S3 j Hj). lra.
Qed.

(** ** ctxt_conv_test *)
Theorem C102_ctxt_conv_test : forall fuel LOGQ LOGN LD h RM rnd st st2 pos (z : Z -> CC) X, 2 <= LOGN <= 17 -> 66 <= LOGQ <= 1525 -> 0 <= LD <= 50 -> 0 <= h -> rand_stream RM rnd -> ifft_static LOGN st -> fft_static LOGN st2 ->
  (forall j, 0 <= j < 2 ^ (LOGN - 1) -> (modulus (z j) <= X)%R) -> (X * IZR (2 ^ LD) <= IZR (2 ^ 64) - 1)%R ->
  let e0 := (IZR (2 ^ LOGN) * (17 / 2) / IZR (2 ^ LD))%R in
  let e := (2 * X * e0 + e0 * e0 + IZR (2 ^ LOGN) * IZR (8 * 2 ^ LOGN + 1 + h) / (2 * IZR (2 ^ (2 * LD))))%R in
  (IZR (2 ^ (2 * LD)) * (X * X + e) < IZR (2 ^ (LOGQ - 1)))%R ->
  keygen fuel (2 ^ LOGN) rnd h (fresh (2 ^ LOGN)) pos = Diverge /\ ctxt_conv_test fuel LOGQ LOGN LD h RM rnd st st2 pos (carray (K := Rops) (2 ^ (LOGN - 1)) z) = Diverge \/
  exists st' st2' pos' y, ctxt_conv_test fuel LOGQ LOGN LD h RM rnd st st2 pos (carray (K := Rops) (2 ^ (LOGN - 1)) z) =
    Ok (st', st2', pos', (carray (K := Rops) (2 ^ (LOGN - 1)) (fun j => z j * z j)%num, carray (K := Rops) (2 ^ (LOGN - 1)) y)) /\
    forall j, 0 <= j < 2 ^ (LOGN - 1) -> (modulus (y j - z j * z j)%num <= e)%R.
Proof.
  intros fuel LOGQ LOGN LD h RM rnd st st2 pos z X HL HQ HLD Hh0 Hrnd Hst Hst2 Hz HX e0 e Hbig. set (N := 2 ^ LOGN) in *. set (n := 2 ^ (LOGN - 1)) in *. assert (Hn : 0 < n) by (apply Z.pow_pos_nonneg; lia).
  assert (HN : 1 <= N) by (pose proof (pow2_pos LOGN ltac:(lia)); unfold N; lia).
  assert (HN2 : N / 2 = n) by (unfold N, n; rewrite (N2 LOGN ltac:(lia)), (Z.mul_comm 2), Z.div_mul by lia; reflexivity).
  assert (HN30 : N <= 2 ^ 17) by (apply Z.pow_le_mono_r; lia).
  unfold ctxt_conv_test. cbv zeta. fold N. assert (Eq : Z.quot N 2 = n) by (apply half_quot; lia). rewrite Eq. rewrite !(C68_new (K := Rops)) by lia. cbn [bind].
  rewrite (C68_mul (K := Rops)) by (try lia; apply carray_of_carray). cbn [bind].
  destruct (C34_keygen fuel N rnd RM h (fresh N) pos HN ltac:(lia) Hrnd (repeat_length _ _)) as [E0|(s & pos1 & E0 & Hs & Hh)]; [left; rewrite E0; split; reflexivity|right].
  rewrite E0. cbn [bind]. rewrite <- norm1_count in Hh by exact Hs.
  destruct Hs as [Hl Hf] eqn:EHs. destruct (C33_conv_int_ternary N s s (fresh N) ltac:(change (2 ^ 17) with 131072 in HN30; change (2 ^ 30) with 1073741824; lia) Hl Hl (repeat_length _ _) Hf Hf) as (s2 & E1 & Hl2 & H1). rewrite E1. cbn [bind].
  destruct (C38_swkgen LOGQ N RM rnd s2 s (sq_new (2 * LOGQ) N) pos1 ltac:(lia) HN Hrnd Hl2) as (evk & pos2 & E2 & H2).
  { apply Forall_forall. intros x Hx. destruct (In_nth _ _ 0 Hx) as (k & Hk & <-). destruct (H1 (Z.of_nat k) ltac:(lia)) as [_ B]. unfold coef in B. rewrite Nat2Z.id in B. change (2 ^ 17) with 131072 in HN30. change (2 ^ 31) with 2147483648. lia. }
  { exact Hs. } { apply new_object2; lia. }
  rewrite E2. cbn [bind].
  destruct (enc_carries LOGN LOGQ LD LD ltac:(lia) ltac:(lia) ltac:(lia) ltac:(lia) RM rnd Hrnd s Hs st pos2 z (fun _ => X) Hst) as (st' & pt & ct & pos3 & E3 & E4 & H4).
  { exact Hz. }
  { fold n. rewrite rsum_const by lia. assert (0 < IZR n)%R by (apply IZR_lt; lia). rewrite Rmult_assoc. apply Rmult_le_compat_l; [lra|exact HX]. }
  fold N n in E3, E4, H4. fold e0 in H4.
  match goal with |- context [encode LOGQ LOGN st ?x ?y ?u ?v] => replace (encode LOGQ LOGN st x y u v) with (Ok (st', pt)) by (symmetry; exact E3) end. cbn [bind]. rewrite E4. cbn [bind].
  set (D := IZR (2 ^ LD)) in *. assert (PD : (0 < D)%R) by (apply IZR_lt, Z.pow_pos_nonneg; lia).
  assert (ED2 : IZR (2 ^ (2 * LD)) = (D * D)%R) by (unfold D; rewrite <- mult_IZR, <- Z.pow_add_r by lia; do 2 f_equal; lia).
  assert (H5 : carries LOGQ N (coef s) ct D z e0).
  { eapply (carries_ext LOGN (coef s)); [|apply Rle_refl|exact H4]. intros j Hj. cbv beta. unfold Rdiv. rewrite Rinv_r by lra. change (real 1) with (1%num : CC). ring. }
  assert (H2' : switching_key LOGQ N evk (negconv N (coef s) (coef s)) (coef s)).
  { destruct H2 as (er & Her & Hd). exists er. split; [exact Her|]. eapply decrypts_mod; [|exact Hd]. intros i Hi. cbv beta. destruct (H1 i Hi) as [-> _]. reflexivity. }
  destruct (carries_Mul LOGN ltac:(lia) (coef s) LOGQ ct ct evk (sq_new LOGQ N) D D z z e0 e0 X X ltac:(unfold widths; lia) ltac:(unfold widths; lia) H2') as (ct2 & E5 & H5').
  { apply new_object2; lia. } { exact PD. } { exact PD. } { intros j Hj; apply Hz; rewrite <- HN2; exact Hj. } { intros j Hj; apply Hz; rewrite <- HN2; exact Hj. } { exact H5. } { exact H5. }
  fold N in E5, H5'. rewrite E5. cbn [bind].
  destruct (carray_of_carray n (fun _ => (0%num : CC))) as [Ca Cb].
  rewrite <- ED2 in H5'. rewrite Hh in H5'.
  destruct (carries_decoded LOGN LOGQ (2 * LD) (2 * LD) s ct2 (fun j => if (0 <=? j) && (j <? n) then (z j * z j)%num else 0%num) e (X * X)%R st2 (fst (carray (K := Rops) n (fun _ => (0%num : CC)))) (snd (carray (K := Rops) n (fun _ => (0%num : CC)))) HL ltac:(change (2 ^ 20) with 1048576; lia) ltac:(lia) ltac:(lia) Hs Hst2) as (pt2 & st2' & y & E6 & E7 & H7); [| |exact Hbig|exact Ca|exact Cb|].
  { eapply (carries_ext LOGN (coef s)); [|apply Req_le|exact H5']; [|unfold e; ring]. intros j Hj. fold N in Hj. rewrite HN2 in Hj. cbv beta. destruct (Z.leb_spec 0 j), (Z.ltb_spec j n); try lia. reflexivity. }
  { intros j. assert (HX0 : (0 <= X)%R) by (eapply Rle_trans; [apply (modulus_nonneg (z 0))|apply Hz; lia]). destruct (Z.leb_spec 0 j), (Z.ltb_spec j n); cbn [andb]; try (rewrite modulus_0; nra). rewrite modulus_mul. pose proof (modulus_nonneg (z j)). apply Rmult_le_compat; auto. }
  fold N n in E6, E7, H7. rewrite E6. cbn [bind]. rewrite int_in by lia. cbn [bind].
  match goal with |- context [decode_log LOGQ LOGN st2 ?x ?y0 ?u ?v] => replace (decode_log LOGQ LOGN st2 x y0 u v) with (Ok (st2', carray (K := Rops) n y)) by (symmetry; exact E7) end. cbn [bind].
  exists st', st2', pos3, y. split; [reflexivity|]. intros j Hj. specialize (H7 j Hj). destruct (Z.leb_spec 0 j), (Z.ltb_spec j n); try lia. cbn [andb] in H7.
  assert (R1 : (IZR (2 ^ (2 * LD)) / IZR (2 ^ (2 * LD)) = 1)%R). { rewrite ED2. field. lra. }
  rewrite R1, Rmult_1_l in H7. replace (y j - z j * z j)%num with (y j - real 1 * (z j * z j))%num; [exact H7|]. change (real 1) with (1%num : CC). ring.
Qed.

(** ** With the constants of test.h *)
(** a message set by set_random_message (setup.h:45-49): its parts are between -1/sqrt 2 and 1/sqrt 2 *)
Definition random_message (n : Z) (z : Z -> CC) : Prop := forall j, 0 <= j < n -> (Rabs (fst (z j)) <= / sqrt 2 /\ Rabs (snd (z j)) <= / sqrt 2)%R.
Lemma random_message_modulus n z : random_message n z -> forall j, 0 <= j < n -> (modulus (z j) <= 1)%R.
Proof.
  intros H j Hj. destruct (H j Hj) as [A B]. unfold modulus. rewrite <- sqrt_1. apply sqrt_le_1_alt.
  assert (S : (/ sqrt 2 * / sqrt 2 = / 2)%R) by (rewrite <- Rinv_mult, sqrt_sqrt by lra; reflexivity).
  assert (Q : forall x, (Rabs x <= / sqrt 2 -> x * x <= / 2)%R).
  { intros x Hx. rewrite <- S. rewrite <- (Rabs_pos_eq (x * x)) by nra. rewrite Rabs_mult. pose proof (Rabs_pos x). apply Rmult_le_compat; auto. }
  apply Q in A, B. unfold cre, cim. lra.
Qed.

(** conv_test.cpp: the second line printed is within 4.6*10^-13 of the first in every slot *)
Theorem C102_conv_test_parameters : forall st st2 a b, ifft_static 9 st -> fft_static 9 st2 -> random_message 256 a -> random_message 256 b ->
  exists st' st2' c, conv_test 1450 9 50 st st2 (carray (K := Rops) 256 a) (carray (K := Rops) 256 b) = Ok (st', st2', (carray (K := Rops) 256 (fun j => a j * b j)%num, carray (K := Rops) 256 c)) /\
    forall j, 0 <= j < 256 -> (modulus (c j - a j * b j)%num <= 46 / IZR (10 ^ 14))%R.
Proof.
  intros st st2 a b Hst Hst2 Ha Hb.
  destruct (C102_conv_test 1450 9 50 st st2 a b 1%R ltac:(lia) ltac:(lia) ltac:(lia) Hst Hst2 (random_message_modulus _ _ Ha) (random_message_modulus _ _ Hb)) as (st' & st2' & c & E & H).
  { rewrite Rmult_1_l. change (IZR (2 ^ 64) - 1)%R with (IZR (2 ^ 64) - IZR 1)%R. rewrite <- minus_IZR. apply IZR_le. vm_compute. discriminate. }
  { change (2 ^ 9) with 512. apply Rle_lt_trans with (IZR (2 ^ (2 * 50)) * 4)%R.
    - apply Rmult_le_compat_l; [apply IZR_le; vm_compute; discriminate|]. change (2 ^ 50) with 1125899906842624. nra.
    - rewrite <- mult_IZR. apply IZR_lt. vm_compute. reflexivity. }
  exists st', st2', c. split; [exact E|]. intros j Hj. eapply Rle_trans; [apply H; exact Hj|]. change (2 ^ 9) with 512. change (2 ^ 50) with 1125899906842624. change (10 ^ 14) with 100000000000000. lra.
Qed.

(** ctxt_conv_test.cpp: within 7.8*10^-12, unless keygen does not return *)
Theorem C102_ctxt_conv_test_parameters : forall fuel RM rnd st st2 pos z, rand_stream RM rnd -> ifft_static 9 st -> fft_static 9 st2 -> random_message 256 z ->
  keygen fuel 512 rnd 128 (fresh 512) pos = Diverge /\ ctxt_conv_test fuel 1450 9 50 128 RM rnd st st2 pos (carray (K := Rops) 256 z) = Diverge \/
  exists st' st2' pos' y, ctxt_conv_test fuel 1450 9 50 128 RM rnd st st2 pos (carray (K := Rops) 256 z) =
    Ok (st', st2', pos', (carray (K := Rops) 256 (fun j => z j * z j)%num, carray (K := Rops) 256 y)) /\
    forall j, 0 <= j < 256 -> (modulus (y j - z j * z j)%num <= 78 / IZR (10 ^ 13))%R.
Proof.
  intros fuel RM rnd st st2 pos z Hr Hst Hst2 Hz.
  destruct (C102_ctxt_conv_test fuel 1450 9 50 128 RM rnd st st2 pos z 1%R ltac:(lia) ltac:(lia) ltac:(lia) ltac:(lia) Hr Hst Hst2 (random_message_modulus _ _ Hz)) as [[E1 E2]|(st' & st2' & pos' & y & E & H)].
  { rewrite Rmult_1_l. change (IZR (2 ^ 64) - 1)%R with (IZR (2 ^ 64) - IZR 1)%R. rewrite <- minus_IZR. apply IZR_le. vm_compute. discriminate. }
  { change (2 ^ (2 * 50)) with 1267650600228229401496703205376. change (8 * 2 ^ 9 + 1 + 128) with 4225. change (2 ^ 9) with 512. apply Rle_lt_trans with (1267650600228229401496703205376 * 4)%R.
    - change (2 ^ 50) with 1125899906842624. apply Rmult_le_compat_l; lra.
    - rewrite <- mult_IZR. apply IZR_lt. vm_compute. reflexivity. }
  - left. split; [exact E1|exact E2].
  - right. exists st', st2', pos', y. split; [exact E|]. intros j Hj. eapply Rle_trans; [apply H; exact Hj|].
    change (2 ^ (2 * 50)) with 1267650600228229401496703205376. change (8 * 2 ^ 9 + 1 + 128) with 4225. change (2 ^ 9) with 512. change (2 ^ 50) with 1125899906842624. change (10 ^ 13) with 10000000000000. lra.
Qed.
(** The hypotheses hold of a message with parts 1/2 and -1/2, of the tables before the first call, and of a counter as random numbers *)
Example C102_case : ifft_static 9 None /\ fft_static 9 None /\ random_message 256 (fun _ => (/ 2, - / 2)%R) /\ rand_stream (2 ^ 31 - 1) counting.
Proof.
  split; [apply ifft_first|]. split; [apply fft_first|]. split; [|apply counting_stream]. intros j Hj. cbn [fst snd]. rewrite Rabs_Ropp, Rabs_right by lra.
  assert (sqrt 2 <= 2)%R. { rewrite <- (sqrt_square 2) at 2 by lra. apply sqrt_le_1_alt. lra. }
  assert (0 < sqrt 2)%R by (apply sqrt_lt_R0; lra). assert (/ 2 <= / sqrt 2)%R by (apply Rinv_le_contravar; lra). split; lra.
Qed.
