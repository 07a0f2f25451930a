(** C126: what dft_test.cpp, conv_test.cpp, ctxt_conv_test.cpp and evalMod_test.cpp print, in double precision (compare C102, C96). *)
From Coq Require Import ZArith List Bool Lia Reals Lra Ring.
From Verif Require Import Base BaseFacts Sums ZQ ZQFacts ZQFacts2 RQ RQFacts Conv Rot Util GSum Core CoreFacts Matrix MatrixFacts MatMulFacts
  DFT DFTTheory DFTFacts FFTFacts SpecZQ SpecPoly SpecPolyFacts SpecScheme ConvFacts SpecMat Properties_Mat Properties_Msg SpecDFT Properties_DFT SpecEnc Properties_Core Properties_Rot Properties_Conv
  GroupFacts SlotFacts Encode EncodeFacts Plain BootFacts Properties_Enc Properties_Plain SpecLin LinTrans LinTransFacts LinSlots GroupSlots SpecBoot BootSlots PlainFacts SpecStat StatFacts Section3 Properties_Stat Properties_MatErr Properties_Serial
  Properties_Lin Properties_Boot Poly EvalMod SpecMod EvalModFacts PiBound EvalModBound Properties_EvalMod SpecPipe Pipeline PipeFacts Properties_Pipe Bootstrap SpecEval EvalFacts Section4 SupFacts MeasFacts Measure UtilFacts Properties_ZQ CtsMeasure CtsProps Messages SupRatio TestProg TestLayers EmTest TestLinT TestBoot TestBootP.
From Verif Require Import Float SpecFloat FloatNum Binary64 Properties_Float SpecFloatLin FloatLin FloatSerial FloatGrouped SpecFloatBoot FloatBoot FloatBootSlots FloatBootNum Properties_FloatLin FloatMod SpecFloatMod FloatModFacts FloatModBound Properties_FloatMod.
From Verif Require Import FloatDot FloatMsg Properties_FloatMsg Properties_FloatMsg2 FloatDirect Properties_FloatDFT Properties_FloatDFT2 FloatSetup Properties_FloatSetup FloatTestBoot Properties_FloatTestBoot.
From Verif Require Import FloatSimple Properties_FloatSimple FloatTests.
Import ListNotations.
Open Scope Z_scope.
Add Ring RCftt : HR.

(** what encode is allowed to be off, for slots up to X and the scale 2^LD *)
Definition enc_off (LD : Z) (X : R) : R := (/ 2 + powerRZ 2 (-41) * (X * IZR (2 ^ LD)) + powerRZ 2 (-900))%R.
(** what decode_log is allowed to be off, for slots up to A *)
Definition dec_off (N : Z) (A : R) : R := (powerRZ 2 (-42) * (IZR N * A) + powerRZ 2 (-1000))%R.

Lemma small_p k : k <= -10 -> (0 < powerRZ 2 k <= / 1024)%R.
Proof. intros Hk. split; [apply p2_pos|]. replace (/ 1024)%R with (powerRZ 2 (-10)) by (change (powerRZ 2 (-10)) with (/ 2 ^ 10)%R; cbn [pow]; lra). apply p2_le. lia. Qed.
Lemma enc_off_pos LD X : 0 <= LD -> (0 <= X)%R -> (/ 2 <= enc_off LD X <= 1 + / 1024 * (X * IZR (2 ^ LD)))%R.
Proof.
  intros HLD HX. unfold enc_off. pose proof (small_p (-41) ltac:(lia)). pose proof (small_p (-900) ltac:(lia)). assert (0 <= X * IZR (2 ^ LD))%R by (apply Rmult_le_pos; [lra|apply IZR_le, Z.pow_nonneg; lia]).
  assert (0 <= powerRZ 2 (-41) * (X * IZR (2 ^ LD)) <= / 1024 * (X * IZR (2 ^ LD)))%R by (split; [apply Rmult_le_pos|apply Rmult_le_compat_r]; lra). lra.
Qed.

Section Help.
Context (F : fpu) (HF : double F) (LOGN : Z) (HL : 2 <= LOGN <= 17).
Local Notation N := (2 ^ LOGN).
Local Notation n := (2 ^ (LOGN - 1)).

Lemma f_encode_slots Q LD st (z : Z -> CC) m X : 66 <= Q <= 2048 -> 0 <= LD <= 63 -> f_ifft_static F LOGN st -> (forall j, 0 <= j < n -> slot N m j = z j) -> (forall j, 0 <= j < n -> (modulus (z j) <= X)%R) ->
  (X * IZR (2 ^ LD) + powerRZ 2 (-41) * (X * IZR (2 ^ LD)) + 2 < IZR (2 ^ 64))%R ->
  exists st' pt c, f_encode F Q LOGN st (fst (carray (K := Rops) n z)) (snd (carray (K := Rops) n z)) (2 ^ LD) (rq_new Q N) = Ok (st', pt) /\ f_ifft_static F LOGN st' /\ signedP Q N pt c /\
    (forall i, 0 <= i < N -> (Rabs (IZR (c i) - m i * IZR (2 ^ LD)) <= enc_off LD X)%R /\ Z.abs (c i) < 2 ^ 64) /\
    forall j, 0 <= j < n -> (modulus (slots N (IZR (2 ^ LD)) c j - z j)%num <= IZR N * (enc_off LD X / IZR (2 ^ LD)))%R.
Proof.
  intros HQ HLD Hst Hm Hz HX. pose proof (n_pos LOGN ltac:(lia)) as Hn. pose proof (N2 LOGN ltac:(lia)) as HN2.
  assert (PD : (0 < IZR (2 ^ LD))%R) by (apply IZR_lt, Z.pow_pos_nonneg; lia).
  assert (X0 : (0 <= X)%R) by (eapply Rle_trans; [apply modulus_nonneg|apply (Hz 0); lia]).
  assert (MB : forall i, 0 <= i < N -> (Rabs (m i) * IZR (2 ^ LD) <= X * IZR (2 ^ LD))%R).
  { intros i Hi. apply Rmult_le_compat_r; [lra|]. apply (coef_slots LOGN m X ltac:(lia)); auto. intros j Hj. rewrite (Hm j Hj). apply Hz. exact Hj. }
  assert (W64 : (IZR (2 ^ 64) <= IZR (2 ^ Q))%R) by (apply IZR_le, Z.pow_le_mono_r; lia).
  destruct (C83_encode_double F HF Q LOGN ltac:(lia) HL (2 ^ LD) st z m X (rq_new Q N)) as (st' & pt & c & E1 & Hst' & Hc & Hc2); auto.
  { split; [apply Z.pow_pos_nonneg; lia|apply Z.pow_lt_mono_r; lia]. }
  { apply objP_object; try lia. apply objP_new. } { lra. }
  assert (CB : forall i, 0 <= i < N -> (Rabs (IZR (c i) - m i * IZR (2 ^ LD)) <= enc_off LD X)%R /\ Z.abs (c i) < 2 ^ 64).
  { intros i Hi. specialize (Hc2 i Hi). split; [exact Hc2|]. apply lt_IZR. rewrite abs_IZR. pose proof (Rabs_triang_inv (IZR (c i)) (m i * IZR (2 ^ LD))) as T. rewrite Rabs_mult, (Rabs_right (IZR (2 ^ LD))) in T by lra.
    specialize (MB i Hi). pose proof (small_p (-900) ltac:(lia)). lra. }
  exists st', pt, c. split; [exact E1|]. split; [exact Hst'|]. split.
  { split; [exact Hc|]. intros i Hi. destruct (CB i Hi) as [_ B]. assert (2 ^ 64 <= 2 ^ (Q - 1)) by (apply Z.pow_le_mono_r; lia). lia. }
  split; [exact CB|]. intros j Hj. rewrite <- (Hm j Hj). unfold slots. rewrite <- slot_sub. apply modulus_slot; [lia|]. intros i Hi. destruct (CB i Hi) as [B _].
  replace (IZR (c i) / IZR (2 ^ LD) - m i)%R with ((IZR (c i) - m i * IZR (2 ^ LD)) * / IZR (2 ^ LD))%R by (field; lra). unfold Rdiv.
  rewrite Rabs_mult, (Rabs_right (/ IZR (2 ^ LD))) by (apply Rle_ge, Rlt_le, Rinv_0_lt_compat; auto). apply Rmult_le_compat_r; [apply Rlt_le, Rinv_0_lt_compat; auto|exact B].
Qed.

(** encoding and encrypting *)
Lemma f_enc_coefs Q LD RM rng s st pos (z : Z -> CC) m X : 66 <= Q <= 2048 -> 0 <= LD <= 63 -> rand_stream RM rng -> ternary N s -> f_ifft_static F LOGN st ->
  (forall j, 0 <= j < n -> slot N m j = z j) -> (forall j, 0 <= j < n -> (modulus (z j) <= X)%R) -> (X * IZR (2 ^ LD) + powerRZ 2 (-41) * (X * IZR (2 ^ LD)) + 2 < IZR (2 ^ 64))%R ->
  exists st' pt c ct pos' m', f_encode F Q LOGN st (fst (carray (K := Rops) n z)) (snd (carray (K := Rops) n z)) (2 ^ LD) (rq_new Q N) = Ok (st', pt) /\ f_ifft_static F LOGN st' /\ signedP Q N pt c /\
    enc Q N RM rng pt (map Some s) (sq_new Q N) pos = Ok (ct, pos') /\ decrypts Q N ct (coef s) m' /\
    (forall i, 0 <= i < N -> (Rabs (IZR (c i) - m i * IZR (2 ^ LD)) <= enc_off LD X)%R /\ Z.abs (c i) < 2 ^ 64 /\ Z.abs (m' i - c i) <= 8 /\ (Rabs (IZR (m' i) / IZR (2 ^ LD) - m i) <= (enc_off LD X + 8) / IZR (2 ^ LD))%R) /\
    forall j, 0 <= j < n -> (modulus (slots N (IZR (2 ^ LD)) m' j - z j)%num <= IZR N * ((enc_off LD X + 8) / IZR (2 ^ LD)))%R.
Proof.
  intros HQ HLD Hr Hs Hst Hm Hz HX. pose proof (n_pos LOGN ltac:(lia)) as Hn. pose proof (N2 LOGN ltac:(lia)) as HN2.
  assert (PD : (0 < IZR (2 ^ LD))%R) by (apply IZR_lt, Z.pow_pos_nonneg; lia).
  destruct (f_encode_slots Q LD st z m X HQ HLD Hst Hm Hz HX) as (st' & pt & c & E1 & Hst' & Hc & HP & _).
  destruct (C35_enc_dec Q N RM rng pt c s (sq_new Q N) pos (rq_new Q N)) as (ct & pos' & e0 & pt' & E2 & He0 & _ & _ & Hd); auto; try lia.
  { apply Hc. } { apply new_object2; lia. } { apply objP_object; try lia. apply objP_new. }
  assert (HP2 : forall i, 0 <= i < N -> (Rabs (IZR (c i) - m i * IZR (2 ^ LD)) <= enc_off LD X)%R /\ Z.abs (c i) < 2 ^ 64 /\ Z.abs (c i + e0 i - c i) <= 8 /\ (Rabs (IZR (c i + e0 i) / IZR (2 ^ LD) - m i) <= (enc_off LD X + 8) / IZR (2 ^ LD))%R).
  { intros i Hi. destruct (HP i Hi) as [B1 B2]. specialize (He0 i Hi). split; [exact B1|]. split; [exact B2|]. split; [lia|].
    rewrite plus_IZR. replace ((IZR (c i) + IZR (e0 i)) / IZR (2 ^ LD) - m i)%R with ((IZR (c i) - m i * IZR (2 ^ LD) + IZR (e0 i)) * / IZR (2 ^ LD))%R by (field; lra).
    unfold Rdiv at 1. rewrite Rabs_mult, (Rabs_right (/ IZR (2 ^ LD))) by (apply Rle_ge, Rlt_le, Rinv_0_lt_compat; auto). apply Rmult_le_compat_r; [apply Rlt_le, Rinv_0_lt_compat; auto|].
    eapply Rle_trans; [apply Rabs_triang|]. rewrite <- (abs_IZR (e0 i)). apply IZR_le in He0. lra. }
  exists st', pt, c, ct, pos', (fun i => c i + e0 i). split; [exact E1|]. split; [exact Hst'|]. split; [exact Hc|]. split; [exact E2|]. split; [exact Hd|]. split; [exact HP2|].
  intros j Hj. rewrite <- (Hm j Hj). unfold slots. rewrite <- slot_sub. apply modulus_slot; [lia|]. intros i Hi. apply (HP2 i Hi).
Qed.

(** decrypting and decoding *)
Lemma f_decode_slots Q sc st2 pt w (x : Z -> CC) e X zr zi : 1 <= Q <= 2048 -> 0 <= sc <= 2 ^ 30 -> f_fft_static F LOGN st2 -> holdsP Q N pt w ->
  (forall j, 0 <= j < n -> (modulus (slots N (IZR (2 ^ sc)) w j - x j)%num <= e)%R) -> (forall j, 0 <= j < n -> (modulus (x j) <= X)%R) -> (IZR (2 ^ sc) * (X + e) < IZR (2 ^ (Q - 1)))%R -> (X + e <= powerRZ 2 900)%R ->
  cells n zr -> cells n zi ->
  exists st2' y, f_decode_log F Q LOGN st2 pt sc zr zi = Ok (st2', carray (K := Rops) n y) /\ f_fft_static F LOGN st2' /\
    forall j, 0 <= j < n -> (modulus (y j - x j)%num <= e + dec_off N (X + e))%R.
Proof.
  intros HQ Hsc Hst2 Hw Hx HX Hb H9 Hzr Hzi. pose proof (n_pos LOGN ltac:(lia)) as Hn. pose proof (N2 LOGN ltac:(lia)) as HN2.
  assert (Sp : (0 < IZR (2 ^ sc))%R) by (apply IZR_lt, Z.pow_pos_nonneg; lia). assert (PS : powerRZ 2 sc = IZR (2 ^ sc)) by (apply powerRZ_2; lia).
  assert (B : forall j, 0 <= j < n -> (modulus (slots N (IZR (2 ^ sc)) w j) <= X + e)%R).
  { intros j Hj. eapply Rle_trans; [apply (modulus_near _ (x j))|]. apply Rplus_le_compat; [apply HX|apply Hx]; exact Hj. }
  assert (X0 : (0 <= X + e)%R) by (eapply Rle_trans; [apply modulus_nonneg|apply (B 0); lia]).
  pose proof (signed_slots Q LOGN w _ _ ltac:(lia) ltac:(lia) Sp B Hb) as S0.
  destruct (C85_decode_log_double F HF Q LOGN ltac:(lia) HL sc st2 pt w (X + e)%R zr zi) as (st2' & y & E & Hst2' & Hy); auto; try (change (2 ^ 30) with 1073741824 in *; lia).
  { split; [exact Hw|exact S0]. } { rewrite PS. apply (coef_slots LOGN); [lia|exact B]. }
  exists st2', y. split; [exact E|]. split; [exact Hst2'|]. intros j Hj. specialize (Hy j Hj). rewrite PS in Hy. fold (dec_off N (X + e)) in Hy.
  replace (y j - x j)%num with ((y j - slots N (IZR (2 ^ sc)) w j) + (slots N (IZR (2 ^ sc)) w j - x j))%num by ring. eapply Rle_trans; [apply modulus_add|]. specialize (Hx j Hj). lra.
Qed.
End Help.

(** ** dft_test *)
Section Dft.
Context (F : fpu) (HF : double F) (LOGN : Z) (HL : 2 <= LOGN <= 17).
Local Notation N := (2 ^ LOGN).
Local Notation n := (2 ^ (LOGN - 1)).
(** the two arrays printed by ifft_test *)
Theorem C126_ifft_test : forall Delta st st2, 0 < Delta < 2 ^ 64 -> f_ifft_static F LOGN st -> f_fft_static F LOGN st2 ->
  exists st' st2' m1 m2, f_ifft_test F LOGN Delta st st2 = Ok (st', st2', (array N m1, array N m2)) /\
    forall i, 0 <= i < N -> (Rabs (m1 i - m2 i) <= powerRZ 2 (-53) * ((9 * IZR n + 1400) * (1 + IZR N * (/ (2 * IZR Delta) + powerRZ 2 (-40)))) + powerRZ 2 (-1000))%R.
Proof.
  intros Delta st st2 HD Hst Hst2. pose proof (n_pos LOGN ltac:(lia)) as Hn. pose proof (N2 LOGN ltac:(lia)) as HN2. assert (Eq : Z.quot N 2 = n) by (apply half_quot; lia).
  unfold f_ifft_test. cbv zeta. rewrite Eq. rewrite !(C68_new (K := Rops)) by lia. cbn [bind].
  destruct (C125_test_rounded_message F HF LOGN HL Delta st st2 (carray (K := Rops) n (fun _ => (0%num : CC))) HD Hst Hst2 (carray_of_carray _ _)) as (st1 & st2' & z & E1 & Hst1 & Hst2' & c & Hz).
  match goal with |- context [f_set_test_rounded_message F LOGN st st2 Delta ?a] => replace (f_set_test_rounded_message F LOGN st st2 Delta a) with (Ok (st1, st2', carray (K := Rops) n z)) by (symmetry; exact E1) end. cbn [bind].
  assert (NR : (4 <= IZR N <= 131072)%R) by (split; apply IZR_le; [change 4 with (2 ^ 2)|change 131072 with (2 ^ 17)]; apply Z.pow_le_mono_r; lia).
  assert (CF : cells N (gfresh R N)) by (unfold cells, gfresh; apply repeat_length). assert (Hi2 : (/ sqrt 2 <= 1)%R).
  { rewrite <- Rinv_1. apply Rinv_le_contravar; [lra|]. rewrite <- sqrt_1. apply sqrt_le_1_alt. lra. }
  assert (D1 : (1 <= IZR Delta)%R) by (apply IZR_le; lia). assert (D2 : (0 < / (2 * IZR Delta) <= / 2)%R) by (split; [apply Rinv_0_lt_compat|apply Rinv_le_contravar]; lra). pose proof (small_p (-40) ltac:(lia)) as P40.
  set (B := (1 + IZR N * (/ (2 * IZR Delta) + powerRZ 2 (-40)))%R).
  assert (ZB : forall j, 0 <= j < n -> (modulus (z j) <= B)%R).
  { intros j Hj. destruct (Hz j Hj) as [_ A]. eapply Rle_trans; [apply (modulus_near _ (test_point LOGN j))|]. unfold B. apply Rplus_le_compat; [|exact A].
    unfold test_point. rewrite circle_modulus. exact Hi2. }
  assert (B9 : (0 <= B <= powerRZ 2 1000)%R).
  { assert (0 <= IZR N * (/ (2 * IZR Delta) + powerRZ 2 (-40)) <= IZR N * 1)%R by (split; [apply Rmult_le_pos|apply Rmult_le_compat_l]; lra). unfold B. set (y := (IZR N * (/ (2 * IZR Delta) + powerRZ 2 (-40)))%R) in *. split; [lra|]. apply Rle_trans with (powerRZ 2 20); [rewrite powerRZ_2 by lia; change (2 ^ 20) with 1048576; lra|apply p2_le; lia]. }
  destruct (C120_idft_ifft_double F HF LOGN HL st1 z B (gfresh R N) (gfresh R N) Hst1 CF CF B9 ZB) as (m1 & st' & m2 & E2 & E3 & H).
  match goal with |- context [f_idft F N ?a ?b ?c] => replace (f_idft F N a b c) with (Ok (array N m1)) by (symmetry; exact E2) end. cbn [bind].
  match goal with |- context [f_ifft F LOGN st1 ?a ?b ?c] => replace (f_ifft F LOGN st1 a b c) with (Ok (st', array N m2)) by (symmetry; exact E3) end. cbn [bind]. exists st', st2', m1, m2. split; [reflexivity|exact H].
Qed.
(** run_test: the message is printed twice, before and after the transforms *)
Theorem C126_run_test : forall st st2 (z : Z -> CC) B, f_ifft_static F LOGN st -> f_fft_static F LOGN st2 -> (0 <= B <= powerRZ 2 900)%R -> (forall j, 0 <= j < n -> (modulus (z j) <= B)%R) ->
  exists st' st2' y, f_fft_run_test F LOGN st st2 (carray (K := Rops) n z) = Ok (st', st2', carray (K := Rops) n y) /\
    forall j, 0 <= j < n -> (modulus (y j - z j)%num <= powerRZ 2 (-53) * (5000 * IZR n * B) + powerRZ 2 (-1000))%R.
Proof.
  intros st st2 z B Hst Hst2 HB Hz. pose proof (n_pos LOGN ltac:(lia)) as Hn. assert (Eq : Z.quot N 2 = n) by (apply half_quot; lia).
  unfold f_fft_run_test. cbv zeta. rewrite Eq. rewrite !(C68_new (K := Rops)) by lia. cbn [bind]. destruct (carray_of_carray n (fun _ => 0%num)) as [Ca Cb]. assert (CF : cells N (gfresh R N)) by (unfold cells, gfresh; apply repeat_length).
  destruct (C120_fft_ifft_double F HF LOGN HL st st2 z B (gfresh R N) _ _ Hst Hst2 CF Ca Cb HB Hz) as (st' & m & st2' & y & E1 & E2 & H).
  match goal with |- context [f_ifft F LOGN st ?a ?b ?c] => replace (f_ifft F LOGN st a b c) with (Ok (st', m)) by (symmetry; exact E1) end. cbn [bind].
  match goal with |- context [f_fft F LOGN st2 m ?a ?b] => replace (f_fft F LOGN st2 m a b) with (Ok (st2', carray (K := Rops) n y)) by (symmetry; exact E2) end. cbn [bind].
  exists st', st2', y. split; [reflexivity|exact H].
Qed.
End Dft.

(** ** conv_test: both messages printed are the product, up to rounding *)
Section Conv.
Context (F : fpu) (HF : double F) (LOGN : Z) (HL : 2 <= LOGN <= 17).
Local Notation N := (2 ^ LOGN).
Local Notation n := (2 ^ (LOGN - 1)).
Lemma square_top X : (X * X <= powerRZ 2 900)%R -> (2 * (X * X) + 1 <= top64)%R.
Proof.
  intros H. assert (powerRZ 2 900 * 4 <= top64)%R by (rewrite <- p2_2, <- p2_add; apply p2_le; lia). assert (1 <= powerRZ 2 900)%R by (apply (p2_le 0); lia). lra.
Qed.
Theorem C126_conv_test : forall LOGQ LD st st2 (a b : Z -> CC) X, 66 <= LOGQ <= 2048 -> 0 <= LD <= 63 -> f_ifft_static F LOGN st -> f_fft_static F LOGN st2 ->
  (forall j, 0 <= j < n -> (modulus (a j) <= X)%R) -> (forall j, 0 <= j < n -> (modulus (b j) <= X)%R) ->
  (X * IZR (2 ^ LD) + powerRZ 2 (-41) * (X * IZR (2 ^ LD)) + 2 < IZR (2 ^ 64))%R ->
  let e := (IZR N * (enc_off LD X / IZR (2 ^ LD)))%R in
  let e2 := (2 * X * e + e * e)%R in
  (IZR (2 ^ (2 * LD)) * (X * X + e2) < IZR (2 ^ (LOGQ - 1)))%R ->
  exists st' st2' c0 c, f_conv_test F LOGQ LOGN LD st st2 (carray (K := Rops) n a) (carray (K := Rops) n b) = Ok (st', st2', (carray (K := Rops) n c0, carray (K := Rops) n c)) /\
    forall j, 0 <= j < n -> (modulus (c0 j - a j * b j)%num <= powerRZ 2 (-50) * (X * X) + powerRZ 2 (-1000))%R /\ (modulus (c j - a j * b j)%num <= e2 + dec_off N (X * X + e2))%R.
Proof.
  intros LOGQ LD st st2 a b X HQ HLD Hst Hst2 Ha Hb HX e e2 Hbig. pose proof (n_pos LOGN ltac:(lia)) as Hn. pose proof (N2 LOGN ltac:(lia)) as HN2.
  set (D := IZR (2 ^ LD)) in *. assert (PD : (1 <= D)%R) by (apply (IZR_le 1); assert (0 < 2 ^ LD) by (apply Z.pow_pos_nonneg; lia); lia).
  assert (X0 : (0 <= X)%R) by (eapply Rle_trans; [apply modulus_nonneg|apply (Ha 0); lia]).
  assert (NR : (4 <= IZR N <= 131072)%R) by (split; apply IZR_le; [change 4 with (2 ^ 2)|change 131072 with (2 ^ 17)]; apply Z.pow_le_mono_r; lia).
  pose proof (enc_off_pos LD X ltac:(lia) X0) as EO. fold D in EO.
  assert (ID : (0 < / D <= 1)%R). { split; [apply Rinv_0_lt_compat; lra|]. rewrite <- Rinv_1. apply Rinv_le_contravar; lra. }
  assert (XD : (X <= X * D)%R) by (rewrite <- (Rmult_1_r X) at 1; apply Rmult_le_compat_l; lra).
  pose proof (small_p (-41) ltac:(lia)) as P41. assert (X64 : (X * D <= IZR (2 ^ 64))%R). { assert (0 <= powerRZ 2 (-41) * (X * D))%R by (apply Rmult_le_pos; [lra|apply Rmult_le_pos; lra]). lra. }
  change (2 ^ 64) with 18446744073709551616 in X64.
  assert (E0 : (0 <= e)%R) by (unfold e; apply Rmult_le_pos; [lra|apply Rmult_le_pos; lra]). assert (E20 : (0 <= e2)%R) by (unfold e2; assert (0 <= X * e)%R by (apply Rmult_le_pos; lra); assert (0 <= e * e)%R by (apply Rmult_le_pos; lra); lra).
  assert (EB : (e <= 131072 * 18446744073709551616)%R).
  { unfold e. apply Rmult_le_compat; try lra; [apply Rmult_le_pos; lra|]. unfold Rdiv. apply Rle_trans with (enc_off LD X * 1)%R; [apply Rmult_le_compat_l; lra|lra]. }
  assert (XB : (X * X + e2 <= powerRZ 2 900)%R).
  { apply Rle_trans with (powerRZ 2 200); [|apply p2_le; lia]. rewrite powerRZ_2 by lia. replace (X * X + e2)%R with ((X + e) * (X + e))%R by (unfold e2; ring). apply Rle_trans with (IZR (2 ^ 90) * IZR (2 ^ 90))%R; [|rewrite <- mult_IZR; apply IZR_le; vm_compute; discriminate]. change (2 ^ 90) with 1237940039285380274899124224. apply Rmult_le_compat; lra. }
  unfold f_conv_test. cbv zeta. assert (Eq : Z.quot N 2 = n) by (apply half_quot; lia). rewrite Eq. rewrite !(C68_new (K := Rops)) by lia. cbn [bind].
  destruct (some_m LOGN ltac:(lia) a) as [ma Hma]. destruct (some_m LOGN ltac:(lia) b) as [mb Hmb].
  destruct (f_encode_slots F HF LOGN HL LOGQ LD st a ma X HQ HLD Hst Hma Ha HX) as (st1 & pa & ca & E1 & Hst1 & H1 & _ & S1). fold D e in S1.
  match goal with |- context [f_encode F LOGQ LOGN st ?x ?y ?u ?v] => replace (f_encode F LOGQ LOGN st x y u v) with (Ok (st1, pa)) by (symmetry; exact E1) end. cbn [bind].
  destruct (f_encode_slots F HF LOGN HL LOGQ LD st1 b mb X HQ HLD Hst1 Hmb Hb HX) as (st' & pb & cb & E2 & _ & H2 & _ & S2). fold D e in S2.
  match goal with |- context [f_encode F LOGQ LOGN st1 ?x ?y ?u ?v] => replace (f_encode F LOGQ LOGN st1 x y u v) with (Ok (st', pb)) by (symmetry; exact E2) end. cbn [bind].
  assert (MM : forall j, 0 <= j < n -> (0 <= modulus (a j) * modulus (b j) <= X * X)%R) by (intros j Hj; pose proof (modulus_nonneg (a j)); pose proof (modulus_nonneg (b j)); split; [apply Rmult_le_pos; auto|apply Rmult_le_compat; auto]).
  destruct (C118_mul F u64 eta64 top64 t64 HF n a b (carray (K := Rops) n (fun _ => (0%num : CC))) ltac:(lia) (carray_of_carray _ _)) as (c0 & E5 & H5).
  { intros j Hj. specialize (MM j Hj). pose proof (square_top X ltac:(lra)). lra. }
  match goal with |- context [msg_mul n ?x ?y ?u] => replace (msg_mul (K := Fops F) n x y u) with (Ok (carray (K := Rops) n c0)) by (symmetry; exact E5) end. cbn [bind].
  destruct (C27_conv LOGN LOGQ pa pb (rq_new LOGQ N) ca cb ltac:(lia) ltac:(unfold widths; lia) (proj1 H1) (proj1 H2)) as (pc & E3 & H3). { apply objP_object; try lia. apply objP_new. }
  rewrite E3. cbn [bind]. rewrite int_in by lia. cbn [bind].
  assert (ED2 : IZR (2 ^ (2 * LD)) = (D * D)%R) by (unfold D; rewrite <- mult_IZR, <- Z.pow_add_r by lia; do 2 f_equal; lia).
  assert (S3 : forall j, 0 <= j < n -> (modulus (slots N (IZR (2 ^ (2 * LD))) (negconv N ca cb) j - a j * b j)%num <= e2)%R).
  { intros j Hj. rewrite ED2, slots_negconv by (try lia; lra). replace e2 with (X * e + X * e + e * e)%R by (unfold e2; ring). apply near_mul; auto. }
  destruct (carray_of_carray n (fun _ => (0%num : CC))) as [Ca Cb].
  destruct (f_decode_slots F HF LOGN HL LOGQ (2 * LD) st2 pc (negconv N ca cb) (fun j => a j * b j)%num e2 (X * X)%R (fst (carray (K := Rops) n (fun _ => (0%num : CC)))) (snd (carray (K := Rops) n (fun _ => (0%num : CC)))) ltac:(lia) ltac:(change (2 ^ 30) with 1073741824; lia) Hst2 H3 S3) as (st2' & c & E4 & _ & H4); [|exact Hbig|exact XB|exact Ca|exact Cb|].
  { intros j Hj. rewrite modulus_mul. apply MM. exact Hj. }
  replace (LD * 2) with (2 * LD) by lia.
  match goal with |- context [f_decode_log F LOGQ LOGN st2 ?x ?y ?u ?v] => replace (f_decode_log F LOGQ LOGN st2 x y u v) with (Ok (st2', carray (K := Rops) n c)) by (symmetry; exact E4) end. cbn [bind].
  exists st', st2', c0, c. split; [reflexivity|]. intros j Hj. split; [|apply H4; exact Hj]. eapply Rle_trans; [apply H5; exact Hj|]. rewrite p50. pose proof u_pos. specialize (MM j Hj).
  assert (u64 * (modulus (a j) * modulus (b j)) <= u64 * (X * X))%R by (apply Rmult_le_compat_l; lra). assert (0 <= X * X)%R by (apply Rmult_le_pos; lra). assert (0 <= u64 * (X * X))%R by (apply Rmult_le_pos; lra).
  pose proof (proj1 (tiny 0)) as ES. pose proof eta_pos. lra.
Qed.
End Conv.
