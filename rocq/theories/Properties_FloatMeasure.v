(** C129: what measure_b_evalmod.cpp prints, in floating-point arithmetic. *)
From Coq Require Import ZArith List Bool Lia Reals Lra Ring.
From Verif Require Import Base BaseFacts Sums ZQ ZQFacts ZQFacts2 RQ RQFacts Conv Rot Util GSum Core CoreFacts Matrix MatrixFacts MatMulFacts
  DFT DFTTheory DFTFacts FFTFacts SpecZQ SpecPoly SpecPolyFacts SpecScheme ConvFacts SpecMat Properties_Mat Properties_Msg SpecDFT Properties_DFT SpecEnc Properties_Core Properties_Rot Properties_Conv
  GroupFacts SlotFacts Encode EncodeFacts Plain BootFacts Properties_Enc Properties_Plain SpecLin LinTrans LinTransFacts LinSlots GroupSlots SpecBoot BootSlots PlainFacts SpecStat StatFacts Section3 Properties_Stat Properties_MatErr Properties_Serial
  Properties_Lin Properties_Boot Poly EvalMod SpecMod EvalModFacts PiBound EvalModBound Properties_EvalMod SpecPipe Pipeline PipeFacts Properties_Pipe Bootstrap SpecEval EvalFacts Section4 SupFacts MeasFacts Measure UtilFacts Properties_ZQ CtsMeasure CtsProps Messages SupRatio TestProg TestLayers EmTest TestLinT TestBoot TestBootP.
From Verif Require Import Float SpecFloat FloatNum Binary64 Properties_Float SpecFloatLin FloatLin FloatSerial FloatGrouped SpecFloatBoot FloatBoot FloatBootSlots FloatBootNum Properties_FloatLin FloatMod SpecFloatMod FloatModFacts FloatModBound Properties_FloatMod.
From Verif Require Import FloatDot FloatMsg Properties_FloatMsg Properties_FloatMsg2 FloatDirect Properties_FloatDFT Properties_FloatDFT2 FloatSetup Properties_FloatSetup FloatTestBoot Properties_FloatTestBoot.
From Verif Require Import FloatSimple Properties_FloatSimple FloatTests Properties_FloatTests FloatEnc2.
From Verif Require Import Properties_FloatTests2 WideMod SpecFloatMsg.
From Verif Require Import FloatWide FloatMeasure.
Import ListNotations.
Open Scope Z_scope.
Add Ring RCfme : HR.

(** ** The numbers of the messages: mb_d and mb_z of MeasFacts.v with every operation rounded *)
Definition f_mb_d (F : fpu) (e p : Z) : R := if p <? 49 * (2 * e + 1) then rnd F (IZR (p mod (2 * e + 1) - e) / IZR e) else 0%R.
Definition f_mb_z (F : fpu) (e p : Z) : R := if p <? 49 * (2 * e + 1) then rnd F (rnd F (IZR (mb_I e p) * 1024) + f_mb_d F e p) else 0%R.

Lemma f_mb_messages F lpow LOGN e : lpow 2%R 10%R = 1024%R -> 2 <= LOGN <= 30 -> eps_num (2 ^ LOGN) = e -> 1 <= e ->
  f_evalmod_messages F lpow (2 ^ LOGN) = Ok (carray (K := Rops) (2 ^ (LOGN - 1)) (fun p => real (f_mb_z F e p)), carray (K := Rops) (2 ^ (LOGN - 1)) (fun p => real (f_mb_d F e p))).
Proof.
  intros Hpow HL He1 He. destruct (mb_messages LOGN e HL He1 He) as [_ Hc]. set (n := 2 ^ (LOGN - 1)) in *. assert (HN : 2 ^ LOGN = n * 2) by (unfold n; rewrite Z.mul_comm, <- Z.pow_succ_r by lia; f_equal; lia).
  assert (Hn31 : n < 2 ^ 31) by (unfold n; apply Z.pow_lt_mono_r; lia).
  assert (Eq : Z.quot (2 ^ LOGN) 2 = n) by (rewrite HN; apply Z.quot_mul; lia).
  set (c := 2 * e + 1) in *.
  unfold f_evalmod_messages. cbv zeta. rewrite Eq, He1, Hpow. rewrite !(C68_new (K := Rops)) by lia. cbn [bind].
  set (S := fun k => (gtab n (fun p => if p <? k then f_mb_z F e p else 0%R), gtab n (fun p => if p <? k then f_mb_d F e p else 0%R), k)).
  assert (Z0 : fst (carray (K := Rops) n (fun _ => (0%R, 0%R) : CC)) = gtab n (fun _ => 0%R)) by (rewrite carray_cvtab; reflexivity).
  assert (Z1 : snd (carray (K := Rops) n (fun _ => (0%R, 0%R) : CC)) = gtab n (fun _ => 0%R)) by (rewrite carray_cvtab; reflexivity).
  change (0%num : Cops Rops) with ((0%R, 0%R) : CC). rewrite Z0, Z1.
  rewrite (for_closed _ (fun i => S ((i + 24) * c)) _ _ _ (S (49 * c))).
  - unfold S. cbn [bind]. rewrite !carray_cvtab. unfold cvtab, real, mk, cre, cim. cbn [fst snd]. apply f_equal. apply f_equal2; apply f_equal2; try reflexivity; apply gtab_ext; intros p Hp.
    + unfold f_mb_z. fold c. destruct (p <? 49 * c); reflexivity.
    + unfold f_mb_d. fold c. destruct (p <? 49 * c); reflexivity.
  - lia.
  - unfold S. f_equal. f_equal; apply gtab_ext; intros p Hp; destruct (Z.ltb_spec p ((-24 + 24) * c)); try lia; reflexivity.
  - reflexivity.
  - intros i Hi. apply (for_closed _ (fun j => S ((i + 24) * c + (j + e)))); [lia|f_equal; lia|f_equal; unfold c; lia|].
    intros j Hj. assert (Hidx : 0 <= (i + 24) * c + (j + e) < 49 * c) by (unfold c in *; nia).
    unfold S at 1. cbn iota beta. unfold f_div. destruct (Req_EM_T (IZR e) 0) as [Q|Q]; [apply (eq_IZR e 0) in Q; lia|]. cbn [bind]. rewrite gwr_gtab by lia. cbn [bind]. rewrite gwr_gtab by lia. cbn [bind]. rewrite int_in by lia. cbn [bind].
    apply f_equal. unfold S. set (k := (i + 24) * c + (j + e)) in *.
    assert (Ek1 : k / c = i + 24) by (symmetry; apply (Z.div_unique k c (i + 24) (j + e)); unfold k, c in *; lia).
    assert (Ek2 : k mod c = j + e) by (symmetry; apply (Z.mod_unique k c (i + 24) (j + e)); unfold k, c in *; lia).
    assert (Ed : f_mb_d F e k = rnd F (IZR j / IZR e)%R) by (unfold f_mb_d; fold c; destruct (Z.ltb_spec k (49 * c)); [|lia]; rewrite Ek2; repeat f_equal; lia).
    assert (Ei : mb_I e k = i) by (unfold mb_I; fold c; destruct (Z.ltb_spec k (49 * c)); [|lia]; rewrite Ek1; lia).
    assert (Ez : f_mb_z F e k = rnd F (rnd F (IZR i * 1024) + rnd F (IZR j / IZR e))%R) by (unfold f_mb_z; rewrite Ei, Ed; fold c; destruct (Z.ltb_spec k (49 * c)); [reflexivity|lia]).
    replace ((i + 24) * c + (j + 1 + e)) with (k + 1) by (unfold k; lia).
    apply f_equal2; [apply f_equal2|reflexivity]; apply gtab_ext; intros p Hp; destruct (Z.eqb_spec p k) as [->|Hne].
    + destruct (Z.ltb_spec k (k + 1)); [|lia]. symmetry. exact Ez.
    + destruct (Z.ltb_spec p (k + 1)), (Z.ltb_spec p k); try lia; reflexivity.
    + destruct (Z.ltb_spec k (k + 1)); [|lia]. symmetry. exact Ed.
    + destruct (Z.ltb_spec p (k + 1)), (Z.ltb_spec p k); try lia; reflexivity.
Qed.

Lemma p52u : powerRZ 2 (-52) = (2 * u64)%R.
Proof. pose proof (u_is 1 ltac:(lia)) as U. change (2 ^ 1) with 2 in U. change (1 - 53) with (-52) in U. symmetry. exact U. Qed.
Lemma small_top x : (Rabs x <= 100000)%R -> (Rabs x <= top64)%R.
Proof. intros H. pose proof (top64_big 62 ltac:(lia)). assert (100000 <= IZR (2 ^ 62))%R by (apply IZR_le; lia). lra. Qed.
Lemma f_mb_d_near F e p : double F -> 1 <= e -> (Rabs (f_mb_d F e p - mb_d e p) <= 2 * u64)%R.
Proof.
  intros HF He. pose proof (mb_d_bound e p He) as B. unfold f_mb_d, mb_d in *. pose proof u_pos as Hu. destruct (p <? _); [|rewrite Rminus_0_r, Rabs_R0; lra].
  eapply Rle_trans; [apply (ar_rnd _ _ _ _ _ _ _ _ HF), small_top; lra|]. pose proof (eta_u 1 ltac:(lia) ltac:(lia)). change (2 ^ 1) with 2 in *.
  assert (u64 * Rabs (IZR (p mod (2 * e + 1) - e) / IZR e) <= u64 * 1)%R by (apply Rmult_le_compat_l; lra). pose proof eta_pos. lra.
Qed.
Lemma f_mb_z_near F e p : double F -> 1 <= e -> 0 <= p -> (Rabs (f_mb_z F e p - mb_z e p) <= 32768 * u64)%R.
Proof.
  intros HF He Hp. pose proof (mb_d_bound e p He) as B. pose proof (f_mb_d_near F e p HF He) as D. pose proof (mb_I_bound e p He Hp) as [I1 I2]. pose proof u_pos as Hu. pose proof u_small as Hu2.
  unfold f_mb_z, mb_z, f_mb_d, mb_d in *. pose proof (ar_exact _ _ _ _ _ _ _ _ HF (mb_I e p * 1024) 0 ltac:(change (2 ^ 53) with 9007199254740992; lia) ltac:(lia)) as X. change (2 ^ 0) with 1 in X. rewrite Rmult_1_r, mult_IZR in X.
  destruct (p <? _) eqn:E; [|unfold mb_I; rewrite E; replace (0 - (0 * 1024 + 0))%R with 0%R by ring; rewrite Rabs_R0; lra].
  apply IZR_le in I1, I2. assert (A : (Rabs (IZR (mb_I e p) * 1024) <= 24576)%R) by (apply Rabs_le; lra). rewrite X by (apply small_top; lra).
  set (a := (IZR (mb_I e p) * 1024)%R) in *. set (d := (IZR (p mod (2 * e + 1) - e) / IZR e)%R) in *. set (d' := rnd F d) in *.
  assert (A2 : (Rabs (a + d') <= 24578)%R). { replace (a + d')%R with (a + (d + (d' - d)))%R by ring. eapply Rle_trans; [apply Rabs_triang|]. eapply Rle_trans; [apply Rplus_le_compat_l, Rabs_triang|]. lra. }
  replace (rnd F (a + d') - (a + d))%R with ((rnd F (a + d') - (a + d')) + (d' - d))%R by ring. eapply Rle_trans; [apply Rabs_triang|]. eapply Rle_trans; [apply Rplus_le_compat; [apply (ar_rnd _ _ _ _ _ _ _ _ HF), small_top; lra|exact D]|].
  assert (u64 * Rabs (a + d') <= u64 * 24578)%R by (apply Rmult_le_compat_l; lra). pose proof (eta_u 1 ltac:(lia) ltac:(lia)). change (2 ^ 1) with 2 in *. pose proof eta_pos. lra.
Qed.

(** ** Largest numbers *)
Lemma rabs_inv x d : (Rabs x <= d)%R -> (- d <= x <= d)%R.
Proof. intros H. pose proof (Rle_abs x). pose proof (Rle_abs (- x)) as O. rewrite Rabs_Ropp in O. lra. Qed.
Lemma largest_exists n (f : Z -> R) : 0 <= n -> exists M, largest n (fun j => Rabs (f j)) M.
Proof.
  intros Hn. destruct (C94_sup_norm n (fun j => real (f j)) Hn) as (M & _ & H0 & H1 & H2). exists M. split; [exact H0|]. split.
  - intros j Hj. specialize (H1 j Hj). rewrite modulus_real in H1. exact H1.
  - destruct H2 as [H2|(j & Hj & H2)]; [left; exact H2|]. right. exists j. rewrite modulus_real in H2. auto.
Qed.
Lemma largest_near n (f g : Z -> R) A B d : largest n f A -> largest n g B -> (0 <= d)%R -> (forall j, 0 <= j < n -> (Rabs (f j - g j) <= d)%R) -> (Rabs (A - B) <= d)%R.
Proof.
  intros (A0 & A1 & A2) (B0 & B1 & B2) Hd H. apply Rabs_le. split.
  - destruct B2 as [->|(j & Hj & ->)]; [lra|]. specialize (H j Hj). specialize (A1 j Hj). apply rabs_inv in H. lra.
  - destruct A2 as [->|(j & Hj & ->)]; [lra|]. specialize (H j Hj). specialize (B1 j Hj). apply rabs_inv in H. lra.
Qed.

(** A ciphertext that carries x at one scale carries k x at scale 1/k *)
Lemma carries_rescale Q N s ct D D' k x e : (0 < k)%R -> (0 < D')%R -> D = (k * D')%R -> carries Q N s ct D x e -> carries Q N s ct D' (fun j => real k * x j)%num (k * e)%R.
Proof.
  intros Hk HD' -> (m & Hm & Hx). exists m. split; [exact Hm|]. intros j Hj. specialize (Hx j Hj).
  replace (slots N D' m j) with (real k * slots N (k * D') m j)%num. 2:{ unfold slots. rewrite <- slot_scale. apply slot_ext. intros i Hi. field. split; lra. }
  match goal with |- (modulus ?a <= _)%R => replace a with (real k * (slots N (k * D') m j - x j))%num by ring end.
  rewrite modulus_mul, modulus_real, Rabs_right by lra. apply Rmult_le_compat_l; [lra|exact Hx].
Qed.

(** ** measure_b_evalmod, with the parameters of rns.h.  [lpow 2 10 = 1024] is all that is asked of pow.  [y] is the message decoded at the end,
    B the largest difference of its real parts from the messages without the multiples of 1024, and b the number printed. *)
Theorem C129_measure_b_evalmod : forall F, double F -> keeps_sign (rnd F) -> forall lpow, lpow 2%R 10%R = 1024%R -> forall LOGN fuel RM rng st st2 pos, 9 <= LOGN <= 14 -> rand_stream RM rng -> f_ifft_static F LOGN st -> f_fft_static F LOGN st2 ->
  keygen fuel (2 ^ LOGN) rng 128 (fresh (2 ^ LOGN)) pos = Diverge /\ f_measure_b_evalmod F lpow fuel 1450 LOGN 50 60 24 128 RM rng st st2 pos = Diverge \/
  exists st' st2' pos' y b B, f_measure_b_evalmod F lpow fuel 1450 LOGN 50 60 24 128 RM rng st st2 pos = Ok (st', st2', pos', (carray (K := Rops) (2 ^ (LOGN - 1)) y, b)) /\
    largest (2 ^ (LOGN - 1)) (fun j => Rabs (mb_d (eps_num (2 ^ LOGN)) j - fst (y j))) B /\ (Rabs (b - B) <= 1 / IZR (10 ^ 13))%R /\
    (B <= IZR (2 ^ LOGN) / 1700 + 1 / 1000000)%R.
Proof.
  intros F HF Hks lpow Hpow LOGN fuel RM rng st st2 pos HL Hrnd Hst Hst2. unfold f_measure_b_evalmod. cbv zeta. pose proof (halfN LOGN ltac:(lia)) as Hh2. set (N := 2 ^ LOGN) in *. set (n := 2 ^ (LOGN - 1)) in *.
  assert (HN : 1 <= N) by (pose proof (pow2_pos LOGN ltac:(lia)); unfold N; lia).
  assert (HN2 : N = 2 * n) by (apply (N2 LOGN ltac:(lia))). assert (Eq : Z.quot N 2 = n) by (rewrite HN2, Z.mul_comm; apply Z.quot_mul; lia). rewrite Eq.
  destruct (C34_keygen fuel N rng RM 128 (fresh N) pos HN ltac:(lia) Hrnd (repeat_length _ _)) as [E0|(s & pos1 & E0 & Hs & Hh)]; [left; rewrite E0; split; reflexivity|right].
  rewrite E0. cbn [bind]. rewrite <- norm1_count in Hh by exact Hs. assert (Hn : 1 <= n) by lia.
  pose proof (eps_num_pos LOGN ltac:(lia)) as He. set (e := eps_num (2 ^ LOGN)) in *. destruct (mb_messages LOGN e ltac:(lia) eq_refl He) as [_ Hc]. fold n in Hc.
  pose proof (f_mb_messages F lpow LOGN e Hpow ltac:(lia) eq_refl He) as E1. fold n in E1. fold N in E1. rewrite E1. cbn [bind].
  assert (NR : (512 <= IZR N <= 16384)%R) by (split; apply IZR_le; [change 512 with (2 ^ 9)|change 16384 with (2 ^ 14)]; apply Z.pow_le_mono_r; lia).
  set (z := fun p : Z => (real (f_mb_z F e p) : CC)).
  set (p48 := powerRZ 2 (-48)) in *. assert (P48 : (0 < p48 <= / 281474976710656)%R). { split; [apply p2_pos|]. apply Req_le. unfold p48. change (powerRZ 2 (-48)) with (/ 2 ^ 48)%R. f_equal. rewrite pow_IZR. f_equal. }
  set (p41 := powerRZ 2 (-41)) in *. assert (P41e : p41 = (/ 2199023255552)%R). { unfold p41. change (powerRZ 2 (-41)) with (/ 2 ^ 41)%R. f_equal. rewrite pow_IZR. f_equal. }
  assert (P42 : (0 < powerRZ 2 (-42) <= / 4398046511104)%R). { split; [apply p2_pos|]. apply Req_le. change (powerRZ 2 (-42)) with (/ 2 ^ 42)%R. f_equal. rewrite pow_IZR. f_equal. }
  assert (P900 : (0 < powerRZ 2 (-900) <= p41)%R) by (split; [apply p2_pos|apply p2_le; lia]). assert (P1000 : (0 < powerRZ 2 (-1000) <= p48)%R) by (split; [apply p2_pos|apply p2_le; lia]).
  assert (PU : p48 = (32 * u64)%R). { unfold p48. change (-48) with (4 + -52). rewrite p2_add, p52u. change (powerRZ 2 4) with (2 * (2 * (2 * (2 * 1))))%R. ring. }
  assert (ZD : forall j, 0 <= j < n -> (modulus (z j - real (mb_z e j))%num <= 1024 * p48)%R). { intros j Hj. unfold z. rewrite real_minus, modulus_real. pose proof (f_mb_z_near F e j HF He ltac:(lia)). lra. }
  assert (ZB : forall j, 0 <= j < n -> (modulus (z j) <= mb_bound e j + 1024 * p48)%R). { intros j Hj. eapply Rle_trans; [apply (modulus_near _ (real (mb_z e j)))|]. pose proof (mb_z_bound e j He). specialize (ZD j Hj). lra. }
  assert (ZM : forall j, 0 <= j < n -> (modulus (z j) <= 24578)%R).
  { intros j Hj. eapply Rle_trans; [apply (modulus_near _ (real (mb_z e j)))|]. specialize (ZD j Hj). rewrite modulus_real. unfold mb_z at 1. destruct (mb_I_bound e j He ltac:(lia)) as [I1 I2]. apply IZR_le in I1, I2. pose proof (mb_d_bound e j He) as DB. apply rabs_inv in DB.
    assert (Rabs (IZR (mb_I e j) * 1024 + mb_d e j) <= 24577)%R by (apply Rabs_le; lra). lra. }
  destruct (some_m LOGN ltac:(lia) z) as [m Hms]. fold N n in Hms.
  assert (MB : forall i, 0 <= i < N -> (Rabs (m i) <= 12541)%R).
  { intros i Hi. pose proof (coef_slots_mean LOGN m (fun j => mb_bound e j + 1024 * p48)%R ltac:(lia)) as CM. fold N n in CM. specialize (CM ltac:(intros j Hj; rewrite (Hms j Hj); apply ZB; exact Hj) i Hi).
    pose proof (mb_sum e n He Hc) as M. rewrite rsum_add, rsum_const in CM by lia. assert (1 <= IZR n)%R by (apply IZR_le; lia).
    assert (IZR n * Rabs (m i) <= IZR n * 12541)%R by nra. apply (Rmult_le_reg_l (IZR n)); [lra|assumption]. }
  set (P50 := 1125899906842624%R). assert (E50 : IZR (2 ^ 50) = P50) by reflexivity. set (P60 := 1152921504606846976%R). assert (E60 : IZR (2 ^ 60) = P60) by reflexivity.
  destruct (C83_encode_mean_double F HF 1450 LOGN ltac:(lia) ltac:(lia) (2 ^ 50) st z m 24578%R 12541%R (rq_new 1450 N)) as (st' & pt & c & E2 & _ & Hc1 & Hc2); auto; try lra.
  { split; [apply Z.pow_pos_nonneg; lia|apply Z.pow_lt_mono_r; lia]. } { apply objP_object; try lia. apply objP_new. }
  { split; [lra|]. apply Rle_trans with (powerRZ 2 20); [rewrite powerRZ_2 by lia; change (2 ^ 20) with 1048576; lra|apply p2_le; lia]. }
  { rewrite E50. change (IZR (2 ^ 64)) with 18446744073709551616%R. fold p41. unfold P50. lra. }
  { apply Rlt_le_trans with (IZR (2 ^ 64)); [|apply IZR_le, Z.pow_le_mono_r; lia]. rewrite E50. change (IZR (2 ^ 64)) with 18446744073709551616%R. fold p41. unfold P50. lra. }
  fold N n in E2, Hc1, Hc2. fold p41 in Hc2. rewrite E50 in Hc2.
  match goal with |- context [f_encode F 1450 LOGN st ?a ?b ?c ?d] => replace (f_encode F 1450 LOGN st a b c d) with (Ok (st', pt)) by (symmetry; exact E2) end. cbn [bind].
  destruct (C35_enc_dec 1450 N RM rng pt c s (sq_new 1450 N) pos1 (rq_new 1450 N)) as (ct & pos2 & e0 & pt' & E3 & He0 & _ & _ & Hd); auto; try lia.
  { apply new_object2; lia. } { apply objP_object; try lia. apply objP_new. }
  rewrite E3. cbn [bind].
  set (err := (IZR N * (25 * p41) + p48)%R).
  assert (H3 : carries 1450 N (coef s) ct (IZR (2 ^ 50)) (fun j => real (mb_z e j)) (1024 * err)).
  { set (w := fun i => c i + e0 i) in *. exists w. split; [exact Hd|]. rewrite Hh2. intros j Hj. replace (slots N (IZR (2 ^ 50)) w j - real (mb_z e j))%num with ((slots N (IZR (2 ^ 50)) w j - z j) + (z j - real (mb_z e j)))%num by ring.
    eapply Rle_trans; [apply modulus_add|]. unfold err. rewrite Rmult_plus_distr_l. apply Rplus_le_compat; [|apply ZD; exact Hj]. replace (1024 * (IZR N * (25 * p41)))%R with (IZR N * (1024 * (25 * p41)))%R by ring.
    rewrite <- (Hms j Hj). unfold slots. rewrite <- slot_sub. apply modulus_slot; [lia|]. intros i Hi. specialize (Hc2 i Hi). specialize (He0 i Hi). rewrite E50.
    unfold w. rewrite plus_IZR. replace ((IZR (c i) + IZR (e0 i)) / P50 - m i)%R with ((IZR (c i) - m i * P50 + IZR (e0 i)) * / P50)%R by (unfold P50; field).
    assert (IP : (0 < / P50)%R) by (unfold P50; lra). rewrite Rabs_mult, (Rabs_right (/ P50)) by lra. apply Rle_trans with ((1024 * (25 * p41) * P50) * / P50)%R; [|apply Req_le; unfold P50; field]. apply Rmult_le_compat_r; [lra|].
    eapply Rle_trans; [apply Rabs_triang|]. rewrite <- (abs_IZR (e0 i)). apply IZR_le in He0. unfold P50 in *. lra. }
  assert (H4 : carries 1450 N (coef s) ct (IZR (2 ^ 60)) (fun j => real (IZR (mb_I e (Z.max 0 j)) + mb_d e (Z.max 0 j) * / 1024)) err).
  { apply (carries_rescale _ _ _ _ _ (IZR (2 ^ 60)) (/ 1024)) in H3; [|lra|apply IZR_lt; lia|rewrite E50, E60; unfold P50, P60; lra].
    eapply (carries_ext LOGN (coef s)); [|apply Req_le|exact H3]; [|field]. intros j Hj. cbv beta. rewrite <- real_mul. f_equal. rewrite Z.max_r by lia. unfold mb_z. field. }
  set (delta := (IZR N * (105 / 100 * p41) + / 10000000000000000 * 4)%R).
  assert (D1 : (delta <= / IZR (10 ^ 8))%R). { unfold delta. change (10 ^ 8) with 100000000. rewrite P41e. lra. }
  assert (D2 : (err / 24 + 26 / IZR (2 ^ 60) + IZR N * IZR (1 + norm1 N (coef s)) / (2 * IZR (2 ^ 60)) + IZR N * (8 * IZR N + IZR (1 + norm1 N (coef s))) / (IZR (2 ^ 60) * IZR (2 ^ 60)) + 2 / IZR (10 ^ 16) <= delta)%R).
  { rewrite Hh. change (1 + 128) with 129. change (10 ^ 16) with 10000000000000000. unfold err, delta. rewrite E60.
    assert (T : (IZR N * (8 * IZR N + 129) / (P60 * P60) <= IZR N * / 100 / P60)%R).
    { unfold Rdiv. rewrite Rinv_mult. rewrite <- !Rmult_assoc. apply Rmult_le_compat_r; [unfold P60; lra|]. rewrite Rmult_assoc. apply Rmult_le_compat_l; [lra|]. unfold P60. lra. }
    eapply Rle_trans; [apply Rplus_le_compat_r, Rplus_le_compat_l; exact T|]. rewrite P41e. unfold P60. lra. }
  assert (Hdd : forall j, (Rabs (mb_d e (Z.max 0 j) * / 1024) <= / 1024)%R).
  { intros j. rewrite Rabs_mult, (Rabs_right (/ 1024)) by lra. pose proof (mb_d_bound e (Z.max 0 j) He). lra. }
  assert (HI : forall j, (Rabs (IZR (mb_I e (Z.max 0 j)) + mb_d e (Z.max 0 j) * / 1024 - / 4) <= 24252 / 1000)%R).
  { intros j. specialize (Hdd j). destruct (mb_I_bound e (Z.max 0 j) He ltac:(lia)) as [L U]. apply IZR_le in L, U. apply rabs_inv in Hdd. apply Rabs_le. split; lra. }
  set (err' := (1160000 * delta + 9 / IZR (10 ^ 11) + 117 * (/ 1024) ^ 5)%R).
  assert (EM : forall pos p, object2 (1450 - 12 * 60) N p -> exists pos' p', f_EvalMod F 1450 N 60 24 RM rng pos ct (map Some s) p = Ok (pos', p') /\
    carries (1450 - 12 * 60) N (coef s) p' (IZR (2 ^ 60)) (fun j => real (mb_d e (Z.max 0 j) * / 1024)) err').
  { intros pos0 p Hp. apply (C129_EvalMod_double F HF LOGN 60 1450 RM rng pos0 s ct (fun j => mb_I e (Z.max 0 j)) (fun j => (mb_d e (Z.max 0 j) * / 1024)%R) (/ 1024)%R err delta p); auto. apply rns_params. lia. }
  rewrite (for_step _ 0 2) by lia. cbn beta iota. destruct (EM pos2 (sq_new (1450 - 12 * 60) N)) as (pos3 & c1 & E4 & H5); [apply new_object2; lia|]. rewrite E4. cbn [bind].
  change (0 + 1) with 1. rewrite (for_step _ 1 2) by lia. cbn beta iota. destruct (EM pos3 c1) as (pos4 & c2 & E5 & H6). { eapply (carries_object LOGN (coef s)); [|exact H5]. lia. } rewrite E5. cbn [bind].
  change (1 + 1) with 2. rewrite for_nil by lia. cbn [bind].
  assert (Cn : carray_of (K := Rops) n (carray n (fun _ => 0%num))) by apply carray_of_carray. destruct Cn as [Ca Cb].
  apply (carries_rescale _ _ _ _ _ (IZR (2 ^ 50)) 1024) in H6; [|lra|apply IZR_lt; lia|rewrite E50, E60; unfold P50, P60; lra].
  set (err2 := (1024 * err')%R) in *. assert (Herr2 : (0 <= err2 <= IZR N / 1750 + 1 / 1500000)%R).
  { unfold err2, err', delta. change (10 ^ 11) with 100000000000. rewrite P41e. cbn [pow]. split; lra. }
  assert (H6' : carries (1450 - 12 * 60) N (coef s) c2 (IZR (2 ^ 50)) (fun j => real (mb_d e (Z.max 0 j))) err2).
  { eapply (carries_ext LOGN (coef s)); [|apply Rle_refl|exact H6]. intros j Hj. cbv beta. rewrite <- real_mul. f_equal. field. }
  destruct (f_carries_decoded F HF LOGN ltac:(lia) (1450 - 12 * 60) 50 s c2 (fun j => real (mb_d e (Z.max 0 j))) err2 1%R st2 (fst (carray (K := Rops) n (fun _ => (0%num : CC)))) (snd (carray (K := Rops) n (fun _ => (0%num : CC)))) ltac:(lia) ltac:(change (2 ^ 30) with 1073741824; lia) Hs Hst2 H6') as (pt2 & st2' & y & E6 & E7 & _ & H7); [| | |exact Ca|exact Cb|].
  { intros j Hj. rewrite modulus_real. apply mb_d_bound. exact He. }
  { apply Rle_lt_trans with (IZR (2 ^ 50) * 16)%R; [apply Rmult_le_compat_l; [apply IZR_le, Z.pow_nonneg; lia|lra]|]. rewrite <- (mult_IZR _ 16). apply IZR_lt. change (2 ^ 50 * 16) with (2 ^ 54). apply Z.pow_lt_mono_r; lia. }
  { apply Rle_trans with (powerRZ 2 10); [rewrite powerRZ_2 by lia; change (2 ^ 10) with 1024; lra|apply p2_le; lia]. }
  fold N n in E6, E7, H7. rewrite E6. cbn [bind]. rewrite !(C68_new (K := Rops)) by lia. cbn [bind].
  match goal with |- context [f_decode_log F ?a0 LOGN st2 ?a ?b ?c ?d] => replace (f_decode_log F a0 LOGN st2 a b c d) with (Ok (st2', carray (K := Rops) n y)) by (symmetry; exact E7) end. cbn [bind].
  set (x := fun p : Z => (real (f_mb_d F e p) : CC)).
  pose proof (C68_sub (K := Fops F) n x y (carray (K := Rops) n (fun _ => (0%num : CC))) ltac:(lia) (carray_of_carray n (fun _ => (0%num : CC)))) as ES.
  match type of ES with _ = Ok ?t => set (RR := t) in ES end.
  match goal with |- context [@msg_sub ?k n ?a ?b ?c] => assert (ES' : @msg_sub k n a b c = Ok RR) by exact ES end. rewrite ES'. cbn [bind].
  assert (EF : fst RR = gtab n (fun i => rnd F (f_mb_d F e i - fst (y i)))) by (unfold RR; rewrite carray_cvtab; reflexivity).
  assert (EG : exists g, snd RR = gtab n (g : Z -> R)) by (eexists; unfold RR; rewrite carray_cvtab; reflexivity). destruct EG as [g EG].
  rewrite EF, EG. match goal with |- context [for_ 0 n ?b (gtab n g)] => replace (for_ 0 n b (gtab n g)) with (Ok (gtab n (fun _ => 0%R))) by (symmetry; apply (fill_gtab n b (fun i => Some (g i)) (fun _ => 0%R)); [lia|reflexivity]) end. cbn [bind].
  set (r := fun i : Z => rnd F (f_mb_d F e i - fst (y i))).
  assert (EC : (gtab n (fun i => rnd F (f_mb_d F e i - fst (y i))), gtab n (fun _ => 0%R)) = carray (K := Rops) n (fun i => real (r i))) by (rewrite carray_cvtab; reflexivity).
  match goal with |- context [f_sup_norm F n ?t] => replace t with (carray (K := Rops) n (fun i => (real (r i) : CC))) by (symmetry; exact EC) end. destruct (largest_exists n r ltac:(lia)) as [M' LM]. destruct (largest_exists n (fun j => mb_d e j - fst (y j))%R ltac:(lia)) as [M LB].
  assert (HB : forall j, 0 <= j < n -> (Rabs (mb_d e j - fst (y j)) <= IZR N / 1700 + 1 / 1000000)%R).
  { intros j Hj. specialize (H7 j Hj). rewrite Z.max_r in H7 by lia. eapply Rle_trans. { rewrite Rabs_minus_sym. apply (modulus_cre (y j - real (mb_d e j))%num). } eapply Rle_trans; [exact H7|].
    apply Rle_trans with (err2 + dec_off N 12)%R; [apply Rplus_le_compat_l; apply (dec_off_mono LOGN ltac:(lia)); lra|]. unfold dec_off.
    assert (powerRZ 2 (-42) * (IZR N * 12) <= / 4398046511104 * (IZR N * 12))%R by (apply Rmult_le_compat_r; lra). lra. }
  assert (MB2 : (0 <= M <= IZR N / 1700 + 1 / 1000000)%R). { destruct LB as (B0 & _ & [->|(j & Hj & EB)]); [lra|]. split; [exact B0|]. rewrite EB. apply HB. exact Hj. }
  pose proof u_pos as Hu. pose proof u_small as Hu2. pose proof (eta_u 1 ltac:(lia) ltac:(lia)) as Heu. change (2 ^ 1) with 2 in Heu. pose proof eta_pos as Het.
  assert (RN : forall j, 0 <= j < n -> (Rabs (r j - (mb_d e j - fst (y j))) <= 15 * u64)%R).
  { intros j Hj. unfold r. pose proof (f_mb_d_near F e j HF He) as D. specialize (HB j Hj). set (a := (f_mb_d F e j - fst (y j))%R).
    assert (A : (Rabs (a - (mb_d e j - fst (y j))) <= 2 * u64)%R) by (unfold a; replace (f_mb_d F e j - fst (y j) - (mb_d e j - fst (y j)))%R with (f_mb_d F e j - mb_d e j)%R by ring; exact D).
    assert (A2 : (Rabs a <= 11)%R). { replace a with ((a - (mb_d e j - fst (y j))) + (mb_d e j - fst (y j)))%R by ring. eapply Rle_trans; [apply Rabs_triang|]. lra. }
    replace (rnd F a - (mb_d e j - fst (y j)))%R with ((rnd F a - a) + (a - (mb_d e j - fst (y j))))%R by ring. eapply Rle_trans; [apply Rabs_triang|]. eapply Rle_trans; [apply Rplus_le_compat; [apply (ar_rnd _ _ _ _ _ _ _ _ HF), small_top; lra|exact A]|].
    assert (u64 * Rabs a <= u64 * 11)%R by (apply Rmult_le_compat_l; lra). lra. }
  assert (MM : (Rabs (M' - M) <= 15 * u64)%R).
  { apply (largest_near n _ _ M' M _ LM LB); [lra|]. intros j Hj. cbv beta. eapply Rle_trans; [|apply (RN j Hj)]. apply Rabs_triang_inv2. }
  assert (LM' : largest n (fun j => modulus (real (r j))) M').
  { destruct LM as (A1 & A2 & A3). split; [exact A1|]. split; [intros j Hj; rewrite modulus_real; apply A2; exact Hj|]. destruct A3 as [A3|(j & Hj & A3)]; [left; exact A3|]. right. exists j. rewrite modulus_real. auto. }
  apply rabs_inv in MM.
  destruct (C118_sup_norm_double F HF n (fun i => real (r i)) M' Hks ltac:(lia) LM') as (b & E8 & H8).
  { apply Rle_trans with (powerRZ 2 10); [rewrite powerRZ_2 by lia; change (2 ^ 10) with 1024; lra|apply p2_le; lia]. }
  rewrite E8. cbn [bind]. exists st', st2', pos4, y, b, M. split; [reflexivity|]. split; [exact LB|]. split; [|apply MB2].
  assert (P500 : (powerRZ 2 (-500) <= powerRZ 2 (-52))%R) by (apply p2_le; lia). rewrite p52u in P500.
  assert (P50' : powerRZ 2 (-50) = (8 * u64)%R). { change (-50) with (2 + -52). rewrite p2_add, p52u. change (powerRZ 2 2) with (2 * (2 * 1))%R. ring. }
  rewrite P50' in H8. assert (8 * u64 * M' <= 8 * u64 * 11)%R by (apply Rmult_le_compat_l; lra). apply rabs_inv in H8. change (10 ^ 13) with 10000000000000. apply Rabs_le. split; lra.
Qed.

(** A program run in correctly rounded double precision *)
Lemma pow64_2_10 : pow64 2 10 = 1024%R.
Proof.
  unfold pow64. replace (Rpower 2 10) with 1024%R. 2:{ replace 10%R with (INR 10) by (cbn; lra). rewrite Rpower_pow by lra. lra. }
  pose proof (ar_exact _ _ _ _ _ _ _ _ C87_binary64 1 10 ltac:(lia) ltac:(lia)) as X. change (IZR (2 ^ 10)) with 1024%R in X. rewrite !Rmult_1_l in X. apply X. apply small_top. rewrite Rabs_right; lra.
Qed.
Example C129_measure_case : exists fuel st' st2' pos' y b, f_measure_b_evalmod F64 pow64 fuel 1450 9 50 60 24 128 (2 ^ 31 - 1) counting None None 0 = Ok (st', st2', pos', (carray (K := Rops) 256 y, b)) /\ (b <= 31 / 100)%R /\
  mb_d (eps_num (2 ^ 9)) 0 = (-1)%R /\ (Rabs (-1 - fst (y 0%Z)) <= 31 / 100)%R.
Proof.
  destruct (C34_keygen_returns (2 ^ 9) counting (2 ^ 31 - 1) 128 (fresh (2 ^ 9)) 0 ltac:(lia) ltac:(lia) counting_stream (repeat_length _ _)) as (fu & r & HF).
  { intros j p Hj. exists (Z.to_nat (512 * Z.of_nat p + j)). split; [lia|]. unfold counting. rewrite Z2Nat.id by lia. change (2 ^ 9) with 512 in *. change (2 ^ 31) with (512 * 4194304).
    rewrite Z.rem_mul_r by lia. rewrite (Z.mul_comm 512 (_ mod 4194304)), Z.mod_add by lia. rewrite Z.mod_mod by lia. rewrite Z.add_comm, Z.mul_comm, Z.mod_add, Z.mod_small by lia. reflexivity. }
  exists fu. destruct (C129_measure_b_evalmod F64 C87_binary64 C118_sign_binary64 pow64 pow64_2_10 9 fu (2 ^ 31 - 1) counting None None 0 ltac:(lia) counting_stream (f_ifft_first _ 9) (f_fft_first _ 9)) as [[E _]|(st' & st2' & pos' & y & b & B & E & L & Hb & HB)]; [rewrite (HF fu (le_n fu)) in E; discriminate|].
  exists st', st2', pos', y, b. split; [exact E|]. change (2 ^ 9) with 512 in HB. change (10 ^ 13) with 10000000000000 in Hb. apply rabs_inv in Hb. split; [lra|].
  assert (M0 : mb_d (eps_num (2 ^ 9)) 0 = (-1)%R). { change (eps_num (2 ^ 9)) with 2. unfold mb_d. change (0 <? 49 * (2 * 2 + 1)) with true. change (0 mod (2 * 2 + 1) - 2) with (-2). lra. }
  split; [exact M0|]. destruct L as (_ & L & _). specialize (L 0 ltac:(change (2 ^ (9 - 1)) with 256; lia)). cbv beta in L. rewrite M0 in L. lra.
Qed.
