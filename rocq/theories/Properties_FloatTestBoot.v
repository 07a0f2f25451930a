(** C124: what bootstrap_test.cpp, evalqI_test.cpp and proposal.cpp print, in double precision (compare C105). *)
From Coq Require Import ZArith List Bool Lia Reals Lra Ring.
From Verif Require Import Base BaseFacts Sums ZQ ZQFacts ZQFacts2 RQ RQFacts Conv Rot Util GSum Core CoreFacts Matrix MatrixFacts MatMulFacts
  DFT DFTTheory DFTFacts FFTFacts SpecZQ SpecPoly SpecPolyFacts SpecScheme ConvFacts SpecMat Properties_Mat Properties_Msg SpecDFT Properties_DFT SpecEnc Properties_Core Properties_Rot Properties_Conv
  GroupFacts SlotFacts Encode EncodeFacts Plain BootFacts Properties_Enc Properties_Plain SpecLin LinTrans LinTransFacts LinSlots GroupSlots SpecBoot BootSlots PlainFacts SpecStat StatFacts Section3 Properties_Stat Properties_MatErr Properties_Serial
  Properties_Lin Properties_Boot Poly EvalMod SpecMod EvalModFacts PiBound EvalModBound Properties_EvalMod SpecPipe Pipeline PipeFacts Properties_Pipe Bootstrap SpecEval EvalFacts Section4 SupFacts MeasFacts Measure UtilFacts Properties_ZQ CtsMeasure CtsProps Messages SupRatio TestProg TestLayers TestLinT TestBoot TestBootP.
From Verif Require Import Float SpecFloat FloatNum Binary64 Properties_Float SpecFloatLin FloatLin FloatSerial FloatGrouped SpecFloatBoot FloatBoot FloatBootSlots FloatBootNum Properties_FloatLin FloatMod SpecFloatMod FloatModFacts FloatModBound Properties_FloatMod.
From Verif Require Import SpecTail Tail TailFacts TailNum Properties_Tail SpecFloatPipe FloatPipeFacts FloatPipe Properties_FloatPipe FloatDot FloatMsg Properties_FloatMsg Properties_FloatTail.
From Verif Require Import FloatSetup Properties_FloatSetup FloatTestBoot.
Import ListNotations.
Open Scope Z_scope.
Add Ring RCftb : HR.

Section Sup.
Context (F : fpu) (HF : double F).
Let u_s := u_small.
Let Hu : (0 <= u64 <= / 1024)%R := ar_u _ _ _ _ _ _ _ _ HF.
Let He : (0 <= eta64 <= / 1024)%R := ar_eta _ _ _ _ _ _ _ _ HF.
Let Hr : forall x, (Rabs x <= top64 -> Rabs (rnd F x - x) <= u64 * Rabs x + eta64)%R := ar_rnd _ _ _ _ _ _ _ _ HF.

(** one coefficient of absolute value w, computed as the quotient of x' and the scale *)
Lemma quotient_near w LD x' : 0 <= w < 2 ^ 64 -> 0 <= LD <= 60 -> (Rabs (x' - IZR w) <= u64 * IZR w + eta64)%R ->
  exists v, f_div F x' (rnd F (IZR (2 ^ LD))) = Ok v /\ (Rabs (v - IZR w / IZR (2 ^ LD)) <= 3 * u64 * (IZR w / IZR (2 ^ LD)) + 3 * eta64)%R.
Proof.
  intros Hw HLD Hx. assert (D1 : 1 <= 2 ^ LD <= 2 ^ 60) by (split; [pose proof (Z.pow_pos_nonneg 2 LD); lia|apply Z.pow_le_mono_r; lia]).
  assert (T : (IZR (2 ^ 66) <= top64)%R) by (apply top64_big; lia). change (2 ^ 66) with 73786976294838206464 in T. change (2 ^ 60) with 1152921504606846976 in D1. change (2 ^ 64) with 18446744073709551616 in Hw.
  assert (ED : rnd F (IZR (2 ^ LD)) = IZR (2 ^ LD)).
  { pose proof (ar_exact _ _ _ _ _ _ _ _ HF 1 LD ltac:(lia) ltac:(lia)) as E. rewrite !Rmult_1_l in E. apply E. rewrite Rabs_right by (apply Rle_ge, IZR_le; lia). apply Rle_trans with (IZR 1152921504606846976); [apply IZR_le; lia|lra]. }
  rewrite ED. assert (DR : (1 <= IZR (2 ^ LD))%R) by (apply IZR_le; lia). set (D := IZR (2 ^ LD)) in *. assert (WR : (0 <= IZR w <= 18446744073709551616)%R) by (split; apply IZR_le; lia). set (W' := IZR w) in *.
  unfold f_div. destruct (Req_EM_T D 0); [lra|]. eexists. split; [reflexivity|]. assert (ID : (0 < / D <= 1)%R). { split; [apply Rinv_0_lt_compat; lra|]. rewrite <- Rinv_1. apply Rinv_le_contravar; lra. }
  set (q := (W' / D)%R). assert (Q0 : (0 <= q <= W')%R). { unfold q, Rdiv. split; [apply Rmult_le_pos; lra|]. rewrite <- (Rmult_1_r W') at 2. apply Rmult_le_compat_l; lra. }
  assert (E1 : (Rabs (x' / D - q) <= u64 * q + eta64)%R).
  { replace (x' / D - q)%R with ((x' - W') * / D)%R by (unfold q; field; lra). rewrite Rabs_mult, (Rabs_right (/ D)) by lra. apply Rle_trans with ((u64 * W' + eta64) * / D)%R; [apply Rmult_le_compat_r; lra|].
    replace ((u64 * W' + eta64) * / D)%R with (u64 * q + eta64 * / D)%R by (unfold q; field; lra). apply Rplus_le_compat_l. rewrite <- (Rmult_1_r eta64) at 2. apply Rmult_le_compat_l; lra. }
  assert (U1 : (0 <= u64 * q <= / 1024 * q)%R) by (split; [apply Rmult_le_pos|apply Rmult_le_compat_r]; lra).
  assert (E2 : (Rabs (x' / D) <= q + u64 * q + eta64)%R) by (apply abs_inv in E1; apply Rabs_le; lra).
  pose proof (rd_err u64 eta64 top64 (rnd F) Hu Hr _ _ E2 ltac:(lra)) as E3.
  assert (U2 : (u64 * (q + u64 * q + eta64) <= u64 * q + / 1024 * (u64 * q) + / 1024 * eta64)%R).
  { assert (u64 * (u64 * q) <= / 1024 * (u64 * q))%R by (apply Rmult_le_compat_r; lra). assert (u64 * eta64 <= / 1024 * eta64)%R by (apply Rmult_le_compat_r; lra). lra. }
  apply abs_inv in E1, E3. apply Rabs_le. lra.
Qed.
Lemma max_near a b m M r w : (0 <= a)%R -> (0 <= M)%R -> (0 <= w)%R -> (Rabs (m - M) <= a * M + b)%R -> (Rabs (r - w) <= a * w + b)%R ->
  (Rabs ((if Rlt_dec m r then r else m) - (if Rlt_dec M w then w else M)) <= a * (if Rlt_dec M w then w else M) + b)%R.
Proof.
  intros Ha HM Hw H1 H2. apply abs_inv in H1, H2. destruct (Rlt_dec M w).
  - assert (a * M <= a * w)%R by (apply Rmult_le_compat_l; lra). destruct (Rlt_dec m r); apply Rabs_le; lra.
  - assert (a * w <= a * M)%R by (apply Rmult_le_compat_l; lra). destruct (Rlt_dec m r); apply Rabs_le; lra.
Qed.
Definition f_sup_measure (sup : Z -> Z -> Z -> poly -> res R) : Prop := forall Q N LD d, 66 <= Q -> 0 <= N -> 0 <= LD <= 60 -> (forall i, 0 <= i < N -> Z.abs (d i) < 2 ^ 64) ->
  exists S M, sup Q N LD (repP Q N d) = Ok S /\ largest N (fun i => IZR (Z.abs (d i)) / IZR (2 ^ LD))%R M /\ (Rabs (S - M) <= 3 * u64 * M + 3 * eta64)%R.
Lemma f_sup_word_ok : f_sup_measure (f_err_sup_word F).
Proof.
  intros Q N LD d HQ HN HLD Hd. unfold f_err_sup_word.
  match goal with |- context [for_ 0 N ?b _] => destruct (for_inv b (fun k p => exists M, largest k (fun j => IZR (Z.abs (d j)) / IZR (2 ^ LD))%R M /\ (Rabs (p - M) <= 3 * u64 * M + 3 * eta64)%R) 0 N 0%R HN) as (S & E & M & H1 & H2) end.
  - exists 0%R. split; [apply largest_0|]. rewrite Rminus_0_r, Rabs_R0. lra.
  - intros i S Hi (M & HM & HS). unfold repP. rewrite lget_tab by auto. cbn [bind]. destruct (low_word Q HQ (d i) (Hd i Hi)) as (val & Ev & Er). rewrite Ev. cbn [bind].
    destruct (zq_is_big Q val) as [big| | |]; cbn [bind] in Er |- *; try discriminate.
    destruct (if big then zq_negate Q val else Ok val) as [v2| | |]; cbn [bind] in Er |- *; try discriminate. rewrite Er. cbn [bind].
    assert (Hb : 0 <= Z.abs (d i) < 2 ^ 64) by (specialize (Hd i Hi); lia).
    destruct (quotient_near (Z.abs (d i)) LD (rnd F (IZR (Z.abs (d i)))) Hb HLD) as (v & Ef & Hv).
    { eapply Rle_trans; [apply Hr|]; rewrite Rabs_right by (apply Rle_ge, IZR_le; lia); [|lra]. apply Rle_trans with (IZR (2 ^ 64)); [apply IZR_le; lia|apply top64_big; lia]. }
    rewrite Ef. cbn [bind]. eexists. split; [reflexivity|]. eexists. split; [apply (largest_step i (fun j => IZR (Z.abs (d j)) / IZR (2 ^ LD))%R M); [lia|exact HM]|].
    apply max_near; auto; [lra|apply HM|]. apply Rmult_le_pos; [apply IZR_le; lia|]. apply Rlt_le, Rinv_0_lt_compat, IZR_lt. apply Z.pow_pos_nonneg; lia.
  - exists S, M. auto.
Qed.
Lemma f_sup_double_ok : f_sup_measure (f_err_sup_double F).
Proof.
  intros Q N LD d HQ HN HLD Hd. unfold f_err_sup_double.
  match goal with |- context [for_ 0 N ?b _] => destruct (for_inv b (fun k p => exists M, largest k (fun j => IZR (Z.abs (d j)) / IZR (2 ^ LD))%R M /\ (Rabs (p - M) <= 3 * u64 * M + 3 * eta64)%R) 0 N 0%R HN) as (S & E & M & H1 & H2) end.
  - exists 0%R. split; [apply largest_0|]. rewrite Rminus_0_r, Rabs_R0. lra.
  - intros i S Hi (M & HM & HS). unfold repP. rewrite lget_tab by auto. cbn [bind]. unfold f_zq_double. destruct (low_word Q HQ (d i) (Hd i Hi)) as (val & Ev & Er). rewrite Ev. cbn [bind].
    destruct (zq_is_big Q val) as [big| | |]; cbn [bind] in Er |- *; try discriminate.
    destruct (if big then zq_negate Q val else Ok val) as [v2| | |]; cbn [bind] in Er |- *; try discriminate. rewrite Er. cbn [bind]. cbv zeta. cbn [bind].
    assert (Hb : 0 <= Z.abs (d i) < 2 ^ 64) by (specialize (Hd i Hi); lia).
    replace (Rabs (if big then (- rnd F (IZR (Z.abs (d i))))%R else rnd F (IZR (Z.abs (d i))))) with (Rabs (rnd F (IZR (Z.abs (d i))))) by (destruct big; [rewrite Rabs_Ropp|]; reflexivity).
    destruct (quotient_near (Z.abs (d i)) LD (Rabs (rnd F (IZR (Z.abs (d i))))) Hb HLD) as (v & Ef & Hv).
    { assert (P : (0 <= IZR (Z.abs (d i)))%R) by (apply IZR_le; lia). rewrite <- (Rabs_right (IZR (Z.abs (d i)))) at 2 by lra. eapply Rle_trans; [apply Rabs_triang_inv2|]. eapply Rle_trans; [apply Hr|]; rewrite (Rabs_right (IZR (Z.abs (d i)))) by lra; [|lra]. apply Rle_trans with (IZR (2 ^ 64)); [apply IZR_le; lia|apply top64_big; lia]. }
    rewrite Ef. cbn [bind]. eexists. split; [reflexivity|]. eexists. split; [apply (largest_step i (fun j => IZR (Z.abs (d j)) / IZR (2 ^ LD))%R M); [lia|exact HM]|].
    apply max_near; auto; [lra|apply HM|]. apply Rmult_le_pos; [apply IZR_le; lia|]. apply Rlt_le, Rinv_0_lt_compat, IZR_lt. apply Z.pow_pos_nonneg; lia.
  - exists S, M. auto.
Qed.
End Sup.

Section Boot.
Context (F : fpu) (HF : double F).
Context (LOGN LOGq LOGQ LD LDc LDs : Z) (G D : nat) (HP : boot_params LOGN LOGq LOGQ LDc LDs G D).
Context (h RM : Z) (rng : nat -> Z) (Hh : 0 <= h) (Hrng : rand_stream RM rng) (HLD : 0 <= LD <= 60) (HLq : LD + 1 <= LOGq) (Hq7 : 7 <= LOGq) (HQ48 : LOGQ <= 2048).
Local Notation N := (2 ^ LOGN).
Local Notation n := (2 ^ (LOGN - 1)).
Local Notation q := (boot_q LOGq).
Local Notation g := (Z.of_nat G).
Local Notation Q2 := (LOGQ - Z.of_nat D * LDc - 12 * LOGq).
Local Notation Q3 := (LOGQ - Z.of_nat D * LDc - 12 * LOGq - Z.of_nat D * LDs).

(** the points set_test_message is to compute *)
Definition test_point (j : Z) : CC := circle (IZR j / IZR n * PI).
(** what encode is allowed to be off *)
Definition encode_off : R := (/ 2 + powerRZ 2 (-41) * IZR (2 ^ LD) + powerRZ 2 (-900))%R.
(** the largest coefficient of the encrypted polynomial, in units of q *)
Definition f_msg_max : R := ((3 / 4 * IZR (2 ^ LD) + 9) / q)%R.
(** what decode_log is allowed to be off *)
Definition decode_off (err : R) : R := (powerRZ 2 (-42) * (IZR N * (1 + (err + 9) / IZR (2 ^ LD))) + powerRZ 2 (-1000))%R.

Local Lemma f_LDp : (1 <= IZR (2 ^ LD))%R. Proof. apply (IZR_le 1). assert (0 < 2 ^ LD) by (apply Z.pow_pos_nonneg; lia). lia. Qed.
Local Lemma inv_sqrt2 : (/ sqrt 2 <= 709 / 1000)%R.
Proof.
  assert (S : (1411 / 1000 <= sqrt 2)%R). { destruct (Rle_dec (1411 / 1000) (sqrt 2)); [assumption|]. exfalso. assert (0 <= sqrt 2)%R by apply sqrt_pos. assert (sqrt 2 * sqrt 2 = 2)%R by (apply sqrt_sqrt; lra). assert (sqrt 2 * sqrt 2 < 1411 / 1000 * (1411 / 1000))%R by (apply Rmult_le_0_lt_compat; lra). lra. }
  replace (709 / 1000)%R with (/ (1000 / 709))%R by lra. apply Rinv_le_contravar; lra.
Qed.

Lemma f_boot_start_ok fuel st pos : f_ifft_static F LOGN st ->
  keygen fuel N rng h (fresh N) pos = Diverge /\ f_boot_start F LOGq LOGN LD h RM rng fuel st pos = Diverge \/
  exists s st' pos' pt ct z c m' ct_m I, f_boot_start F LOGq LOGN LD h RM rng fuel st pos = Ok (st', pos', (carray (K := Rops) n z, map Some s, pt, ct)) /\ f_ifft_static F LOGN st' /\
    ternary N s /\ norm1 N (coef s) = h /\ signedP LOGq N pt c /\ decrypts LOGq N ct (coef s) m' /\
    (forall j, 0 <= j < n -> (modulus (z j - test_point j)%num <= powerRZ 2 (-48))%R /\ (modulus (z j) <= 71 / 100)%R) /\
    (forall m, (forall j, 0 <= j < n -> slot N m j = z j) -> forall i, 0 <= i < N -> (Rabs (IZR (c i) - m i * IZR (2 ^ LD)) <= encode_off)%R) /\
    (forall i, 0 <= i < N -> Z.abs (m' i - c i) <= 8 /\ (Rabs (IZR (c i)) <= 3 / 4 * IZR (2 ^ LD) + 1)%R /\ (Rabs (IZR (m' i)) <= q * f_msg_max)%R) /\
    mod_raise LOGq LOGQ N ct (sq_new LOGQ N) = Ok ct_m /\ decrypts LOGQ N ct_m (coef s) (fun i => m' i + 2 ^ LOGq * I i) /\ (forall i, 0 <= i < N -> 2 * Z.abs (I i) <= h + 2).
Proof.
  intros Hst. pose proof HP as [HLN HG HD Hq Hc' Hs' HQ Hw' Hw1']. pose proof (n_pos LOGN ltac:(lia)) as Hn. pose proof (N2 LOGN ltac:(lia)) as HN2. pose proof f_LDp as PD.
  assert (Eq : Z.quot N 2 = n) by (apply half_quot; lia). unfold f_boot_start. cbv zeta. rewrite Eq.
  destruct (C34_keygen fuel N rng RM h (fresh N) pos ltac:(lia) ltac:(lia) Hrng (repeat_length _ _)) as [E0|(s & pos1 & E0 & Hs & Hw)]; [left; rewrite E0; split; reflexivity|right].
  rewrite E0. cbn [bind]. rewrite <- norm1_count in Hw by exact Hs.
  rewrite !(C68_new (K := Rops)) by lia. cbn [bind].
  destruct (C123_test_message_double F n (carray (K := Rops) n (fun _ => (0%num : CC))) HF ltac:(lia) (carray_of_carray _ _)) as (z & E1 & Hz).
  match goal with |- context [f_set_test_message F n ?a] => replace (f_set_test_message F n a) with (Ok (carray (K := Rops) n z)) by (symmetry; exact E1) end. cbn [bind].
  assert (P48 : (powerRZ 2 (-48) <= / 1024)%R). { replace (/ 1024)%R with (powerRZ 2 (-10)) by (change (powerRZ 2 (-10)) with (/ 2 ^ 10)%R; cbn [pow]; lra). apply p2_le. lia. }
  assert (ZB : forall j, 0 <= j < n -> (modulus (z j) <= 71 / 100)%R).
  { intros j Hj. destruct (Hz j Hj) as [_ A]. apply abs_inv in A. pose proof inv_sqrt2. lra. }
  destruct (some_m LOGN ltac:(lia) z) as [m Hm].
  assert (MB : forall i, 0 <= i < N -> (Rabs (m i) * IZR (2 ^ LD) <= 71 / 100 * IZR (2 ^ LD))%R).
  { intros i Hi. apply Rmult_le_compat_r; [lra|]. apply (coef_slots LOGN m (71 / 100)%R ltac:(lia)); auto. intros j Hj. rewrite (Hm j Hj). apply ZB. exact Hj. }
  assert (L1 : (2 * IZR (2 ^ LD) <= IZR (2 ^ LOGq))%R). { rewrite <- mult_IZR. apply IZR_le. change 2 with (2 ^ 1) at 1. rewrite <- Z.pow_add_r by lia. apply Z.pow_le_mono_r; lia. }
  assert (L2 : (16 * IZR (2 ^ LD) <= IZR (2 ^ 64))%R). { rewrite <- mult_IZR. apply IZR_le. change 16 with (2 ^ 4) at 1. rewrite <- Z.pow_add_r by lia. apply Z.pow_le_mono_r; lia. }
  assert (L3 : (128 <= IZR (2 ^ LOGq))%R). { apply IZR_le. change 128 with (2 ^ 7). apply Z.pow_le_mono_r; lia. }
  assert (L4 : (IZR (2 ^ LOGq) = 2 * IZR (2 ^ (LOGq - 1)))%R). { rewrite <- mult_IZR. f_equal. rewrite (pow2_half LOGq) by lia. lia. }
  assert (P41 : (0 < powerRZ 2 (-41) <= / 1024)%R). { split; [apply p2_pos|]. replace (/ 1024)%R with (powerRZ 2 (-10)) by (change (powerRZ 2 (-10)) with (/ 2 ^ 10)%R; cbn [pow]; lra). apply p2_le. lia. }
  assert (P900 : (0 < powerRZ 2 (-900) <= / 1024)%R). { split; [apply p2_pos|]. replace (/ 1024)%R with (powerRZ 2 (-10)) by (change (powerRZ 2 (-10)) with (/ 2 ^ 10)%R; cbn [pow]; lra). apply p2_le. lia. }
  assert (PL : (0 <= powerRZ 2 (-41) * IZR (2 ^ LD) <= / 1024 * IZR (2 ^ LD))%R) by (split; [apply Rmult_le_pos|apply Rmult_le_compat_r]; lra).
  assert (LQ : 1 <= LOGq <= 2048) by (unfold widths in *; lia).
  destruct (C83_encode_double F HF LOGq LOGN LQ ltac:(lia) (2 ^ LD) st z m (71 / 100)%R (rq_new LOGq N)) as (st' & pt & c & F1 & Hst' & Hc & Hc2).
  { split; [apply Z.pow_pos_nonneg; lia|apply Z.pow_lt_mono_r; lia]. }
  { exact Hst. } { apply objP_object; try lia. apply objP_new. } { lra. } { exact ZB. } { exact Hm. }
  { change (2 ^ 64) with 18446744073709551616 in *. lra. }
  { lra. }
  match goal with |- context [f_encode F LOGq LOGN st ?x ?y ?u ?v] => replace (f_encode F LOGq LOGN st x y u v) with (Ok (st', pt)) by (symmetry; exact F1) end. cbn [bind].
  destruct (C35_enc_dec LOGq N RM rng pt c s (sq_new LOGq N) pos1 (rq_new LOGq N)) as (ct & pos' & e0 & pt' & F2 & He0 & _ & _ & Hd); auto; try lia.
  { apply new_object2; lia. } { apply objP_object; try lia. apply objP_new. }
  rewrite F2. cbn [bind].
  assert (OFF : forall i, 0 <= i < N -> (Rabs (IZR (c i) - m i * IZR (2 ^ LD)) <= encode_off)%R).
  { intros i Hi. specialize (Hc2 i Hi). unfold encode_off. lra. }
  assert (CB : forall i, 0 <= i < N -> (Rabs (IZR (c i)) <= 3 / 4 * IZR (2 ^ LD) + 1)%R).
  { intros i Hi. specialize (OFF i Hi). unfold encode_off in OFF. specialize (MB i Hi). pose proof (Rabs_triang_inv (IZR (c i)) (m i * IZR (2 ^ LD))) as T. rewrite Rabs_mult, (Rabs_right (IZR (2 ^ LD))) in T by lra. lra. }
  assert (QM : (q * f_msg_max = 3 / 4 * IZR (2 ^ LD) + 9)%R) by (unfold f_msg_max, boot_q; field; lra).
  assert (MM : forall i, 0 <= i < N -> (Rabs (IZR (c i + e0 i)) <= q * f_msg_max)%R).
  { intros i Hi. rewrite QM, plus_IZR. eapply Rle_trans; [apply Rabs_triang|]. rewrite <- (abs_IZR (e0 i)). specialize (CB i Hi). specialize (He0 i Hi). apply IZR_le in He0. lra. }
  assert (SG : forall v, (Rabs (IZR v) <= 3 / 4 * IZR (2 ^ LD) + 9)%R -> - 2 ^ (LOGq - 1) <= v < 2 ^ (LOGq - 1)).
  { intros v Hv. assert (A : Z.abs v < 2 ^ (LOGq - 1)); [|lia]. apply lt_IZR. rewrite abs_IZR. lra. }
  destruct (C43_mod_raise LOGq LOGQ N ct (sq_new LOGQ N) (coef s) (fun i => c i + e0 i) ltac:(lia) ltac:(lia) ltac:(lia) (new_object2 LOGQ N ltac:(lia) ltac:(lia)) Hd) as (ct_m & I & F3 & Hd3 & HI).
  { intros i Hi. split; [|exists 0; lia]. apply SG. rewrite <- QM. apply MM. exact Hi. }
  exists s, st', pos', pt, ct, z, c, (fun i => c i + e0 i), ct_m, I. split; [reflexivity|]. split; [exact Hst'|]. split; [exact Hs|]. split; [exact Hw|].
  split. { split; [exact Hc|]. intros i Hi. apply SG. specialize (CB i Hi). lra. }
  split; [exact Hd|]. split. { intros j Hj. split; [apply (Hz j Hj)|apply ZB; exact Hj]. } split.
  { intros p Hp i Hi. replace (p i) with (m i); [apply (OFF i Hi)|]. symmetry. apply Rminus_diag_uniq. assert (Z0 : (Rabs (p i - m i) <= 0)%R). { apply (coef_slots LOGN (fun i => p i - m i)%R 0%R); auto; try lia. intros k Hk. rewrite slot_sub, (Hp k Hk), (Hm k Hk). replace (z k - z k)%num with (0%num : CC) by ring. rewrite modulus_0. lra. } pose proof (Rabs_pos (p i - m i)). destruct (Req_dec (p i - m i) 0) as [->|Hne]; [reflexivity|]. apply Rabs_pos_lt in Hne. lra. }
  split. { intros i Hi. split; [specialize (He0 i Hi); lia|]. split; [apply CB; exact Hi|apply MM; exact Hi]. }
  split; [exact F3|]. split; [exact Hd3|]. intros i Hi. specialize (HI i Hi). rewrite Hw in HI. exact HI.
Qed.

Lemma f_boot_finish_ok sup st2 s pt ct (z : Z -> CC) c w err : f_sup_measure sup -> f_fft_static F LOGN st2 -> ternary N s -> signedP LOGq N pt c -> decrypts Q3 N ct (coef s) w ->
  66 <= Q3 -> (err + 8 < IZR (2 ^ 64))%R -> (3 / 4 * IZR (2 ^ LD) + 1 + (err + 8) < IZR (2 ^ (Q3 - 1)))%R ->
  (forall j, 0 <= j < n -> (modulus (z j) <= 71 / 100)%R) ->
  (forall i, 0 <= i < N -> (Rabs (IZR (c i)) <= 3 / 4 * IZR (2 ^ LD) + 1)%R) -> (forall i, 0 <= i < N -> (Rabs (IZR (w i) - IZR (c i)) <= err + 8)%R) ->
  exists st2' y er ei S Mr Mi M, f_boot_finish F LOGq LOGQ LOGN LD LDc LOGq LDs g sup st2 (carray (K := Rops) n z) (map Some s) pt ct = Ok (st2', (carray (K := Rops) n y, (er, ei), S)) /\ f_fft_static F LOGN st2' /\
    (forall j, 0 <= j < n -> (modulus (y j - slots N (IZR (2 ^ LD)) w j)%num <= decode_off err)%R) /\
    largest n (fun j => Rabs (fst (z j) - fst (y j))) Mr /\ (Rabs (er - Mr) <= u64 * Mr + eta64)%R /\ largest n (fun j => Rabs (snd (z j) - snd (y j))) Mi /\ (Rabs (ei - Mi) <= u64 * Mi + eta64)%R /\
    largest N (fun i => IZR (Z.abs (c i - w i)) / IZR (2 ^ LD))%R M /\ (M <= (err + 8) / IZR (2 ^ LD))%R /\ (Rabs (S - M) <= 3 * u64 * M + 3 * eta64)%R.
Proof.
  intros Hsup Hst2 Hs Hpt Hct H66 H64 Hsz Hzb Hcb Hw. pose proof HP as [HLN HG HD Hq Hc' Hs' HQ Hw' Hw1']. pose proof (n_pos LOGN ltac:(lia)) as Hn. pose proof (N2 LOGN ltac:(lia)) as HN2. pose proof f_LDp as PD.
  assert (Eq : Z.quot N 2 = n) by (apply half_quot; lia). unfold f_boot_finish. cbv zeta. rewrite Eq.
  assert (EQ : LOGQ_after_stc LOGQ LOGN LDc LOGq LDs g = Q3) by (unfold LOGQ_after_stc, LOGQ_after_evalmod, LOGQ_after_cts; rewrite (pipe_Ddiv _ _ _ _ _ _ _ HP s); reflexivity). rewrite EQ.
  assert (Q48 : 1 <= Q3 <= 2048) by nia. set (Q := Q3) in *. rewrite !(C68_new (K := Rops)) by lia. cbn [bind].
  assert (ER : (0 <= err + 8)%R) by (eapply Rle_trans; [apply Rabs_pos|apply (Hw 0); lia]).
  assert (WB : forall i, 0 <= i < N -> (Rabs (IZR (w i)) <= 3 / 4 * IZR (2 ^ LD) + 1 + (err + 8))%R).
  { intros i Hi. specialize (Hcb i Hi). specialize (Hw i Hi). pose proof (Rabs_triang_inv (IZR (w i)) (IZR (c i))). lra. }
  assert (WS : forall i, 0 <= i < N -> - 2 ^ (Q - 1) <= w i < 2 ^ (Q - 1)).
  { intros i Hi. assert (A : Z.abs (w i) < 2 ^ (Q - 1)); [|lia]. apply lt_IZR. rewrite abs_IZR. specialize (WB i Hi). lra. }
  destruct (C35_dec Q N ct s w (rq_new Q N) ltac:(lia) ltac:(lia) Hs ltac:(apply objP_object; try lia; apply objP_new) Hct) as (po & E1 & H1). rewrite E1. cbn [bind].
  destruct (carray_of_carray n (fun _ => 0%num)) as [Ca Cb].
  assert (ID : (0 < / IZR (2 ^ LD) <= 1)%R). { split; [apply Rinv_0_lt_compat; lra|]. rewrite <- Rinv_1. apply Rinv_le_contravar; lra. }
  set (A := (1 + (err + 9) / IZR (2 ^ LD))%R). assert (HA : (0 <= A <= IZR (2 ^ 65))%R).
  { change (2 ^ 65) with 36893488147419103232. change (2 ^ 64) with 18446744073709551616 in H64. unfold A, Rdiv. assert (0 <= (err + 9) * / IZR (2 ^ LD) <= (err + 9) * 1)%R by (split; [apply Rmult_le_pos|apply Rmult_le_compat_l]; lra). lra. }
  assert (T65 : (IZR (2 ^ 65) <= powerRZ 2 900)%R) by (rewrite <- powerRZ_2 by lia; apply p2_le; lia).
  destruct (C85_decode_log_double F HF Q LOGN Q48 ltac:(lia) LD st2 po w A _ _ ltac:(change (2 ^ 30) with 1073741824; lia) Hst2 Ca Cb (conj H1 WS)) as (st2' & y & E2 & Hst2' & Hy).
  { intros i Hi. rewrite powerRZ_2 by lia. unfold Rdiv. rewrite Rabs_mult, (Rabs_right (/ IZR (2 ^ LD))) by lra. specialize (WB i Hi). apply Rle_trans with ((IZR (2 ^ LD) + (err + 9)) * / IZR (2 ^ LD))%R; [apply Rmult_le_compat_r; lra|].
    unfold A. apply Req_le. field. lra. }
  { lra. }
  match goal with |- context [f_decode_log F Q LOGN st2 ?a ?b ?cc ?d] => replace (f_decode_log F Q LOGN st2 a b cc d) with (Ok (st2', carray (K := Rops) n y)) by (symmetry; exact E2) end. cbn [bind].
  destruct (C94_max_error n z y ltac:(lia)) as (Mr & Mi & E3 & L1 & L2).
  assert (YZ : forall j, 0 <= j < n -> (modulus (z j - y j)%num <= top64)%R).
  { intros j Hj. specialize (Hy j Hj). rewrite powerRZ_2 in Hy by lia.
    assert (SB : (modulus (slots N (IZR (2 ^ LD)) w j) <= IZR N * A)%R).
    { unfold slots. apply modulus_slot; [lia|]. intros i Hi. unfold Rdiv. rewrite Rabs_mult, (Rabs_right (/ IZR (2 ^ LD))) by lra. specialize (WB i Hi). apply Rle_trans with ((IZR (2 ^ LD) + (err + 9)) * / IZR (2 ^ LD))%R; [apply Rmult_le_compat_r; lra|].
      unfold A. apply Req_le. field. lra. }
    assert (NA : (0 <= IZR N * A <= IZR (2 ^ 17) * IZR (2 ^ 65))%R).
    { assert (0 <= IZR N <= IZR (2 ^ 17))%R by (split; apply IZR_le; [lia|apply Z.pow_le_mono_r; lia]). split; [apply Rmult_le_pos; lra|apply Rmult_le_compat; lra]. }
    pose proof (modulus_near (y j) (slots N (IZR (2 ^ LD)) w j)) as NY. pose proof (modulus_sub (z j) (y j)) as NS. specialize (Hzb j Hj).
    assert (P42 : (powerRZ 2 (-42) * (IZR N * A) <= 1 * (IZR N * A))%R) by (apply Rmult_le_compat_r; [lra|apply (p2_le (-42) 0); lia]).
    assert (P1000 : (powerRZ 2 (-1000) <= 1)%R) by (apply (p2_le (-1000) 0); lia).
    apply Rle_trans with (IZR (2 ^ 100)); [|apply top64_big; lia]. rewrite <- mult_IZR in NA. change (2 ^ 17 * 2 ^ 65) with 4835703278458516698824704 in NA. change (2 ^ 100) with 1267650600228229401496703205376. lra. }
  assert (T0 : (0 <= top64)%R) by (pose proof (ar_top _ _ _ _ _ _ _ _ HF); lra).
  destruct (C118_max_error F u64 eta64 top64 t64 HF n z y Mr Mi ltac:(lia) L1 L2) as (er & ei & E3' & HR & HI).
  { destruct L1 as (_ & _ & [->|(j & Hj & ->)]); [exact T0|]. eapply Rle_trans; [|apply (YZ j Hj)]. apply (modulus_cre (z j - y j)%num). }
  { destruct L2 as (_ & _ & [->|(j & Hj & ->)]); [exact T0|]. eapply Rle_trans; [|apply (YZ j Hj)]. apply (modulus_cim (z j - y j)%num). }
  match goal with |- context [f_max_error F n ?a ?b] => replace (f_max_error F n a b) with (Ok (er, ei)) by (symmetry; exact E3') end. cbn [bind].
  destruct Hpt as [Hpt Hcs]. apply holdsP_rep in H1, Hpt; try lia. subst po pt.
  rewrite rq_resize_rep by (auto using objP_new; lia). cbn [bind]. rewrite rq_sub_rep by lia. cbn [bind].
  assert (AB : forall i, 0 <= i < N -> (IZR (Z.abs (c i - w i)) <= err + 8)%R).
  { intros i Hi. rewrite abs_IZR, minus_IZR, Rabs_minus_sym. apply Hw. exact Hi. }
  destruct (Hsup Q N LD (fun i => c i - w i) H66 ltac:(lia) HLD) as (S & M & E4 & L3 & HS).
  { intros i Hi. apply lt_IZR. specialize (AB i Hi). lra. }
  replace (repP Q N (fun i => cent LOGq (c i) - w i)) with (repP Q N (fun i => c i - w i)).
  2:{ apply repP_ext. intros i Hi. rewrite cent_small by (try lia; apply Hcs; exact Hi). reflexivity. }
  rewrite E4. cbn [bind]. exists st2', y, er, ei, S, Mr, Mi, M. split; [reflexivity|]. split; [exact Hst2'|]. split.
  { intros j Hj. specialize (Hy j Hj). rewrite powerRZ_2 in Hy by lia. exact Hy. }
  split; [exact L1|]. split; [exact HR|]. split; [exact L2|]. split; [exact HI|]. split; [exact L3|]. split; [|exact HS].
  destruct L3 as (_ & _ & [->|(i & Hi & ->)]); [apply Rmult_le_pos; lra|]. apply Rmult_le_compat_r; [lra|]. apply AB. exact Hi.
Qed.

(** what a program prints that went well: z_out is close to the slots of a polynomial w that is close to the encoded polynomial c, the two maxima and the sup norm
    are those of the differences up to rounding *)
Definition printed (err : R) (z : Z -> CC) (c : Z -> Z) (y : Z -> CC) (er ei S : R) : Prop := exists w Mr Mi M,
  (forall i, 0 <= i < N -> (Rabs (IZR (w i) - IZR (c i)) <= err + 8)%R) /\
  (forall j, 0 <= j < n -> (modulus (y j - slots N (IZR (2 ^ LD)) w j)%num <= decode_off err)%R) /\
  largest n (fun j => Rabs (fst (z j) - fst (y j))) Mr /\ (Rabs (er - Mr) <= u64 * Mr + eta64)%R /\ largest n (fun j => Rabs (snd (z j) - snd (y j))) Mi /\ (Rabs (ei - Mi) <= u64 * Mi + eta64)%R /\
  largest N (fun i => IZR (Z.abs (c i - w i)) / IZR (2 ^ LD))%R M /\ (M <= (err + 8) / IZR (2 ^ LD))%R /\ (Rabs (S - M) <= 3 * u64 * M + 3 * eta64)%R.
(** what the program computes before bootstrapping *)
Definition started (fuel : nat) (st : tables) (pos : nat) (z : Z -> CC) (c m' : Z -> Z) (I : Z -> Z) : Prop := exists s st1 pos1 pt ct ct_m,
  f_boot_start F LOGq LOGN LD h RM rng fuel st pos = Ok (st1, pos1, (carray (K := Rops) n z, map Some s, pt, ct)) /\
  (forall j, 0 <= j < n -> (modulus (z j - test_point j)%num <= powerRZ 2 (-48))%R) /\
  (forall m, (forall j, 0 <= j < n -> slot N m j = z j) -> forall i, 0 <= i < N -> (Rabs (IZR (c i) - m i * IZR (2 ^ LD)) <= encode_off)%R) /\ (forall i, 0 <= i < N -> Z.abs (m' i - c i) <= 8) /\
  mod_raise LOGq LOGQ N ct (sq_new LOGQ N) = Ok ct_m /\ decrypts LOGQ N ct_m (coef s) (fun i => m' i + 2 ^ LOGq * I i) /\ (forall i, 0 <= i < N -> 2 * Z.abs (I i) <= h + 2).

Lemma f_program_ok lpow boot sup err fuel stc sts st st2 pos B : f_sup_measure sup -> f_cts_static F lpow LOGQ LOGN LDc g stc -> f_stc_static F Q2 LOGN LDs g sts -> f_ifft_static F LOGN st -> f_fft_static F LOGN st2 ->
  66 <= Q3 -> (err + 8 < IZR (2 ^ 64))%R -> (3 / 4 * IZR (2 ^ LD) + 1 + (err + 8) < IZR (2 ^ (Q3 - 1)))%R ->
  (forall s ct ct_m m I st pos, ternary N s -> norm1 N (coef s) = h -> f_ifft_static F LOGN st -> mod_raise LOGq LOGQ N ct (sq_new LOGQ N) = Ok ct_m -> decrypts LOGQ N ct_m (coef s) (fun i => m i + 2 ^ LOGq * I i) ->
    (forall i, 0 <= i < N -> Z.abs (I i) <= B) -> (forall i, 0 <= i < N -> (Rabs (IZR (m i)) <= q * f_msg_max)%R) ->
    exists stc' sts' st' pos' ct' w, boot stc sts st pos ct (map Some s) = Ok (stc', sts', st', pos', ct') /\
      f_cts_static F lpow LOGQ LOGN LDc g stc' /\ f_stc_static F Q2 LOGN LDs g sts' /\ f_ifft_static F LOGN st' /\ decrypts Q3 N ct' (coef s) w /\
      forall i, 0 <= i < N -> (Rabs (IZR (w i) - IZR (m i)) <= err)%R) ->
  keygen fuel N rng h (fresh N) pos = Diverge /\ f_boot_program F LOGq LOGQ LOGN LD LDc LOGq LDs g h RM rng boot sup fuel stc sts st st2 pos = Diverge \/
  exists z c m' I, started fuel st pos z c m' I /\
    ((forall i, 0 <= i < N -> Z.abs (I i) <= B) ->
     exists stc' sts' st' st2' pos' y er ei S, f_boot_program F LOGq LOGQ LOGN LD LDc LOGq LDs g h RM rng boot sup fuel stc sts st st2 pos =
         Ok (stc', sts', st', st2', pos', (carray (K := Rops) n z, carray (K := Rops) n y, (er, ei), S)) /\ printed err z c y er ei S).
Proof.
  intros Hsup Hstc Hsts Hst Hst2 H66 H64 Hsz Hb.
  destruct (f_boot_start_ok fuel st pos Hst) as [[E0 E1]|(s & st1 & pos1 & pt & ct & z & c & m' & ct_m & I & E1 & Hst1 & Hs & Hw & Hpt & Hct & Hz & Hnear & Hcm & Emr & Hd & HI)].
  { left. split; [exact E0|]. unfold f_boot_program. rewrite E1. reflexivity. }
  right. exists z, c, m', I. split.
  { exists s, st1, pos1, pt, ct, ct_m. split; [exact E1|]. split; [intros j Hj; apply (Hz j Hj)|]. split; [exact Hnear|]. split; [intros i Hi; apply (Hcm i Hi)|]. split; [exact Emr|]. split; [exact Hd|exact HI]. }
  intros HB.
  destruct (Hb s ct ct_m m' I st1 pos1 Hs Hw Hst1 Emr Hd HB) as (stc' & sts' & st' & pos' & ct' & w & E2 & _ & _ & _ & Hd' & Hw'). { intros i Hi. apply (Hcm i Hi). }
  assert (WC : forall i, 0 <= i < N -> (Rabs (IZR (w i) - IZR (c i)) <= err + 8)%R).
  { intros i Hi. destruct (Hcm i Hi) as [A _]. specialize (Hw' i Hi). apply IZR_le in A. rewrite abs_IZR, minus_IZR in A. replace (IZR (w i) - IZR (c i))%R with ((IZR (w i) - IZR (m' i)) + (IZR (m' i) - IZR (c i)))%R by ring. eapply Rle_trans; [apply Rabs_triang|]. lra. }
  destruct (f_boot_finish_ok sup st2 s pt ct' z c w err Hsup Hst2 Hs Hpt Hd' H66 H64 Hsz) as (st2' & y & er & ei & S & Mr & Mi & M & E3 & _ & Hres).
  { intros j Hj. apply (Hz j Hj). } { intros i Hi. apply (Hcm i Hi). } { exact WC. }
  exists stc', sts', st', st2', pos', y, er, ei, S. split; [|exists w, Mr, Mi, M; split; [exact WC|exact Hres]]. unfold f_boot_program. rewrite E1. cbn [bind]. rewrite E2. cbn [bind]. rewrite E3. reflexivity.
Qed.

Lemma f_sup_either sup : sup = f_err_sup_word F \/ sup = f_err_sup_double F -> f_sup_measure sup.
Proof. intros [->| ->]; [apply f_sup_word_ok|apply f_sup_double_ok]; exact HF. Qed.

Context (lpow : R -> R -> R) (pw : R) (Hpw : power_within pw lpow) (Hp52 : (pw <= powerRZ 2 (-52))%R).
Context (HLDc : 1 <= LDc <= 62 /\ LDc + 2 <= LOGQ) (HLDs : 1 <= LDs /\ LDs + g <= 63 /\ LDs + g + 1 <= Q2).
Local Notation dlc := (f_row N (2 ^ LDc) G (powerRZ 2 (-40)) (enc41 2 (2 ^ LDc))).
Local Notation dls := (f_row N (2 ^ LDs) G (powerRZ 2 (-37)) (enc41 (2 ^ G) (2 ^ LDs))).
Theorem C124_conventional : forall sup fuel stc sts st st2 pos B, sup = f_err_sup_word F \/ sup = f_err_sup_double F ->
  f_cts_static F lpow LOGQ LOGN LDc g stc -> f_stc_static F Q2 LOGN LDs g sts -> f_ifft_static F LOGN st -> f_fft_static F LOGN st2 ->
  let err := (q * f_conventional_error u64 eta64 N h LOGq LDc LDs G D dlc dls B f_msg_max + IZR (1 + h) / 2)%R in
  let program := f_boot_program F LOGq LOGQ LOGN LD LDc LOGq LDs g h RM rng (f_conventional_boot F lpow LOGq LOGQ LOGN LDc LOGq LDs g 24 RM rng) sup fuel stc sts st st2 pos in
  66 <= Q3 -> (err + 8 < IZR (2 ^ 64))%R -> (3 / 4 * IZR (2 ^ LD) + 1 + (err + 8) < IZR (2 ^ (Q3 - 1)))%R -> (IZR B + f_msg_max + f_boot_rounding N h LOGq LDc D dlc B f_msg_max + / 4 <= 24)%R ->
  keygen fuel N rng h (fresh N) pos = Diverge /\ program = Diverge \/
  exists z c m' I, started fuel st pos z c m' I /\
    ((forall i, 0 <= i < N -> Z.abs (I i) <= B) ->
     exists stc' sts' st' st2' pos' y er ei S, program = Ok (stc', sts', st', st2', pos', (carray (K := Rops) n z, carray (K := Rops) n y, (er, ei), S)) /\ printed err z c y er ei S).
Proof.
  intros sup fuel stc sts st st2 pos B Hsup Hstc Hsts Hst Hst2 err program H66 H64 Hsz H24. apply (f_program_ok lpow); auto using f_sup_either.
  intros s ct ct_m m I st0 pos0 Hs Hw Hst0 Emr Hd HB Hm. unfold err. rewrite <- Hw in H24 |- *.
  apply (C121_conventional_double F HF lpow pw Hpw Hp52 LOGN LOGq LOGQ LDc LDs G D HP RM rng s Hrng Hs HQ48 HLDc HLDs B f_msg_max ct ct_m m I stc sts st0 pos0 Hstc Hsts Hst0 Emr Hd HB Hm H24).
Qed.
Theorem C124_proposed : forall sup fuel stc sts st st2 pos B, sup = f_err_sup_word F \/ sup = f_err_sup_double F ->
  f_cts_static F lpow LOGQ LOGN LDc g stc -> f_stc_static F Q2 LOGN LDs g sts -> f_ifft_static F LOGN st -> f_fft_static F LOGN st2 ->
  let err := (q * f_proposed_error u64 eta64 N h LOGq LDc LDs G D dlc dls B f_msg_max + IZR (1 + h) / 2)%R in
  let program := f_boot_program F LOGq LOGQ LOGN LD LDc LOGq LDs g h RM rng (f_proposed_boot F lpow LOGq LOGQ LOGN LDc LOGq LDs g 24 RM rng) sup fuel stc sts st st2 pos in
  66 <= Q3 -> (err + 8 < IZR (2 ^ 64))%R -> (3 / 4 * IZR (2 ^ LD) + 1 + (err + 8) < IZR (2 ^ (Q3 - 1)))%R -> (IZR B + f_msg_max + f_boot_rounding N h LOGq LDc D dlc B f_msg_max + / 4 <= 24)%R ->
  keygen fuel N rng h (fresh N) pos = Diverge /\ program = Diverge \/
  exists z c m' I, started fuel st pos z c m' I /\
    ((forall i, 0 <= i < N -> Z.abs (I i) <= B) ->
     exists stc' sts' st' st2' pos' y er ei S, program = Ok (stc', sts', st', st2', pos', (carray (K := Rops) n z, carray (K := Rops) n y, (er, ei), S)) /\ printed err z c y er ei S).
Proof.
  intros sup fuel stc sts st st2 pos B Hsup Hstc Hsts Hst Hst2 err program H66 H64 Hsz H24. apply (f_program_ok lpow); auto using f_sup_either.
  intros s ct ct_m m I st0 pos0 Hs Hw Hst0 Emr Hd HB Hm. unfold err. rewrite <- Hw in H24 |- *.
  apply (C121_proposed_double F HF lpow pw Hpw Hp52 LOGN LOGq LOGQ LDc LDs G D HP RM rng s Hrng Hs HQ48 HLDc HLDs B f_msg_max ct ct_m m I stc sts st0 pos0 Hstc Hsts Hst0 Emr Hd HB Hm H24).
Qed.
End Boot.

(** ** The parameters of test.h *)
Lemma f_msg_max_60 : (f_msg_max 60 50 <= / IZR (2 ^ 9))%R.
Proof. unfold f_msg_max, boot_q. change (2 ^ 50) with 1125899906842624. change (2 ^ 60) with 1152921504606846976. change (2 ^ 9) with 512. lra. Qed.
Lemma printed_sup N' LD err z c y er ei S : printed N' LD err z c y er ei S -> (0 <= err + 8)%R -> ((err + 8) / IZR (2 ^ LD) <= 2)%R -> (- / 1000000 <= S <= (err + 8) / IZR (2 ^ LD) + / 1000000)%R.
Proof.
  intros (w & Mr & Mi & M & _ & _ & _ & _ & _ & _ & L & HM & HS) He H2. pose proof u_small. pose proof (eta_u 10 ltac:(lia) ltac:(lia)) as Heu. change (2 ^ 10) with 1024 in Heu. pose proof eta_pos. destruct L as (L0 & _).
  assert (0 <= u64 * M <= u64 * 2)%R by (split; [apply Rmult_le_pos|apply Rmult_le_compat_l]; lra). apply abs_inv in HS. lra.
Qed.
Section Parameters.
Context (F : fpu) (HF : double F) (lpow : R -> R -> R) (pw : R) (Hpw : power_within pw lpow) (Hp52 : (pw <= powerRZ 2 (-52))%R).
Context (RM : Z) (rng : nat -> Z) (h : Z) (Hr : rand_stream RM rng) (Hh : 0 <= h <= 128).
(** bootstrap_test.cpp *)
Theorem C124_bootstrap_test : forall sup fuel stc sts st st2 pos, sup = f_err_sup_word F \/ sup = f_err_sup_double F ->
  f_cts_static F lpow 1450 9 60 2 stc -> f_stc_static F 490 9 50 2 sts -> f_ifft_static F 9 st -> f_fft_static F 9 st2 ->
  let program := f_boot_program F 60 1450 9 50 60 60 50 2 h RM rng (f_conventional_boot F lpow 60 1450 9 60 60 50 2 24 RM rng) sup fuel stc sts st st2 pos in
  keygen fuel 512 rng h (fresh 512) pos = Diverge /\ program = Diverge \/
  exists z c m' I, started F 9 60 1450 50 h RM rng fuel st pos z c m' I /\
    ((forall i, 0 <= i < 512 -> Z.abs (I i) <= 23) ->
     exists stc' sts' st' st2' pos' y er ei S, program = Ok (stc', sts', st', st2', pos', (carray (K := Rops) 256 z, carray (K := Rops) 256 y, (er, ei), S)) /\
       printed 9 50 (IZR (2 ^ 50)) z c y er ei S /\ (- / 1000000 <= S <= 1 + / 100000)%R).
Proof.
  intros sup fuel stc sts st st2 pos Hsup Hstc Hsts Hst Hst2 program. pose proof (t_params 9 2 50 ltac:(lia) ltac:(lia)) as HP. assert (D50 : IZR (2 ^ 50) = 1125899906842624%R) by reflexivity.
  assert (D64 : IZR (2 ^ 64) = 18446744073709551616%R) by reflexivity. assert (DQ : (IZR (2 ^ 64) <= IZR (2 ^ 289))%R) by (apply IZR_le; discriminate).
  destruct (f_program_ok F HF 9 60 1450 50 60 50 2 4 HP h RM rng (proj1 Hh) Hr ltac:(lia) ltac:(lia) ltac:(lia) ltac:(lia) lpow (f_conventional_boot F lpow 60 1450 9 60 60 50 2 24 RM rng) sup (IZR (2 ^ 50)) fuel stc sts st st2 pos 23
    (f_sup_either F HF sup Hsup) Hstc Hsts Hst Hst2) as [E|(z & c & m' & I & H0 & H1)].
  - cbn. lia.
  - lra.
  - change (3 / 4 * IZR (2 ^ 50) + 1 + (IZR (2 ^ 50) + 8) < IZR (2 ^ 289))%R. lra.
  - intros s ct ct_m m I st0 pos0 Hs Hw Hst0 Emr Hd HB Hm.
    destruct (C121_conventional_double F HF lpow pw Hpw Hp52 9 60 1450 60 50 2 4 HP RM rng s Hr Hs ltac:(lia) ltac:(lia) ltac:(lia) 23 (/ IZR (2 ^ 9))%R ct ct_m m I stc sts st0 pos0)
      as (stc' & sts' & st' & pos' & ct' & w & E' & A1 & A2 & A3 & Hd' & Hw'); auto.
    + intros i Hi. eapply Rle_trans; [apply (Hm i Hi)|]. apply Rmult_le_compat_l; [apply IZR_le; discriminate|apply f_msg_max_60].
    + rewrite Hw. change (2 ^ 9) with 512. apply ft_24; lia.
    + exists stc', sts', st', pos', ct', w. split; [exact E'|]. split; [exact A1|]. split; [exact A2|]. split; [exact A3|]. split; [exact Hd'|].
      intros i Hi. eapply Rle_trans; [apply (Hw' i Hi)|]. rewrite Hw. change (2 ^ 9) with 512. apply ft_conventional; lia.
  - left. exact E.
  - right. exists z, c, m', I. split; [exact H0|]. intros HB. destruct (H1 HB) as (stc' & sts' & st' & st2' & pos' & y & er & ei & S & E & P). exists stc', sts', st', st2', pos', y, er, ei, S. split; [exact E|]. split; [exact P|].
    pose proof (printed_sup _ _ _ _ _ _ _ _ _ P ltac:(lra)) as B. rewrite D50 in B. lra.
Qed.
(** evalqI_test.cpp *)
Theorem C124_evalqI_test : forall sup fuel stc sts st st2 pos, sup = f_err_sup_word F \/ sup = f_err_sup_double F ->
  f_cts_static F lpow 1450 9 60 2 stc -> f_stc_static F 490 9 60 2 sts -> f_ifft_static F 9 st -> f_fft_static F 9 st2 ->
  let program := f_boot_program F 60 1450 9 50 60 60 60 2 h RM rng (f_proposed_boot F lpow 60 1450 9 60 60 60 2 24 RM rng) sup fuel stc sts st st2 pos in
  keygen fuel 512 rng h (fresh 512) pos = Diverge /\ program = Diverge \/
  exists z c m' I, started F 9 60 1450 50 h RM rng fuel st pos z c m' I /\
    ((forall i, 0 <= i < 512 -> Z.abs (I i) <= 23) ->
     exists stc' sts' st' st2' pos' y er ei S, program = Ok (stc', sts', st', st2', pos', (carray (K := Rops) 256 z, carray (K := Rops) 256 y, (er, ei), S)) /\
       printed 9 50 (IZR (2 ^ 47)) z c y er ei S /\ (- / 1000000 <= S <= / 8 + / 100000)%R).
Proof.
  intros sup fuel stc sts st st2 pos Hsup Hstc Hsts Hst Hst2 program. pose proof (t_params 9 2 60 ltac:(lia) ltac:(lia)) as HP. assert (D50 : IZR (2 ^ 50) = 1125899906842624%R) by reflexivity. assert (D47 : IZR (2 ^ 47) = 140737488355328%R) by reflexivity.
  assert (D64 : IZR (2 ^ 64) = 18446744073709551616%R) by reflexivity. assert (DQ : (IZR (2 ^ 64) <= IZR (2 ^ 249))%R) by (apply IZR_le; discriminate).
  destruct (f_program_ok F HF 9 60 1450 50 60 60 2 4 HP h RM rng (proj1 Hh) Hr ltac:(lia) ltac:(lia) ltac:(lia) ltac:(lia) lpow (f_proposed_boot F lpow 60 1450 9 60 60 60 2 24 RM rng) sup (IZR (2 ^ 47)) fuel stc sts st st2 pos 23
    (f_sup_either F HF sup Hsup) Hstc Hsts Hst Hst2) as [E|(z & c & m' & I & H0 & H1)].
  - cbn. lia.
  - lra.
  - change (3 / 4 * IZR (2 ^ 50) + 1 + (IZR (2 ^ 47) + 8) < IZR (2 ^ 249))%R. lra.
  - intros s ct ct_m m I st0 pos0 Hs Hw Hst0 Emr Hd HB Hm.
    destruct (C121_proposed_double F HF lpow pw Hpw Hp52 9 60 1450 60 60 2 4 HP RM rng s Hr Hs ltac:(lia) ltac:(lia) ltac:(lia) 23 (/ IZR (2 ^ 9))%R ct ct_m m I stc sts st0 pos0)
      as (stc' & sts' & st' & pos' & ct' & w & E' & A1 & A2 & A3 & Hd' & Hw'); auto.
    + intros i Hi. eapply Rle_trans; [apply (Hm i Hi)|]. apply Rmult_le_compat_l; [apply IZR_le; discriminate|apply f_msg_max_60].
    + rewrite Hw. change (2 ^ 9) with 512. apply ft_24; lia.
    + exists stc', sts', st', pos', ct', w. split; [exact E'|]. split; [exact A1|]. split; [exact A2|]. split; [exact A3|]. split; [exact Hd'|].
      intros i Hi. eapply Rle_trans; [apply (Hw' i Hi)|]. rewrite Hw. change (2 ^ 9) with 512. apply ft_proposed; lia.
  - left. exact E.
  - right. exists z, c, m', I. split; [exact H0|]. intros HB. destruct (H1 HB) as (stc' & sts' & st' & st2' & pos' & y & er & ei & S & E & P). exists stc', sts', st', st2', pos', y, er, ei, S. split; [exact E|]. split; [exact P|].
    pose proof (printed_sup _ _ _ _ _ _ _ _ _ P ltac:(lra)) as B. rewrite D50, D47 in B. lra.
Qed.
(** Keys with at most 44 nonzero coefficients: nothing has to be assumed on the multiples of q *)
Theorem C124_light_key : forall sup fuel stc sts sts60 st st2 pos, h <= 44 -> sup = f_err_sup_word F \/ sup = f_err_sup_double F ->
  f_cts_static F lpow 1450 9 60 2 stc -> f_stc_static F 490 9 50 2 sts -> f_stc_static F 490 9 60 2 sts60 -> f_ifft_static F 9 st -> f_fft_static F 9 st2 ->
  keygen fuel 512 rng h (fresh 512) pos = Diverge \/
  (exists stc' sts' st' st2' pos' z y er ei S, f_boot_program F 60 1450 9 50 60 60 50 2 h RM rng (f_conventional_boot F lpow 60 1450 9 60 60 50 2 24 RM rng) sup fuel stc sts st st2 pos =
       Ok (stc', sts', st', st2', pos', (carray (K := Rops) 256 z, carray (K := Rops) 256 y, (er, ei), S)) /\ (- / 1000000 <= S <= 1 + / 100000)%R) /\
  (exists stc' sts' st' st2' pos' z y er ei S, f_boot_program F 60 1450 9 50 60 60 60 2 h RM rng (f_proposed_boot F lpow 60 1450 9 60 60 60 2 24 RM rng) sup fuel stc sts60 st st2 pos =
       Ok (stc', sts', st', st2', pos', (carray (K := Rops) 256 z, carray (K := Rops) 256 y, (er, ei), S)) /\ (- / 1000000 <= S <= / 8 + / 100000)%R).
Proof.
  intros sup fuel stc sts sts60 st st2 pos H44 Hsup Hstc Hsts Hsts6 Hst Hst2.
  destruct (C124_bootstrap_test sup fuel stc sts st st2 pos Hsup Hstc Hsts Hst Hst2) as [[E _]|(z & c & m & I & H0 & HB)]; [left; exact E|].
  destruct (C124_evalqI_test sup fuel stc sts60 st st2 pos Hsup Hstc Hsts6 Hst Hst2) as [[E _]|(z6 & c6 & m6 & I6 & H06 & HB6)]; [left; exact E|]. right. split.
  - destruct HB as (stc' & sts' & st' & st2' & pos' & y & er & ei & S & E & _ & HS). { intros i Hi. destruct H0 as (a1 & a2 & a3 & a4 & a5 & a6 & _ & _ & _ & _ & _ & _ & HI). specialize (HI i Hi). lia. } exists stc', sts', st', st2', pos', z, y, er, ei, S. auto.
  - destruct HB6 as (stc' & sts' & st' & st2' & pos' & y & er & ei & S & E & _ & HS). { intros i Hi. destruct H06 as (a1 & a2 & a3 & a4 & a5 & a6 & _ & _ & _ & _ & _ & _ & HI). specialize (HI i Hi). lia. } exists stc', sts', st', st2', pos', z6, y, er, ei, S. auto.
Qed.
End Parameters.

(** ** Instance: IEEE double precision, correctly rounded pow, a random generator that counts *)
Example C124_case : exists fuel stc' sts' st' st2' pos' z y er ei S,
  f_boot_program F64 60 1450 9 50 60 60 60 2 44 (2 ^ 31 - 1) counting (f_proposed_boot F64 pow64 60 1450 9 60 60 60 2 24 (2 ^ 31 - 1) counting) (f_err_sup_word F64) fuel None None None None 0 =
    Ok (stc', sts', st', st2', pos', (carray (K := Rops) 256 z, carray (K := Rops) 256 y, (er, ei), S)) /\ (- / 1000000 <= S <= / 8 + / 100000)%R.
Proof.
  destruct (C34_keygen_returns (2 ^ 9) counting (2 ^ 31 - 1) 44 (fresh (2 ^ 9)) 0 ltac:(lia) ltac:(lia) counting_stream (repeat_length _ _)) as (fu & r & HF).
  { intros j p Hj. exists (Z.to_nat (512 * Z.of_nat p + j)). split; [lia|]. unfold counting. rewrite Z2Nat.id by lia. change (2 ^ 9) with 512 in *. change (2 ^ 31) with (512 * 4194304).
    rewrite Z.rem_mul_r by lia. rewrite (Z.mul_comm 512 (_ mod 4194304)), Z.mod_add by lia. rewrite Z.mod_mod by lia. rewrite Z.add_comm, Z.mul_comm, Z.mod_add, Z.mod_small by lia. reflexivity. }
  exists fu. destruct (C124_light_key F64 C87_binary64 pow64 _ pow64_within (Rle_refl _) (2 ^ 31 - 1) counting 44 counting_stream ltac:(lia) (f_err_sup_word F64) fu None None None None None 0 ltac:(lia) (or_introl eq_refl))
    as [E|[_ H]]; try constructor.
  - change (2 ^ 9) with 512 in HF. rewrite (HF fu (le_n fu)) in E. discriminate.
  - exact H.
Qed.
