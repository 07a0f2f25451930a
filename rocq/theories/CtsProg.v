(** C100, continued: the programs. *)
From Coq Require Import ZArith List Bool Lia Reals Lra Ring.
From Verif Require Import Base BaseFacts Sums ZQ ZQFacts ZQFacts2 RQ RQFacts Util UtilFacts GSum Rot Conv Core SpecZQ SpecZQFacts SpecPoly SpecPolyFacts SpecScheme ConvFacts Matrix MatrixFacts MatMulFacts DFT DFTTheory DFTFacts FFTFacts SpecMat SpecDFT SpecEnc SlotFacts Encode EncodeFacts
  Properties_ZQ Properties_Conv Properties_Core Properties_Rot Properties_DFT Properties_Mat Properties_Msg Properties_Enc Properties_Plain Plain PlainFacts SpecLin LinTrans LinTransFacts LinSlots Properties_Lin Bootstrap SpecBoot BootSlots Properties_Boot SpecPipe Pipeline PipeFacts Properties_Pipe
  StatFacts Section3 SpecStat Properties_Stat Properties_MatErr Properties_Serial Section4 SupFacts Messages MeasFacts Measure Constants.
From Verif Require Import CtsMeasure CtsProps.
Import ListNotations.
Open Scope Z_scope.
Add Ring RCctp : HR.

(** The ciphertext that both programs feed to CoeffToSlot decrypts to the encoded message, plus fresh noise, plus multiples of 2^LOGq *)
Theorem C100_cts_input fuel LOGq LOGQ LOGN LOGDELTA H RM rnd st pos (z : Z -> CC) (m : Z -> R) : 2 <= LOGN <= 17 -> 1 <= LOGq -> 1 <= LOGQ -> 0 <= LOGDELTA < 64 -> 0 <= H -> rand_stream RM rnd -> ifft_static LOGN st ->
  (forall j, 0 <= j < 2 ^ (LOGN - 1) -> slot (2 ^ LOGN) m j = z j) ->
  (forall i, 0 <= i < 2 ^ LOGN -> (Rabs (m i) * IZR (2 ^ LOGDELTA) < IZR (2 ^ 64) - / 2)%R /\ (Rabs (m i) * IZR (2 ^ LOGDELTA) + 9 <= IZR (2 ^ (LOGq - 1)))%R) ->
  keygen fuel (2 ^ LOGN) rnd H (fresh (2 ^ LOGN)) pos = Diverge /\ cts_input fuel LOGq LOGQ LOGN LOGDELTA H RM rnd st pos (carray (2 ^ (LOGN - 1)) z) = Diverge \/
  exists st' pos' s pt ct c e I, cts_input fuel LOGq LOGQ LOGN LOGDELTA H RM rnd st pos (carray (2 ^ (LOGN - 1)) z) = Ok (st', pos', (map Some s, pt, ct)) /\
    ifft_static LOGN st' /\ ternary (2 ^ LOGN) s /\ norm1 (2 ^ LOGN) (coef s) = H /\ signedP LOGq (2 ^ LOGN) pt c /\
    decrypts LOGQ (2 ^ LOGN) ct (coef s) (fun i => c i + e i + 2 ^ LOGq * I i) /\
    forall i, 0 <= i < 2 ^ LOGN -> nearest (m i * IZR (2 ^ LOGDELTA)) (c i) /\ Z.abs (e i) <= 8 /\ 2 * Z.abs (I i) <= H + 2.
Proof.
  intros HL Hq HQ HD HH Hrnd Hst Hz Hb. set (N := 2 ^ LOGN) in *. assert (HN : 1 <= N) by (pose proof (pow2_pos LOGN ltac:(lia)); unfold N; lia). unfold cts_input. fold N.
  destruct (C34_keygen fuel N rnd RM H (fresh N) pos HN HH Hrnd (repeat_length _ _)) as [E0|(s & pos1 & E0 & Hs & Hh)]; [left; rewrite E0; split; reflexivity|right].
  rewrite E0. cbn [bind]. rewrite <- norm1_count in Hh by exact Hs. pose proof (pow2_half LOGq Hq) as P2. pose proof (pow2_pos (LOGq - 1) ltac:(lia)) as P1.
  assert (P3 : (0 < IZR (2 ^ (LOGq - 1)))%R) by (apply IZR_lt; lia).
  destruct (C54_encode LOGq LOGN Hq ltac:(lia) (2 ^ LOGDELTA) st z m (rq_new LOGq N)) as (st' & pt & c & E1 & Hc & Hc2); auto.
  { split; [apply Z.pow_pos_nonneg; lia|apply Z.pow_lt_mono_r; lia]. } { apply objP_object; try lia. apply objP_new. }
  { intros i Hi. destruct (Hb i Hi) as [A B]. split; auto. rewrite P2, mult_IZR. lra. }
  fold N in E1, Hc, Hc2.
  match goal with |- context [encode LOGq LOGN st ?a ?b ?c ?d] => replace (encode LOGq LOGN st a b c d) with (Ok (st', pt)) by (symmetry; exact E1) end. cbn [bind].
  destruct (C35_enc_dec LOGq N RM rnd pt c s (sq_new LOGq N) pos1 (rq_new LOGq N)) as (ctq & pos2 & e & pt' & E2 & He & _ & _ & Hd); auto; try lia.
  { apply new_object2; lia. } { apply objP_object; try lia. apply objP_new. }
  rewrite E2. cbn [bind].
  assert (Bc : forall i, 0 <= i < N -> - 2 ^ (LOGq - 1) + 8 <= c i < 2 ^ (LOGq - 1) - 8).
  { intros i Hi. destruct (Hb i Hi) as [_ B]. destruct (Hc2 i Hi) as [A _]. unfold nearest in A. pose proof (Rabs_triang_inv (IZR (c i)) (m i * IZR (2 ^ LOGDELTA))) as T.
    rewrite Rabs_mult, (Rabs_right (IZR (2 ^ LOGDELTA))) in T by (apply Rle_ge, IZR_le, Z.pow_nonneg; lia). rewrite <- abs_IZR in T.
    assert (IZR (Z.abs (c i)) < IZR (2 ^ (LOGq - 1) - 8))%R by (rewrite minus_IZR; lra). apply lt_IZR in H0. lia. }
  destruct (C43_mod_raise LOGq LOGQ N ctq (sq_new LOGQ N) (coef s) (fun i => c i + e i) Hq HQ HN) as (ct & I & E3 & Hct & HI); auto.
  { apply new_object2; lia. }
  { intros i Hi. specialize (Bc i Hi). specialize (He i Hi). cbv beta. split; [lia|]. exists 0. lia. }
  unfold mod_raise in E3. rewrite E3. cbn [bind].
  exists st', pos2, s, pt, ct, c, e, I. split; [reflexivity|]. split; [eapply encode_static; eauto|]. split; [exact Hs|]. split; [exact Hh|].
  split; [split; [exact Hc|intros i Hi; specialize (Bc i Hi); lia]|]. split; [exact Hct|]. intros i Hi. rewrite Hh in HI. split; [apply Hc2; auto|]. split; [apply He; auto|apply HI; auto].
Qed.

(** example_sup_norm.cpp:81-90 *)
Theorem C100_pt_norms LOGq N LOGDELTA pt c : 1 <= LOGq -> 1 <= N -> signedP LOGq N pt c -> (forall i, 0 <= i < N -> Z.abs (c i) < 2 ^ 64) -> 0 <= LOGDELTA ->
  exists sup, pt_norms LOGq N (2 ^ LOGDELTA) pt = Ok (sqrt (squares N (fun i => IZR (c i) / IZR (2 ^ LOGDELTA)))%R, sup) /\
    largest N (fun i => Rabs (IZR (c i) / IZR (2 ^ LOGDELTA))) sup /\
    (sqrt (squares N (fun i => IZR (c i) / IZR (2 ^ LOGDELTA)))%R / sqrt (IZR N) <= sup <= sqrt (squares N (fun i => IZR (c i) / IZR (2 ^ LOGDELTA))))%R.
Proof.
  intros HQ HN [Hp Hs] Hc HD. apply holdsP_rep in Hp; try lia. subst pt. unfold pt_norms.
  assert (PD : (0 < IZR (2 ^ LOGDELTA))%R) by (apply IZR_lt, Z.pow_pos_nonneg; lia). set (Delta := 2 ^ LOGDELTA) in *.
  match goal with |- context [for_ 0 N ?b _] =>
    destruct (for_inv b (fun k p => fst p = squares k (fun i => IZR (c i) / IZR Delta)%R /\ largest k (fun i => Rabs (IZR (c i) / IZR Delta)) (snd p)) 0 N (0%R, 0%R) ltac:(lia)) as ((nn & sup) & EE & H1 & H2) end.
  { split; [cbn [fst]; reflexivity|apply largest_0]. }
  { intros i (a & b) Hi [A B]. cbn [fst snd] in A, B. unfold repP. rewrite lget_tab by auto. cbn [bind]. rewrite zq_double_ok by auto. cbn [bind]. rewrite low64_small by auto.
    assert (EA : (Rabs (IZR (c i)) / IZR Delta)%R = Rabs (IZR (c i) / IZR Delta)).
    { unfold Rdiv. rewrite Rabs_mult, (Rabs_right (/ IZR Delta)) by (apply Rle_ge, Rlt_le, Rinv_0_lt_compat; auto). reflexivity. }
    rewrite EA. eexists. split; [reflexivity|]. cbn [fst snd]. split; [|apply (largest_step i (fun i => Rabs (IZR (c i) / IZR Delta)) b); [lia|exact B]].
    rewrite A. unfold squares. rewrite (gsum_S (K := Rops) i) by lia. apply (f_equal2 Rplus); [reflexivity|]. rewrite <- Rabs_mult. apply Rabs_right. apply Rle_ge, Rle_0_sqr. }
  rewrite EE. cbn [bind fst snd] in *. subst nn. set (x := fun i : Z => (IZR (c i) / IZR Delta)%R) in *. exists sup. split; [reflexivity|]. split; [exact H2|].
  destruct H2 as (S0 & S1 & S2). assert (NR : (0 < IZR N)%R) by (apply IZR_lt; lia). assert (RN : (0 < sqrt (IZR N))%R) by (apply sqrt_lt_R0; auto).
  assert (AB : forall i, (x i * x i = Rabs (x i) * Rabs (x i))%R) by (intros; rewrite <- Rabs_mult; symmetry; apply Rabs_right, Rle_ge, Rle_0_sqr).
  split.
  - apply (Rmult_le_reg_r (sqrt (IZR N))); auto. unfold Rdiv. rewrite Rmult_assoc, Rinv_l, Rmult_1_r by lra.
    rewrite <- (sqrt_square sup) by auto. rewrite <- sqrt_mult_alt by nra. apply sqrt_le_1_alt. rewrite Rmult_comm. rewrite <- rsum_const by lia. unfold squares. apply rsum_le. intros i Hi. rewrite AB. specialize (S1 i Hi). apply Rmult_le_compat; auto; apply Rabs_pos.
  - rewrite <- (sqrt_square sup) by auto. apply sqrt_le_1_alt. destruct S2 as [->|(j & Hj & ->)].
    + rewrite Rmult_0_l. apply rsum_nonneg; [lia|]. intros. apply Rle_0_sqr.
    + fold (x j). rewrite <- AB. apply (rsum_term N (fun i => x i * x i)%R j); auto. intros. apply Rle_0_sqr.
Qed.

(** The two programs pass e[1] to aggregate, which reads it up to index N-1 although it has N/2 entries: whatever the message, both end in undefined behaviour. *)
Section Programs.
Context (LOGq LOGQ LOGN LOGDELTA LDt H RM : Z) (rnd : nat -> Z) (G D : nat).
Context (HQ : widths LOGQ) (HQ2 : widths (2 * LOGQ)) (HL : 2 <= LOGN <= 17) (HD0 : 0 <= LOGDELTA < 64) (HD : 0 <= LDt < 64) (HDQ : LDt < LOGQ) (Hr : rand_stream RM rnd) (HG : (1 <= G <= 4)%nat) (HGD : LOGN - 1 = Z.of_nat (G * D)) (HH : 0 <= H <= 1000000) (Hq : 1 <= LOGq < 64).
Local Notation N := (2 ^ LOGN).
Local Notation n := (2 ^ (LOGN - 1)).
Local Notation Delta := (IZR (2 ^ LOGDELTA)).
(** bound on the raised coefficients divided by Delta *)
Local Notation B := ((IZR (2 ^ (LOGq - 1)) + IZR (2 ^ (LOGq - 1)) * IZR (H + 2)) / Delta)%R.
Local Notation z0 := (IZR N * B)%R.
Local Notation err := (cts_error N (2 ^ LDt) (16 * N + 1 + H) G D z0 Delta).
Local Notation scale := (LOGDELTA + Z.of_nat D * LDt).
Context (Hbig : LOGq + 20 <= LOGQ - 1) (Hsz : (IZR (2 ^ scale) * (z0 + err) < IZR (2 ^ (LOGQ - 1)))%R).

(** What is computed before that: the numbers of the first two theorems and of [C100_pt_norms]. *)
Theorem C100_measurement fuel stc st st2 pos (z : Z -> CC) (m : Z -> R) rev :
  cts_static LOGQ LOGN LDt (Z.of_nat G) stc -> ifft_static LOGN st -> fft_static LOGN st2 -> (forall j, 0 <= j < n -> slot N m j = z j) -> (forall j, 0 <= j < n -> reverses (LOGN - 1) j (rev j)) ->
  (forall i, 0 <= i < N -> (Rabs (m i) * Delta < IZR (2 ^ 64) - / 2)%R /\ (Rabs (m i) * Delta + 9 <= IZR (2 ^ (LOGq - 1)))%R) ->
  keygen fuel N rnd H (fresh N) pos = Diverge /\ cts_input fuel LOGq LOGQ LOGN LOGDELTA H RM rnd st pos (carray n z) = Diverge \/
  exists st1 pos1 s pt ct c e I stc' st' st2' pos' w0 w1 nz, let mm := fun i => c i + e i + 2 ^ LOGq * I i in
    cts_input fuel LOGq LOGQ LOGN LOGDELTA H RM rnd st pos (carray n z) = Ok (st1, pos1, (map Some s, pt, ct)) /\
    (forall i, 0 <= i < N -> nearest (m i * Delta) (c i) /\ Z.abs (e i) <= 8 /\ 2 * Z.abs (I i) <= H + 2) /\
    cts_errors LOGQ LOGN LOGDELTA LDt (Z.of_nat G) RM rnd stc st1 st2 pos1 ct (map Some s) = Ok (stc', st', st2', pos', (nz, carray (K := Rops) n (e_slots N scale LOGDELTA w0 mm rev 0), carray (K := Rops) n (e_slots N scale LOGDELTA w1 mm rev n))) /\
    msg_norm n nz = Ok (sqrt (IZR n * squares N (fun i => IZR (mm i) / Delta)))%R /\
    (forall j, 0 <= j < n ->
      (Z.abs (mm (rev j)) < 2 ^ 64 -> (modulus (e_slots N scale LOGDELTA w0 mm rev 0 j) <= err)%R) /\
      (Z.abs (mm (rev j + n)) < 2 ^ 64 -> (modulus (e_slots N scale LOGDELTA w1 mm rev n j) <= err)%R) /\
      (2 ^ 64 <= Z.abs (mm (rev j)) -> (IZR (2 ^ 64) / Delta - err <= modulus (e_slots N scale LOGDELTA w0 mm rev 0 j))%R) /\
      (2 ^ 64 <= Z.abs (mm (rev j + n)) -> (IZR (2 ^ 64) / Delta - err <= modulus (e_slots N scale LOGDELTA w1 mm rev n j))%R)) /\
    exists sup, pt_norms LOGq N (2 ^ LOGDELTA) pt = Ok (sqrt (squares N (fun i => IZR (c i) / Delta))%R, sup) /\ largest N (fun i => Rabs (IZR (c i) / Delta)) sup.
Proof.
  intros Hstc Hst Hst2 Hz Hrev Hb. pose proof (N2 LOGN ltac:(lia)) as HN2. pose proof (n_pos LOGN ltac:(lia)) as Hn. assert (PD : (0 < Delta)%R) by (apply IZR_lt, Z.pow_pos_nonneg; lia).
  assert (LQ : 1 <= LOGQ) by (unfold widths in HQ; lia).
  destruct (C100_cts_input fuel LOGq LOGQ LOGN LOGDELTA H RM rnd st pos z m ltac:(lia) ltac:(lia) LQ HD0 ltac:(lia) Hr Hst Hz Hb) as [E0|(st1 & pos1 & s & pt & ct & c & e & I & E1 & Hst1 & Hs & Hh & Hpt & Hct & Hc)]; [left; exact E0|right].
  set (mm := fun i => c i + e i + 2 ^ LOGq * I i) in *.
  pose proof (pow2_half LOGq ltac:(lia)) as P2. pose proof (pow2_pos (LOGq - 1) ltac:(lia)) as P1.
  assert (Bm : forall i, 0 <= i < N -> Z.abs (mm i) <= 2 ^ (LOGq - 1) + 2 ^ (LOGq - 1) * (H + 2)).
  { intros i Hi. destruct (Hc i Hi) as (A1 & A2 & A3). destruct (Hb i Hi) as [_ A4]. unfold nearest in A1. pose proof (Rabs_triang_inv (IZR (c i)) (m i * Delta)) as T.
    rewrite Rabs_mult, (Rabs_right Delta) in T by lra. rewrite <- abs_IZR in T.
    assert (A5 : (IZR (Z.abs (c i)) < IZR (2 ^ (LOGq - 1) - 8))%R) by (rewrite minus_IZR; lra). apply lt_IZR in A5. unfold mm. rewrite P2. nia. }
  assert (SB : 2 ^ (LOGq - 1) + 2 ^ (LOGq - 1) * (H + 2) < 2 ^ (LOGQ - 1)).
  { apply Z.lt_le_trans with (2 ^ (LOGq + 20)); [|apply Z.pow_le_mono_r; lia]. rewrite Z.pow_add_r by lia. rewrite P2. change (2 ^ 20) with 1048576. nia. }
  assert (Sm : forall i, 0 <= i < N -> - 2 ^ (LOGQ - 1) <= mm i < 2 ^ (LOGQ - 1)) by (intros i Hi; specialize (Bm i Hi); lia).
  assert (Hzb : forall j, 0 <= j < n -> (modulus (slots N Delta mm j) <= z0)%R).
  { intros j Hj. apply slots_coef_bound; [lia|exact PD|]. intros i Hi. specialize (Bm i Hi). apply IZR_le in Bm. rewrite abs_IZR, plus_IZR, mult_IZR in Bm. unfold Rdiv. rewrite <- Rmult_assoc, (Rmult_comm Delta), Rmult_assoc, Rinv_r, Rmult_1_r by lra. exact Bm. }
  assert (En : noise N (coef s) = 16 * N + 1 + H) by (unfold noise; rewrite Hh; reflexivity).
  pose proof (C100_cts_errors LOGQ LOGN LOGDELTA LDt RM rnd s HQ HQ2 HL HD0 HD HDQ Hr Hs G D HG HGD ct mm stc st1 st2 pos1 rev z0 Hstc Hst1 Hst2 (conj Hct Sm) Hrev Hzb) as T. rewrite En in T.
  destruct (T Hsz) as (stc' & st' & st2' & pos' & ct0 & ct1 & w0 & w1 & _ & _ & _ & E2 & He). clear T.
  destruct (C100_pt_norms LOGq N LOGDELTA pt c ltac:(lia) ltac:(lia) Hpt) as (sup & E3 & Hsup & _).
  { intros i Hi. destruct Hpt as [_ Hpt]. specialize (Hpt i Hi). assert (2 ^ (LOGq - 1) < 2 ^ 64) by (apply Z.pow_lt_mono_r; lia). lia. } { lia. }
  eexists st1, pos1, s, pt, ct, c, e, I, stc', st', st2', pos', w0, w1, _. cbv zeta. fold mm. split; [exact E1|]. split; [exact Hc|]. split; [exact E2|]. split; [|split].
  - rewrite msg_norm_ok by lia. do 2 f_equal. unfold slots. apply (parseval LOGN ltac:(lia)).
  - intros j Hj. destruct (He j Hj) as [A0 A1]. apply word_error in A0, A1; auto. unfold e_slots. rewrite Z.add_0_r. destruct A0, A1. auto.
  - exists sup. split; [exact E3|exact Hsup].
Qed.

Theorem C100_programs_undefined fuel stc st st2 pos (z : Z -> CC) (m : Z -> R) : 
  cts_static LOGQ LOGN LDt (Z.of_nat G) stc -> ifft_static LOGN st -> fft_static LOGN st2 -> (forall j, 0 <= j < n -> slot N m j = z j) ->
  (forall i, 0 <= i < N -> (Rabs (m i) * Delta < IZR (2 ^ 64) - / 2)%R /\ (Rabs (m i) * Delta + 9 <= IZR (2 ^ (LOGq - 1)))%R) ->
  keygen fuel N rnd H (fresh N) pos = Diverge \/
  measure_cts_error fuel LOGq LOGQ LOGN LOGDELTA LDt (Z.of_nat G) H RM rnd stc st st2 pos (carray n z) = Undef /\
  measure_sup_norm fuel LOGq LOGQ LOGN LOGDELTA LDt (Z.of_nat G) H RM rnd stc st st2 pos (carray n z) = Undef.
Proof.
  intros Hstc Hst Hst2 Hz Hb. pose proof (N2 LOGN ltac:(lia)) as HN2. pose proof (n_pos LOGN ltac:(lia)) as Hn. assert (Eq : Z.quot N 2 = n) by (rewrite HN2, Z.mul_comm; apply Z.quot_mul; lia).
  destruct (C100_measurement fuel stc st st2 pos z m (brv (Z.to_nat (LOGN - 1))) Hstc Hst Hst2 Hz) as [[E0 _]|(st1 & pos1 & s & pt & ct & c & e & I & stc' & st' & st2' & pos' & w0 & w1 & nz & E1 & _ & E2 & E3 & _ & sup & E4 & _)]; [| |left; exact E0|right].
  { intros j Hj. apply reverses_brv; [lia|reflexivity]. } { exact Hb. }
  cbv zeta in E2, E3.
  assert (D1 : (1 <= D)%nat) by nia. assert (D16 : Z.of_nat D <= 16) by nia.
  assert (EC : exists r, cts_constants LOGN (Z.of_nat G) H = Ok r).
  { unfold cts_constants. destruct (Z.eqb_spec (Z.of_nat G) 0) as [|HG0]; [lia|]. cbn [negb guard bind].
    assert (Er : Z.rem (LOGN - 1) (Z.of_nat G) = 0) by (rewrite HGD, Nat2Z.inj_mul, Z.mul_comm; apply Z.rem_mul; lia). rewrite Er. cbn [Z.eqb assert_ bind].
    assert (Ed : Z.quot (LOGN - 1) (Z.of_nat G) = Z.of_nat D) by (rewrite HGD, Nat2Z.inj_mul, Z.mul_comm; apply Z.quot_mul; lia). rewrite Ed.
    assert (P3 : 0 < 3 ^ Z.of_nat G <= 81). { split; [apply Z.pow_pos_nonneg; lia|]. change 81 with (3 ^ 4). apply Z.pow_le_mono_r; lia. }
    rewrite (int_in (3 ^ Z.of_nat G)) by lia. cbn [bind]. rewrite (int_in (H + 1)) by lia. cbn [bind]. rewrite int_in by nia. cbn [bind].
    destruct (Z.eqb_spec (Z.of_nat D) 0) as [|HD1]; [lia|]. cbn [negb guard bind]. eexists. reflexivity. }
  destruct EC as [[[r1 r2] C1] EC].
  split.
  - unfold measure_cts_error. rewrite Eq, EC. cbn [bind]. rewrite E1. cbn [bind]. rewrite E2. cbn [bind]. rewrite E3. cbn [bind]. rewrite (C68_new (K := Rops)) by lia. cbn [bind].
    rewrite (C59_aggregate_undefined (K := Rops)) by (try lia; apply carray_of_carray). reflexivity.
  - unfold measure_sup_norm. rewrite Eq, EC. cbn [bind]. rewrite E1. cbn [bind]. rewrite E4. cbn [bind]. rewrite E2. cbn [bind]. rewrite (C68_new (K := Rops)) by lia. cbn [bind].
    rewrite (C59_aggregate_undefined (K := Rops)) by (try lia; apply carray_of_carray). reflexivity.
Qed.
End Programs.
