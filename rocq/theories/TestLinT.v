(** C103: what linear_transform_test of matmul_test.cpp prints. *)
From Coq Require Import ZArith List Bool Lia Reals Lra Ring.
From Verif Require Import Base BaseFacts Sums ZQ RQ RQFacts Conv Rot Util GSum Core Matrix MatrixFacts MatMulFacts
  DFT DFTTheory DFTFacts FFTFacts SpecZQ SpecPoly SpecPolyFacts SpecScheme ConvFacts SpecMat Properties_Mat Properties_Msg SpecDFT Properties_DFT SpecEnc Properties_Core
  GroupFacts SlotFacts Encode Plain BootFacts Properties_Enc Properties_Plain SpecLin LinTrans LinSlots GroupSlots SpecBoot BootSlots PlainFacts SpecStat StatFacts Section3 Properties_Stat Properties_MatErr Properties_Serial
  Bootstrap SpecEval EvalFacts Section4 SupFacts MeasFacts Measure.
From Verif Require Import ZQFacts CoreFacts LinTransFacts Properties_Rot Properties_Conv EncodeFacts UtilFacts Properties_Lin TestLayers Properties_Boot Properties_Pipe.
From Verif Require Import TestLin TestMat.
Import ListNotations.
Open Scope Z_scope.
Add Ring RCtl : HR.

(** Encoding and encrypting: the ciphertext decrypts to the coefficients times 2^LD, up to 1/2 for the rounding and 8 for the noise *)
Lemma enc_coefs LOGN Q LD RM rnd s st pos (z : Z -> CC) m X : 2 <= LOGN <= 17 -> 66 <= Q -> 0 <= LD <= 63 -> rand_stream RM rnd -> ternary (2 ^ LOGN) s -> ifft_static LOGN st ->
  (forall j, 0 <= j < 2 ^ (LOGN - 1) -> slot (2 ^ LOGN) m j = z j) -> (forall j, 0 <= j < 2 ^ (LOGN - 1) -> (modulus (z j) <= X)%R) -> (X * IZR (2 ^ LD) <= IZR (2 ^ 64) - 1)%R ->
  exists st' pt c ct pos' m', encode Q LOGN st (fst (carray (K := Rops) (2 ^ (LOGN - 1)) z)) (snd (carray (K := Rops) (2 ^ (LOGN - 1)) z)) (2 ^ LD) (rq_new Q (2 ^ LOGN)) = Ok (st', pt) /\ ifft_static LOGN st' /\ signedP Q (2 ^ LOGN) pt c /\
    enc Q (2 ^ LOGN) RM rnd pt (map Some s) (sq_new Q (2 ^ LOGN)) pos = Ok (ct, pos') /\ decrypts Q (2 ^ LOGN) ct (coef s) m' /\
    (forall i, 0 <= i < 2 ^ LOGN -> nearest (m i * IZR (2 ^ LD)) (c i) /\ Z.abs (c i) < 2 ^ 64 /\ Z.abs (m' i - c i) <= 8 /\ (Rabs (IZR (m' i) / IZR (2 ^ LD) - m i) <= 17 / 2 / IZR (2 ^ LD))%R) /\
    forall j, 0 <= j < 2 ^ (LOGN - 1) -> (modulus (slots (2 ^ LOGN) (IZR (2 ^ LD)) m' j) <= X + IZR (2 ^ LOGN) * (17 / 2) / IZR (2 ^ LD))%R.
Proof.
  intros HL HQ HLD Hrnd Hs Hst Hm Hz HX. set (N := 2 ^ LOGN) in *. set (n := 2 ^ (LOGN - 1)) in *.
  assert (HN : 1 <= N) by (pose proof (pow2_pos LOGN ltac:(lia)); unfold N; lia). pose proof (n_pos LOGN ltac:(lia)) as Hn. fold n in Hn.
  assert (PD : (0 < IZR (2 ^ LD))%R) by (apply IZR_lt, Z.pow_pos_nonneg; lia).
  assert (MB : forall i, 0 <= i < N -> (Rabs (m i) * IZR (2 ^ LD) <= IZR (2 ^ 64) - 1)%R).
  { intros i Hi. eapply Rle_trans; [|exact HX]. apply Rmult_le_compat_r; [lra|]. apply (coef_slots LOGN m X ltac:(lia)); auto. intros j Hj. fold n in Hj. fold N. rewrite (Hm j Hj). apply Hz. exact Hj. }
  assert (W64 : (IZR (2 ^ 64) <= IZR (2 ^ Q))%R) by (apply IZR_le, Z.pow_le_mono_r; lia).
  destruct (C54_encode Q LOGN ltac:(lia) ltac:(lia) (2 ^ LD) st z m (rq_new Q N)) as (st' & pt & c & E1 & Hc & Hc2).
  { split; [apply Z.pow_pos_nonneg; lia|apply Z.pow_lt_mono_r; lia]. }
  { exact Hst. } { apply objP_object; try lia. apply objP_new. } { exact Hm. }
  { intros i Hi. specialize (MB i Hi). split; lra. }
  destruct (C35_enc_dec Q N RM rnd pt c s (sq_new Q N) pos (rq_new Q N)) as (ct & pos' & e0 & pt' & E2 & He0 & _ & _ & Hd); auto; try lia.
  { apply new_object2; lia. } { apply objP_object; try lia. apply objP_new. }
  assert (HP : forall i, 0 <= i < N -> nearest (m i * IZR (2 ^ LD)) (c i) /\ Z.abs (c i) < 2 ^ 64 /\ Z.abs (c i + e0 i - c i) <= 8 /\ (Rabs (IZR (c i + e0 i) / IZR (2 ^ LD) - m i) <= 17 / 2 / IZR (2 ^ LD))%R).
  { intros i Hi. destruct (Hc2 i Hi) as [Hr _]. split; [exact Hr|]. unfold nearest in Hr. specialize (He0 i Hi). split; [|split; [lia|]].
    - specialize (MB i Hi). apply lt_IZR. rewrite abs_IZR. pose proof (Rabs_triang_inv (IZR (c i)) (m i * IZR (2 ^ LD))) as T. rewrite Rabs_mult, (Rabs_right (IZR (2 ^ LD))) in T by lra. lra.
    - rewrite plus_IZR. replace ((IZR (c i) + IZR (e0 i)) / IZR (2 ^ LD) - m i)%R with ((IZR (c i) - m i * IZR (2 ^ LD) + IZR (e0 i)) * / IZR (2 ^ LD))%R by (field; lra).
      unfold Rdiv at 2. rewrite Rabs_mult, (Rabs_right (/ IZR (2 ^ LD))) by (apply Rle_ge, Rlt_le, Rinv_0_lt_compat; auto). apply Rmult_le_compat_r; [apply Rlt_le, Rinv_0_lt_compat; auto|].
      eapply Rle_trans; [apply Rabs_triang|]. rewrite <- (abs_IZR (e0 i)). apply IZR_le in He0. lra. }
  exists st', pt, c, ct, pos', (fun i => c i + e0 i). split; [exact E1|]. split; [eapply encode_static; eauto|]. split.
  { split; [exact Hc|]. intros i Hi. destruct (HP i Hi) as (_ & B & _). assert (2 ^ 64 <= 2 ^ (Q - 1)) by (apply Z.pow_le_mono_r; lia). lia. }
  split; [exact E2|]. split; [exact Hd|]. split; [exact HP|].
  intros j Hj. eapply Rle_trans; [apply (modulus_near _ (z j))|]. apply Rplus_le_compat; [apply Hz; exact Hj|].
  rewrite <- (Hm j Hj). unfold slots. rewrite <- slot_sub. replace (IZR N * (17 / 2) / IZR (2 ^ LD))%R with (IZR N * (17 / 2 / IZR (2 ^ LD)))%R by (field; lra). apply modulus_slot; [lia|]. intros i Hi. apply (HP i Hi).
Qed.

(** the tables of set_test_U0_matrix *)
Lemma inv_good LOGN : 3 <= LOGN <= 17 ->
  good (2 ^ (LOGN - 1)) 3 (LOGN - 1) (LOGN - 1) (fst (bwd_tables LOGN)) (snd (bwd_tables LOGN)) (uM LOGN) (fun _ => 2)%R (fun _ => 2)%R.
Proof.
  intros HL. set (n := 2 ^ (LOGN - 1)). assert (Hn : 0 < n <= 2 ^ 30) by (split; [apply Z.pow_pos_nonneg; lia|apply Z.pow_le_mono_r; lia]).
  unfold bwd_tables. cbn [fst snd]. fold n. apply good_tab. intros d Hd. destruct (stage_shape LOGN 0 d Hd) as (H1 & H2 & H3). rewrite <- !diagonals_sdi.
  apply (mrep_rows n Hn 3 (uA LOGN d) (uo LOGN d) (zR (2 ^ d)) zI 2%R ltac:(lia)); [exact (stage_flags LOGN d Hd)|]. intros i Hi.
  exact (bA_rows n (Md LOGN d) (2 ^ d) H1 H2 H3 (csd LOGN d) (snd_ LOGN d) (unit_d LOGN d) i Hi).
Qed.
Lemma chain_uz LOGN z d : chain (2 ^ (LOGN - 1)) (fun k => uM LOGN (Z.of_nat k)) d z = uz LOGN z d.
Proof. induction d; cbn [chain uz]; [reflexivity|]. rewrite IHd. reflexivity. Qed.

Lemma modulus_parts a b : (modulus (mk Rops a b) <= Rabs a + Rabs b)%R.
Proof.
  unfold modulus, cre, cim. cbn. pose proof (Rabs_pos a). pose proof (Rabs_pos b). rewrite <- (sqrt_Rsqr (Rabs a + Rabs b)) by lra. apply sqrt_le_1_alt. unfold Rsqr.
  assert (Q : forall x, (x * x = Rabs x * Rabs x)%R) by (intros x; rewrite <- Rabs_mult, Rabs_pos_eq; nra). rewrite (Q a), (Q b). nra.
Qed.

(** Size of the slots and their error after K groups of G of the matrices at scale [Delta], for messages bounded by X; [h] is the weight of the key.
    The rows of a product of G matrices have sums at most 2^G. *)
Definition start_size (N Delta : Z) (X : R) : R := (X + IZR N * (17 / 2) / IZR Delta)%R.
Definition lt_size (N Delta h : Z) (G K : nat) (X : R) : R :=
  size_after (fun _ => 2 ^ G)%R (row_rounding N Delta G) (start_size N Delta X) (switch_noise N Delta (16 * N + 1 + h) (IZR Delta)) K.
Definition lt_err (N Delta h : Z) (G K : nat) (X : R) : R :=
  (error_after (fun _ => 2 ^ G)%R (row_rounding N Delta G) (start_size N Delta X) (switch_noise N Delta (16 * N + 1 + h) (IZR Delta)) K + IZR N * (17 / 2) / IZR Delta)%R.

Section LT.
Context (LOGQ LOGN LD RM h : Z) (rnd : nat -> Z) (s : list Z).
Context (HQ : widths LOGQ) (HQ2 : widths (2 * LOGQ)) (HL : 3 <= LOGN <= 17) (HD : 0 <= LD <= 59) (HDQ : LD + 4 < LOGQ) (Hr : rand_stream RM rnd).
Local Notation N := (2 ^ LOGN).
Local Notation n := (2 ^ (LOGN - 1)).
Context (Hs : ternary N s) (Hh : norm1 N (coef s) = h).
Context (m : Z -> R) (m' : Z -> Z) (X : R) (ct : sq) (Hct : decrypts LOGQ N ct (coef s) m')
  (Hm : forall i, 0 <= i < N -> (Rabs (IZR (m' i) / IZR (2 ^ LD) - m i) <= 17 / 2 / IZR (2 ^ LD))%R)
  (Hz : forall j, 0 <= j < n -> (modulus (slots N (IZR (2 ^ LD)) m' j) <= start_size N (2 ^ LD) X)%R).

Lemma grouped_result (G K : nat) st st2 pos : (1 <= G <= 4)%nat -> LOGN - 1 = Z.of_nat (G * K) -> ifft_static LOGN st -> fft_static LOGN st2 ->
  (IZR (2 ^ (LD + Z.of_nat K * LD)) * lt_size N (2 ^ LD) h G K X < IZR (2 ^ (LOGQ - 1)))%R ->
  exists st' pos' A pt st2' y, grouped_lt LOGQ LOGN LD RM rnd 3 (LOGN - 1) (Z.of_nat G) st pos (fst (bwd_tables LOGN)) (snd (bwd_tables LOGN)) ct (map Some s) (sq_new LOGQ N) = Ok (st', pos', A) /\ ifft_static LOGN st' /\
    dec LOGQ N A (map Some s) (rq_new LOGQ N) = Ok pt /\
    decode_log LOGQ LOGN st2 pt (LD + Z.of_nat K * LD) (fst (carray (K := Rops) n (fun _ => (0%num : CC)))) (snd (carray (K := Rops) n (fun _ => (0%num : CC)))) = Ok (st2', carray (K := Rops) n y) /\ fft_static LOGN st2' /\
    forall j r, 0 <= j < n -> reverses (LOGN - 1) j r -> (modulus (y j - mk Rops (IZR n * m r)%R (IZR n * m (r + n)%Z)%R)%num <= lt_err N (2 ^ LD) h G K X)%R.
Proof.
  intros HG HGK Hst Hst2 Hsz. assert (PD : (0 < IZR (2 ^ LD))%R) by (apply IZR_lt, Z.pow_pos_nonneg; lia). pose proof (n_pos LOGN ltac:(lia)) as Hn. pose proof (N2 LOGN ltac:(lia)) as HN2.
  assert (LQ : 1 <= LOGQ) by (unfold widths in HQ; lia).
  pose proof (inv_good LOGN HL) as HA. rewrite HGK in HA at 2 3.
  destruct (grouped_good LOGQ LOGN LD RM rnd s HQ HQ2 ltac:(lia) ltac:(lia) Hr Hs G K 3 _ _ _ _ _ (start_size N (2 ^ LD) X) (IZR (2 ^ LD)) ct m' st pos (sq_new LOGQ N) HG ltac:(lia) HA) as (st' & pos' & A & w & E1 & Hst' & Hw & Hsl); auto.
  { intros d Hd. rewrite <- group_entries_same by lia. unfold group_rows. rewrite rprod_const. rewrite pow_IZR. unfold bound_small. rewrite <- mult_IZR, <- Z.pow_add_r by lia.
    assert (P1 : 2 ^ (Z.of_nat G + LD) <= 2 ^ 63) by (apply Z.pow_le_mono_r; lia). assert (P2 : 2 ^ (Z.of_nat G + LD) < 2 ^ LOGQ) by (apply Z.pow_lt_mono_r; lia).
    assert (P3 : (IZR (2 ^ (Z.of_nat G + LD)) + 1 <= IZR (2 ^ LOGQ))%R) by (rewrite <- plus_IZR; apply IZR_le; lia). apply IZR_le in P1. change (2 ^ 63) with 9223372036854775808 in P1. change (2 ^ 64) with 18446744073709551616. split; lra. }
  { apply new_object2; lia. }
  assert (EE : noise N (coef s) = 16 * N + 1 + h) by (unfold noise; rewrite Hh; reflexivity).
  assert (ES : (IZR (2 ^ LD) ^ K * IZR (2 ^ LD))%R = IZR (2 ^ (LD + Z.of_nat K * LD))).
  { rewrite pow_IZR, <- mult_IZR. f_equal. rewrite <- Z.pow_mul_r, <- Z.pow_add_r by lia. f_equal. lia. }
  set (sc := LD + Z.of_nat K * LD) in *. assert (PS : powerRZ 2 sc = IZR (2 ^ sc)) by (apply powerRZ_2; nia). assert (Sp : (0 < IZR (2 ^ sc))%R) by (apply IZR_lt, Z.pow_pos_nonneg; nia).
  assert (K16 : Z.of_nat K <= 16) by nia. assert (S30 : 0 <= sc <= 2 ^ 30) by (change (2 ^ 30) with 1073741824; nia). assert (Q30 : LOGQ <= 2 ^ 30) by (unfold widths in HQ; change (2 ^ 30) with 1073741824; lia).
  assert (Erow : forall d, group_rows G (fun k => 2%R) d = (2 ^ G)%R) by (intros d; unfold group_rows; apply rprod_const).
  assert (B : forall j, 0 <= j < n -> (modulus (slots N (IZR (2 ^ sc)) w j) <= lt_size N (2 ^ LD) h G K X)%R /\
     (modulus (slots N (IZR (2 ^ sc)) w j - uz LOGN (slots N (IZR (2 ^ LD)) m') (Z.to_nat (LOGN - 1)) j)%num <= error_after (fun _ => 2 ^ G)%R (row_rounding N (2 ^ LD) G) (start_size N (2 ^ LD) X) (switch_noise N (2 ^ LD) (16 * N + 1 + h) (IZR (2 ^ LD))) K)%R).
  { intros j Hj. destruct (Hsl j Hj) as [B1 B2]. rewrite ES, EE in B1, B2. rewrite chain_uz in B2. replace (G * K)%nat with (Z.to_nat (LOGN - 1)) in B2 by lia. split.
    - eapply Rle_trans; [exact B1|]. apply Req_le. apply rows_ext'. exact Erow.
    - eapply Rle_trans; [exact B2|]. apply Req_le. apply rows_ext'. exact Erow. }
  pose proof (signed_slots LOGQ LOGN w _ _ ltac:(lia) LQ Sp (fun j Hj => proj1 (B j Hj)) Hsz) as S0.
  assert (ON : objectP LOGQ N (rq_new LOGQ N)) by (apply objP_object; try lia; apply objP_new).
  destruct (C35_dec LOGQ N A s w (rq_new LOGQ N) LQ ltac:(lia) Hs ON Hw) as (pt & F1 & P1).
  destruct (carray_of_carray n (fun _ => 0%num)) as [Ca Cb].
  destruct (C56_decode_log LOGQ LOGN LQ ltac:(lia) sc st2 pt w _ _ Q30 ltac:(lia) Hst2 Ca Cb (conj P1 S0)) as [st2' G1].
  exists st', pos', A, pt, st2', (slots N (powerRZ 2 sc) w). rewrite HGK at 1. split; [exact E1|]. split; [exact Hst'|]. split; [exact F1|]. split; [exact G1|]. split; [exact (decode_log_static _ _ _ _ _ _ _ _ _ Hst2 G1)|].
  intros j r Hj Hrev. rewrite PS. destruct (B j Hj) as [_ B2].
  pose proof (uz_slots LOGN ltac:(lia) 0 ltac:(lia) (fun i => IZR (m' i) / IZR (2 ^ LD))%R j r Hj Hrev) as U.
  unfold slots in B2 at 2. match type of B2 with (modulus (?a - ?b)%num <= _)%R => replace b with (mk Rops (IZR n * (IZR (m' r) / IZR (2 ^ LD)))%R (IZR n * (IZR (m' (r + n)%Z) / IZR (2 ^ LD)))%R : CC) in B2 by (symmetry; exact U) end.
  set (u := mk Rops _ _ : CC) in B2. set (v := mk Rops _ _). set (y := slots N _ w j) in *. replace (y - v)%num with ((y - u) + (u - v))%num by ring. eapply Rle_trans; [apply modulus_add|]. unfold lt_err. apply Rplus_le_compat; [exact B2|].
  assert (Hrn : 0 <= r < n) by apply Hrev.
  replace (u - v)%num with (mk Rops (IZR n * (IZR (m' r) / IZR (2 ^ LD) - m r))%R (IZR n * (IZR (m' (r + n)%Z) / IZR (2 ^ LD) - m (r + n)%Z))%R : CC) by (unfold u, v; apply RC_eq; cbn; ring).
  assert (Nn : (0 < IZR n)%R) by (apply IZR_lt; lia).
  eapply Rle_trans; [apply modulus_parts|]. rewrite !Rabs_mult, (Rabs_right (IZR n)) by lra. pose proof (Hm r ltac:(lia)) as M1. pose proof (Hm (r + n) ltac:(lia)) as M2.
  rewrite HN2, mult_IZR. apply (Rmult_le_compat_l (IZR n)) in M1; [|lra]. apply (Rmult_le_compat_l (IZR n)) in M2; [|lra].
  replace (IZR 2 * IZR n * (17 / 2) / IZR (2 ^ LD))%R with (IZR n * (17 / 2 / IZR (2 ^ LD)) + IZR n * (17 / 2 / IZR (2 ^ LD)))%R by (field; lra). lra.
Qed.
End LT.

(** linear_transform_test: the three results are n times the coefficients of the message in bit-reversed order, up to the bounds [lt_err] for groups of 1, 2 and 4. *)
Theorem C103_linear_transform_test : forall fuel LOGQ LOGN LD h RM rnd st st2 pos (z : Z -> CC) X K, 66 <= LOGQ <= 1525 -> 0 <= LD <= 59 -> 0 <= h -> rand_stream RM rnd -> ifft_static LOGN st -> fft_static LOGN st2 ->
  LOGN - 1 = 4 * Z.of_nat K -> 3 <= LOGN <= 17 ->
  (forall j, 0 <= j < 2 ^ (LOGN - 1) -> (modulus (z j) <= X)%R) -> (X * IZR (2 ^ LD) <= IZR (2 ^ 64) - 1)%R ->
  (IZR (2 ^ (LD + (LOGN - 1) * LD)) * lt_size (2 ^ LOGN) (2 ^ LD) h 1 (4 * K) X < IZR (2 ^ (LOGQ - 1)))%R ->
  (IZR (2 ^ (LD + (LOGN - 1) / 2 * LD)) * lt_size (2 ^ LOGN) (2 ^ LD) h 2 (2 * K) X < IZR (2 ^ (LOGQ - 1)))%R ->
  (IZR (2 ^ (LD + (LOGN - 1) / 4 * LD)) * lt_size (2 ^ LOGN) (2 ^ LD) h 4 K X < IZR (2 ^ (LOGQ - 1)))%R ->
  keygen fuel (2 ^ LOGN) rnd h (fresh (2 ^ LOGN)) pos = Diverge /\ linear_transform_test fuel LOGQ LOGN LD (LOGN - 1) h RM rnd st st2 pos (carray (K := Rops) (2 ^ (LOGN - 1)) z) = Diverge \/
  exists st' st2' pos' y1 y2 y4, linear_transform_test fuel LOGQ LOGN LD (LOGN - 1) h RM rnd st st2 pos (carray (K := Rops) (2 ^ (LOGN - 1)) z) =
    Ok (st', st2', pos', (carray (K := Rops) (2 ^ (LOGN - 1)) y1, carray (K := Rops) (2 ^ (LOGN - 1)) y2, carray (K := Rops) (2 ^ (LOGN - 1)) y4)) /\
    forall m, (forall j, 0 <= j < 2 ^ (LOGN - 1) -> slot (2 ^ LOGN) m j = z j) -> forall j r, 0 <= j < 2 ^ (LOGN - 1) -> reverses (LOGN - 1) j r ->
      let u := mk Rops (IZR (2 ^ (LOGN - 1)) * m r)%R (IZR (2 ^ (LOGN - 1)) * m (r + 2 ^ (LOGN - 1))%Z)%R : CC in
      (modulus (y1 j - u)%num <= lt_err (2 ^ LOGN) (2 ^ LD) h 1 (4 * K) X)%R /\ (modulus (y2 j - u)%num <= lt_err (2 ^ LOGN) (2 ^ LD) h 2 (2 * K) X)%R /\
      (modulus (y4 j - u)%num <= lt_err (2 ^ LOGN) (2 ^ LD) h 4 K X)%R.
Proof.
  intros fuel LOGQ LOGN LD h RM rnd st st2 pos z X K HQ HLD Hh0 Hrnd Hst Hst2 HK HL Hz HX S1 S2 S4. set (N := 2 ^ LOGN) in *. set (n := 2 ^ (LOGN - 1)) in *. assert (Hn : 0 < n) by (apply Z.pow_pos_nonneg; lia).
  assert (HN : 1 <= N) by (pose proof (pow2_pos LOGN ltac:(lia)); unfold N; lia).
  unfold linear_transform_test. cbv zeta. fold N. assert (Eq : Z.quot N 2 = n) by (apply half_quot; lia). rewrite Eq.
  rewrite (inv_tables_ok LOGN ltac:(lia)). rewrite (surjective_pairing (bwd_tables LOGN)). cbn [bind].
  destruct (C34_keygen fuel N rnd RM h (fresh N) pos HN ltac:(lia) Hrnd (repeat_length _ _)) as [E0|(s & pos1 & E0 & Hs & Hh)]; [left; rewrite E0; split; reflexivity|right].
  rewrite E0. cbn [bind]. rewrite <- norm1_count in Hh by exact Hs.
  destruct (some_m LOGN ltac:(lia) z) as [m Hm]. fold N n in Hm.
  destruct (enc_coefs LOGN LOGQ LD RM rnd s st pos1 z m X ltac:(lia) ltac:(lia) ltac:(lia) Hrnd Hs Hst Hm Hz HX) as (st1 & pt & c & ct & pos2 & m' & E1 & Hst1 & _ & E2 & Hct & HP & HB). fold N n in E1, E2, Hct, HP, HB.
  match goal with |- context [encode LOGQ LOGN st ?x ?y ?u ?v] => replace (encode LOGQ LOGN st x y u v) with (Ok (st1, pt)) by (symmetry; exact E1) end. cbn [bind]. rewrite E2. cbn [bind].
  assert (W1 : widths LOGQ) by (unfold widths; lia). assert (W2 : widths (2 * LOGQ)) by (unfold widths; lia).
  assert (D2 : (LOGN - 1) / 2 = Z.of_nat (2 * K)) by (rewrite HK; symmetry; apply (Z.div_unique _ 2 _ 0); lia).
  assert (D4 : (LOGN - 1) / 4 = Z.of_nat K) by (rewrite HK; symmetry; apply (Z.div_unique _ 4 _ 0); lia).
  assert (D1 : LOGN - 1 = Z.of_nat (4 * K)) by lia.
  rewrite D2 in S2. rewrite D4 in S4. rewrite D1 in S1.
  assert (HP' : forall i, 0 <= i < N -> (Rabs (IZR (m' i) / IZR (2 ^ LD) - m i) <= 17 / 2 / IZR (2 ^ LD))%R) by (intros i Hi; apply (HP i Hi)).
  assert (R1 := fun G K' st st2 pos => grouped_result LOGQ LOGN LD RM h rnd s W1 W2 HL HLD ltac:(lia) Hrnd Hs Hh m m' X ct Hct HP' HB G K' st st2 pos). fold N n in R1.
  destruct (R1 1%nat (4 * K)%nat st1 st2 pos2 ltac:(lia) ltac:(lia) Hst1 Hst2 S1) as (st3 & pos3 & A1 & pt1 & st23 & y1 & F1 & Hst3 & G1 & J1 & Hst23 & B1).
  destruct (R1 2%nat (2 * K)%nat st3 st23 pos3 ltac:(lia) ltac:(lia) Hst3 Hst23 S2) as (st4 & pos4 & A2 & pt2 & st24 & y2 & F2 & Hst4 & G2 & J2 & Hst24 & B2).
  destruct (R1 4%nat K%nat st4 st24 pos4 ltac:(lia) ltac:(lia) Hst4 Hst24 S4) as (st5 & pos5 & A4 & pt4 & st25 & y4 & F4 & Hst5 & G4 & J4 & Hst25 & B4).
  clear R1. change (Z.of_nat 1) with 1 in F1. change (Z.of_nat 2) with 2 in F2. change (Z.of_nat 4) with 4 in F4.
  unfold grouped_lt in F1. cbn [Z.eqb Pos.eqb] in F1. rewrite F1. cbn [bind]. rewrite F2. cbn [bind]. rewrite F4. cbn [bind].
  rewrite !(C68_new (K := Rops)) by lia. cbn [bind]. rewrite G1, G2, G4. cbn [bind].
  assert (Q2 : Z.quot (LOGN - 1) 2 = Z.of_nat (2 * K)) by (rewrite Z.quot_div_nonneg by lia; exact D2). assert (Q4 : Z.quot (LOGN - 1) 4 = Z.of_nat K) by (rewrite Z.quot_div_nonneg by lia; exact D4).
  rewrite Q2, Q4. rewrite <- D1 in J1. rewrite (int_in (LD + (LOGN - 1) * LD)) by nia. cbn [bind].
  match goal with |- context [decode_log LOGQ LOGN st2 ?x ?a ?u ?v] => replace (decode_log LOGQ LOGN st2 x a u v) with (Ok (st23, carray (K := Rops) n y1)) by (symmetry; exact J1) end. cbn [bind].
  rewrite int_in by nia. cbn [bind].
  match goal with |- context [decode_log LOGQ LOGN st23 ?x ?a ?u ?v] => replace (decode_log LOGQ LOGN st23 x a u v) with (Ok (st24, carray (K := Rops) n y2)) by (symmetry; exact J2) end. cbn [bind].
  rewrite int_in by nia. cbn [bind].
  match goal with |- context [decode_log LOGQ LOGN st24 ?x ?a ?u ?v] => replace (decode_log LOGQ LOGN st24 x a u v) with (Ok (st25, carray (K := Rops) n y4)) by (symmetry; exact J4) end. cbn [bind].
  exists st5, st25, pos5, y1, y2, y4. split; [reflexivity|]. intros p Hp j r Hj Hrev.
  assert (EQ : forall i, 0 <= i < N -> p i = m i).
  { intros i Hi. apply Rminus_diag_uniq. assert (Z0 : (Rabs (p i - m i) <= 0)%R). { apply (coef_slots LOGN (fun i => p i - m i)%R 0%R); auto; try lia. intros k Hk. fold N. fold n in Hk. rewrite slot_sub, (Hp k Hk), (Hm k Hk). replace (z k - z k)%num with (0%num : CC) by ring. rewrite modulus_0. lra. } pose proof (Rabs_pos (p i - m i)). destruct (Req_dec (p i - m i) 0) as [->|Hne]; [reflexivity|]. apply Rabs_pos_lt in Hne. lra. }
  pose proof (N2 LOGN ltac:(lia)) as HN2. fold N n in HN2. assert (Hrn : 0 <= r < n) by apply Hrev. cbv zeta. rewrite (EQ r), (EQ (r + n)) by lia. split; [apply B1; auto|]. split; [apply B2; auto|apply B4; auto].
Qed.

(** The parameters of test.h: LOGQ 1450, LOGN 9, LOGDELTA 50, H 128, a random message *)
Lemma lt_num G K : (G = 1 /\ K = 8 \/ G = 2 /\ K = 4 \/ G = 4 /\ K = 2)%nat -> (lt_size 512 (2 ^ 50) 128 G K 1 <= 257 /\ lt_err 512 (2 ^ 50) 128 G K 1 <= 1 / IZR (10 ^ 6))%R.
Proof.
  intros HI. set (E := 16 * 512 + 1 + 128). set (k := (IZR 512 * IZR E / (2 * IZR (2 ^ 50)))%R).
  assert (Hk : forall d, (0 <= switch_noise 512 (2 ^ 50) E (IZR (2 ^ 50)) d <= k)%R).
  { intros d. destruct (switch_noise_mono 512 (2 ^ 50) E E (IZR (2 ^ 50)) d 1%R) as [A1 A2]; try lra; try (unfold E; lia).
    - apply pow_R1_Rle. apply IZR_le. discriminate.
    - rewrite Rmult_1_l in A2. fold k in A2. split; [exact A1|exact A2]. }
  set (dl := row_rounding 512 (2 ^ 50) G). assert (Hd : (0 <= dl <= dl)%R).
  { split; [|apply Rle_refl]. unfold dl, row_rounding. apply Rmult_le_pos; [apply IZR_le, Z.pow_nonneg; lia|]. change (2 ^ 50) with 1125899906842624. lra. }
  set (z0 := start_size 512 (2 ^ 50) 1). assert (Hz : (0 <= z0 <= z0)%R) by (unfold z0, start_size; change (2 ^ 50) with 1125899906842624; lra).
  assert (Ha : forall d : nat, (0 <= 2 ^ G <= 2 ^ G)%R) by (intros _; split; [apply pow_le; lra|lra]).
  destruct (size_error_mono (fun _ => 2 ^ G)%R (fun _ => 2 ^ G)%R _ _ _ _ _ (fun _ => k) K Ha Hd Hz Hk) as [[_ H1] [_ H2]]. unfold lt_size, lt_err. fold E dl z0.
  split; [eapply Rle_trans; [exact H1|]|eapply Rle_trans; [apply Rplus_le_compat_r; exact H2|]]; clear -HI; unfold k, dl, z0, E, row_rounding, start_size;
    change (2 ^ 50) with 1125899906842624; change (16 * 512 + 1 + 128) with 8321; change (10 ^ 6) with 1000000;
    destruct HI as [[-> ->]|[[-> ->]|[-> ->]]]; cbn [error_after size_after pow]; change (3 ^ Z.of_nat 1) with 3; change (3 ^ Z.of_nat 2) with 9; change (3 ^ Z.of_nat 4) with 81; lra.
Qed.
Theorem C103_linear_transform_parameters : forall fuel RM rnd st st2 pos z, rand_stream RM rnd -> ifft_static 9 st -> fft_static 9 st2 -> random_message 256 z ->
  keygen fuel 512 rnd 128 (fresh 512) pos = Diverge /\ linear_transform_test fuel 1450 9 50 8 128 RM rnd st st2 pos (carray (K := Rops) 256 z) = Diverge \/
  exists st' st2' pos' y1 y2 y4, linear_transform_test fuel 1450 9 50 8 128 RM rnd st st2 pos (carray (K := Rops) 256 z) =
    Ok (st', st2', pos', (carray (K := Rops) 256 y1, carray (K := Rops) 256 y2, carray (K := Rops) 256 y4)) /\
    forall m, (forall j, 0 <= j < 256 -> slot 512 m j = z j) -> forall j r, 0 <= j < 256 -> reverses 8 j r ->
      let u := mk Rops (256 * m r)%R (256 * m (r + 256)%Z)%R : CC in
      (modulus (y1 j - u)%num <= 1 / IZR (10 ^ 6))%R /\ (modulus (y2 j - u)%num <= 1 / IZR (10 ^ 6))%R /\ (modulus (y4 j - u)%num <= 1 / IZR (10 ^ 6))%R.
Proof.
  intros fuel RM rnd st st2 pos z Hr Hst Hst2 Hz.
  destruct (lt_num 1 8 ltac:(lia)) as [A1 B1]. destruct (lt_num 2 4 ltac:(lia)) as [A2 B2]. destruct (lt_num 4 2 ltac:(lia)) as [A4 B4].
  assert (HS : forall sc x, 0 <= sc <= 450 -> (x <= 257)%R -> (IZR (2 ^ sc) * x < IZR (2 ^ (1450 - 1)))%R).
  { intros sc x Hsc Hx. apply Rle_lt_trans with (IZR (2 ^ 450) * 257)%R; [|rewrite <- mult_IZR; apply IZR_lt; vm_compute; reflexivity].
    assert (0 < IZR (2 ^ sc) <= IZR (2 ^ 450))%R by (split; [apply IZR_lt, Z.pow_pos_nonneg; lia|apply IZR_le, Z.pow_le_mono_r; lia]). apply Rle_trans with (IZR (2 ^ sc) * 257)%R; [apply Rmult_le_compat_l; lra|apply Rmult_le_compat_r; lra]. }
  destruct (C103_linear_transform_test fuel 1450 9 50 128 RM rnd st st2 pos z 1%R 2 ltac:(lia) ltac:(lia) ltac:(lia) Hr Hst Hst2 eq_refl ltac:(lia) (random_message_modulus _ _ Hz)) as [[E1 E2]|(st' & st2' & pos' & y1 & y2 & y4 & E & H)].
  { rewrite Rmult_1_l. change (IZR (2 ^ 64) - 1)%R with (IZR (2 ^ 64) - IZR 1)%R. rewrite <- minus_IZR. apply IZR_le. vm_compute. discriminate. }
  { apply HS; [lia|exact A1]. } { apply HS; [vm_compute; split; discriminate|exact A2]. } { apply HS; [vm_compute; split; discriminate|exact A4]. }
  - left. split; [exact E1|exact E2].
  - right. exists st', st2', pos', y1, y2, y4. split; [exact E|]. intros m Hm j r Hj Hrev. destruct (H m Hm j r Hj Hrev) as (H1 & H2 & H4). cbv zeta in H1, H2, H4.
    split; [|split]; (eapply Rle_trans; [eassumption|assumption]).
Qed.
(** The hypotheses hold of a message with parts 1/2 and -1/2, of the tables before the first call, and of a counter as random numbers; the stages of [C103_element_test] exist for LOGN = 9 *)
Example C103_case : 3 <= 9 <= 17 /\ ifft_static 9 None /\ fft_static 9 None /\ random_message 256 (fun _ => (/ 2, - / 2)%R) /\ rand_stream (2 ^ 31 - 1) counting.
Proof. split; [lia|]. apply C102_case. Qed.
