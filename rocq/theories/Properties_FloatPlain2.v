(** C132: what theorem_single_matmul_error.cpp prints, in floating-point arithmetic. *)
From Coq Require Import ZArith List Bool Lia Reals Lra Ring.
From Verif Require Import Base BaseFacts Sums ZQ ZQFacts ZQFacts2 RQ RQFacts Conv Rot Util GSum Core CoreFacts Matrix MatrixFacts MatMulFacts
  DFT DFTTheory DFTFacts FFTFacts SpecZQ SpecPoly SpecPolyFacts SpecScheme ConvFacts SpecMat Properties_Mat Properties_Msg SpecDFT Properties_DFT SpecEnc Properties_Core Properties_Rot Properties_Conv
  GroupFacts SlotFacts Encode EncodeFacts Plain BootFacts Properties_Enc Properties_Plain SpecLin LinTrans LinTransFacts LinSlots GroupSlots SpecBoot BootSlots PlainFacts SpecStat StatFacts Section3 Properties_Stat Properties_MatErr Properties_Serial
  Properties_Lin Properties_Boot Poly EvalMod SpecMod EvalModFacts PiBound EvalModBound Properties_EvalMod SpecPipe Pipeline PipeFacts Properties_Pipe Bootstrap SpecEval EvalFacts Section4 SupFacts MeasFacts Measure UtilFacts Properties_ZQ CtsMeasure CtsProps Messages SupRatio TestProg TestLayers EmTest TestLinT TestBoot TestBootP.
From Verif Require Import Float SpecFloat FloatNum Binary64 Properties_Float SpecFloatLin FloatLin FloatSerial FloatGrouped SpecFloatBoot FloatBoot FloatBootSlots FloatBootNum Properties_FloatLin FloatMod SpecFloatMod FloatModFacts FloatModBound Properties_FloatMod.
From Verif Require Import FloatDot FloatMsg Properties_FloatMsg Properties_FloatMsg2 FloatDirect Properties_FloatDFT Properties_FloatDFT2 FloatSetup Properties_FloatSetup FloatTestBoot Properties_FloatTestBoot.
From Verif Require Import FloatSimple Properties_FloatSimple FloatTests Properties_FloatTests FloatEnc2.
From Verif Require Import Properties_FloatTests2 SpecFloatMsg.
From Verif Require FloatMsgFacts.
From Verif Require Import FloatPlain Properties_FloatPlain.
Import ListNotations.
Open Scope Z_scope.
Add Ring RCfsp : HR.

(** What a slot of the error may be: the errors of encoding the vector and the diagonals, of decoding and of the sums of the exact product *)
Definition matmul_error (LOGN Diag Delta : Z) : R :=
  let eta := matmul_eta LOGN Delta in
  (IZR Diag * (2 * eta + eta * eta) + powerRZ 2 (-42) * (IZR (2 ^ LOGN) * (IZR Diag * ((1 + eta) * (1 + eta)))) + powerRZ 2 (-50) * (IZR Diag * IZR Diag))%R.

(** The part of it not due to the rounding of the two encodings *)
Definition matmul_noise (LOGN Diag Delta : Z) : R :=
  let eta := matmul_eta LOGN Delta in (powerRZ 2 (-42) * (IZR (2 ^ LOGN) * (IZR Diag * ((1 + eta) * (1 + eta)))) + powerRZ 2 (-50) * (IZR Diag * IZR Diag))%R.

(** Norms of vectors close to each other *)
Lemma norm_near n (x y : Z -> CC) d : 0 <= n -> (0 <= d)%R -> (forall j, 0 <= j < n -> (modulus (x j - y j)%num <= d)%R) -> (Rabs (sqrt (energy n x) - sqrt (energy n y)) <= sqrt (IZR n) * d)%R.
Proof.
  intros Hn Hd H. assert (NR : (0 <= IZR n)%R) by (apply IZR_le; lia).
  assert (K : forall x y : Z -> CC, (forall j, 0 <= j < n -> (modulus (x j - y j)%num <= d)%R) -> (sqrt (energy n x) <= sqrt (energy n y) + sqrt (IZR n) * d)%R).
  { clear x y H. intros x y H. pose proof (sqrt_pos (energy n y)) as S0. pose proof (sqrt_pos (IZR n)) as S1. assert (SD : (0 <= sqrt (IZR n) * d)%R) by (apply Rmult_le_pos; auto).
    assert (EY : (0 <= energy n y)%R) by (unfold energy; apply rsum_nonneg; [lia|]; intros; apply Rmult_le_pos; apply modulus_nonneg).
    rewrite <- (sqrt_square (sqrt (energy n y) + sqrt (IZR n) * d)) by lra. apply sqrt_le_1_alt.
    set (T := rsum n (fun j => modulus (y j))). assert (T0 : (0 <= T)%R) by (apply rsum_nonneg; [lia|]; intros; apply modulus_nonneg).
    assert (C : (T <= sqrt (IZR n) * sqrt (energy n y))%R).
    { rewrite <- sqrt_mult_alt by exact NR. rewrite <- (sqrt_square T) by exact T0. apply sqrt_le_1_alt. unfold T, energy. apply cauchy. lia. }
    apply Rle_trans with (energy n y + 2 * d * T + IZR n * (d * d))%R.
    - unfold energy, T. rewrite <- rsum_scale, <- (rsum_const n (d * d)%R) by lia. rewrite <- !rsum_add. apply rsum_le. intros j Hj. specialize (H j Hj). pose proof (LinSlots.modulus_near (x j) (y j)) as M. pose proof (modulus_nonneg (x j)). pose proof (modulus_nonneg (y j)).
      apply Rle_trans with ((modulus (y j) + d) * (modulus (y j) + d))%R; [apply Rmult_le_compat; lra|right; ring].
    - replace ((sqrt (energy n y) + sqrt (IZR n) * d) * (sqrt (energy n y) + sqrt (IZR n) * d))%R with (sqrt (energy n y) * sqrt (energy n y) + 2 * d * (sqrt (IZR n) * sqrt (energy n y)) + sqrt (IZR n) * sqrt (IZR n) * (d * d))%R by ring.
      rewrite !sqrt_sqrt by lra. assert (2 * d * T <= 2 * d * (sqrt (IZR n) * sqrt (energy n y)))%R by (apply Rmult_le_compat_l; lra). lra. }
  pose proof (K x y H) as K1. pose proof (K y x) as K2. cbv beta in K2. apply Rabs_le. split; [|lra]. enough (sqrt (energy n y) <= sqrt (energy n x) + sqrt (IZR n) * d)%R by lra. apply K2. intros j Hj.
  replace (y j - x j)%num with (- (x j - y j))%num by ring. rewrite modulus_opp. auto.
Qed.

Lemma expected_num (x Zn D r q p D' X u e t : R) : (0 < x <= 32768)%R -> (0 <= Zn <= 512)%R -> (1 <= D)%R -> (0 <= u <= / 1000000000000)%R -> (0 <= e <= t)%R -> (t <= / 1000000000000)%R ->
  (Rabs (r - x) <= / 1000000000000 * x)%R -> (Rabs (q - Zn) <= / 10000000000 * Zn + t)%R -> (Rabs (p - r * q) <= u * Rabs (r * q) + e)%R -> (Rabs (D' - D) <= / 1000000000000 * D)%R ->
  (Rabs (X - p / D') <= u * Rabs (p / D') + e)%R -> (Rabs (X - x * Zn / D) <= / 1000000000 * (x * Zn / D) + 1000000 * t)%R.
Proof.
  intros Hx HZ HD Hu He Ht Hr Hq Hp HD' HX.
  assert (XZ : (0 <= x * Zn)%R) by (apply Rmult_le_pos; lra). assert (XT : (0 <= x * t <= 32768 * t)%R) by (split; [apply Rmult_le_pos; lra|apply Rmult_le_compat_r; lra]).
  assert (RX : (Rabs (r * q - x * Zn) <= / 5000000000 * (x * Zn) + 40000 * t)%R).
  { replace (r * q - x * Zn)%R with ((r - x) * q + x * (q - Zn))%R by ring. eapply Rle_trans; [apply Rabs_triang|]. rewrite !Rabs_mult, (Rabs_right x) by lra.
    assert (Q : (Rabs q <= 2 * Zn + t)%R) by (apply abs_inv in Hq; apply Rabs_le; lra).
    assert (Rabs (r - x) * Rabs q <= / 1000000000000 * x * (2 * Zn + t))%R by (apply Rmult_le_compat; try apply Rabs_pos; lra).
    assert (x * Rabs (q - Zn) <= x * (/ 10000000000 * Zn + t))%R by (apply Rmult_le_compat_l; lra). lra. }
  assert (PX : (Rabs (p - x * Zn) <= / 4000000000 * (x * Zn) + 50000 * t)%R).
  { apply abs_inv in RX. assert (A : (Rabs (r * q) <= 2 * (x * Zn) + 40000 * t)%R) by (apply Rabs_le; lra). assert (u * Rabs (r * q) <= / 1000000000000 * (2 * (x * Zn) + 40000 * t))%R by (apply Rmult_le_compat; try lra; apply Rabs_pos).
    apply abs_inv in Hp. apply Rabs_le. lra. }
  apply abs_inv in HD'. assert (DP : (0 < D')%R) by lra. set (w := (x * Zn / D)%R) in *. assert (Ew : (x * Zn = w * D)%R) by (unfold w; field; lra). rewrite Ew in *. clearbody w.
  assert (W0 : (0 <= w)%R) by (apply (Rmult_le_reg_r D); lra). set (v := (p / D')%R) in *. assert (Ev : (p = v * D')%R) by (unfold v; field; lra). rewrite Ev in *. clearbody v.
  assert (V : (Rabs (v - w) <= / 2000000000 * w + 60000 * t)%R).
  { apply (Rmult_le_reg_r D'); [exact DP|]. rewrite <- (Rabs_right D') at 1 by lra. rewrite <- Rabs_mult. replace ((v - w) * D')%R with ((v * D' - w * D) + w * (D - D'))%R by ring. eapply Rle_trans; [apply Rabs_triang|].
    rewrite (Rabs_mult w), (Rabs_right w) by lra. assert (Rabs (D - D') <= / 1000000000000 * D)%R by (apply Rabs_le; lra). assert (w * Rabs (D - D') <= w * (/ 1000000000000 * D))%R by (apply Rmult_le_compat_l; lra).
    assert (w * D <= w * ((1 + / 100000000000) * D'))%R by (apply Rmult_le_compat_l; lra). assert (t <= t * ((1 + / 100000000000) * D'))%R by (rewrite <- (Rmult_1_r t) at 1; apply Rmult_le_compat_l; lra).
    assert (0 <= w * D')%R by (apply Rmult_le_pos; lra). lra. }
  assert (A : (Rabs v <= 2 * w + 60000 * t)%R) by (apply abs_inv in V; apply Rabs_le; lra). assert (u * Rabs v <= / 1000000000000 * (2 * w + 60000 * t))%R by (apply Rmult_le_compat; try lra; apply Rabs_pos).
  apply abs_inv in HX, V. apply Rabs_le. lra.
Qed.

Lemma sum_up (M1 M2 M3 S Dg N eta a b t : R) : (M1 <= Dg * (b * Dg) + t)%R -> (M2 <= Dg * eta)%R -> (M3 <= eta * S + a * (N * (Dg * ((1 + eta) * (1 + eta)))) + t)%R -> (eta * S <= eta * (Dg * (1 + eta)))%R ->
  (M1 + (M2 + M3) <= Dg * (2 * eta + eta * eta) + a * (N * (Dg * ((1 + eta) * (1 + eta)))) + b * (Dg * Dg) + 2 * t)%R.
Proof. intros. replace (Dg * (2 * eta + eta * eta))%R with (Dg * eta + eta * (Dg * (1 + eta)))%R by ring. lra. Qed.

Lemma noise_up (M1 M2 M3 M0 E0 Dg N eta a b t u e : R) : (M1 <= 3 / 2 * (u * M0 + e))%R -> (M2 <= Dg * (b * Dg) + t)%R -> (M3 <= a * (N * (Dg * ((1 + eta) * (1 + eta)))) + t)%R -> (M0 <= E0 + 2 * t)%R -> (u * M0 <= / 9007199254740992 * M0)%R ->
  (/ 1125899906842624 <= E0)%R -> (e <= / 1000000000000000000000000000000)%R -> (t <= / 1000000000000000000000000000000)%R ->
  (M1 + (M2 + M3) <= a * (N * (Dg * ((1 + eta) * (1 + eta)))) + b * (Dg * Dg) + / 100000000000 * E0)%R.
Proof. intros. replace (b * (Dg * Dg))%R with (Dg * (b * Dg))%R by ring. lra. Qed.
Lemma error_size (Dg N eta a b : R) : (1 <= Dg <= 8192)%R -> (4 <= N <= 131072)%R -> (0 <= eta)%R -> (eta <= N)%R -> (0 < a <= 1)%R -> (b = / 1125899906842624)%R ->
  (/ 1125899906842624 <= Dg * (2 * eta + eta * eta) + a * (N * (Dg * ((1 + eta) * (1 + eta)))) + b * (Dg * Dg) <= powerRZ 2 200)%R.
Proof.
  intros HD HN H0 H1 Ha ->. assert (EE : (0 <= eta * eta <= 131072 * 131072)%R) by (split; [apply Rmult_le_pos; lra|apply Rmult_le_compat; lra]).
  assert (D1 : (0 <= Dg * (2 * eta + eta * eta) <= 8192 * (2 * 131072 + 131072 * 131072))%R) by (split; [apply Rmult_le_pos; lra|apply Rmult_le_compat; lra]).
  assert (F1 : (0 <= (1 + eta) * (1 + eta) <= 131073 * 131073)%R) by (split; [apply Rmult_le_pos; lra|apply Rmult_le_compat; lra]).
  assert (F2 : (0 <= Dg * ((1 + eta) * (1 + eta)) <= 8192 * (131073 * 131073))%R) by (split; [apply Rmult_le_pos; lra|apply Rmult_le_compat; lra]).
  assert (F3 : (0 <= N * (Dg * ((1 + eta) * (1 + eta))) <= 131072 * (8192 * (131073 * 131073)))%R) by (split; [apply Rmult_le_pos; lra|apply Rmult_le_compat; lra]).
  assert (F4 : (0 <= a * (N * (Dg * ((1 + eta) * (1 + eta)))) <= 1 * (131072 * (8192 * (131073 * 131073))))%R) by (split; [apply Rmult_le_pos; lra|apply Rmult_le_compat; lra]).
  assert (F5 : (1 * 1 <= Dg * Dg <= 8192 * 8192)%R) by (split; apply Rmult_le_compat; lra).
  split; [lra|]. apply Rle_trans with (powerRZ 2 100); [|apply p2_le; lia]. rewrite powerRZ_2 by lia. apply Rle_trans with (IZR 100000000000000000000000000); [lra|]. apply IZR_le. vm_compute. discriminate.
Qed.

Section Run.
Context (F : fpu) (HF : double F) (LOGQ LOGN : Z) (HQ : widths LOGQ) (HQ2 : LOGQ <= 2048) (HL : 2 <= LOGN <= 17).
Local Notation N := (2 ^ LOGN).
Local Notation n := (2 ^ (LOGN - 1)).

Theorem C132_single_matmul Diag d st st2 (z : Z -> CC) (A : Z -> Z -> CC) (m : Z -> R) (v : Z -> Z -> R) : keeps_sign (rnd F) -> 0 <= d <= 63 -> 1 <= Diag <= 2 ^ 13 ->
  Diag * (N * (4 * 2 ^ d * 2 ^ d)) < 2 ^ (LOGQ - 1) -> f_ifft_static F LOGN st -> f_fft_static F LOGN st2 ->
  (forall j, 0 <= j < n -> (modulus (z j) <= 1)%R) -> (forall k j, 0 <= k < Diag -> 0 <= j < n -> (modulus (A k j) <= 1)%R) ->
  (forall j, 0 <= j < n -> slot N m j = z j) -> (forall k j, 0 <= k < Diag -> 0 <= j < n -> slot N (v k) j = A k j) ->
  exists st' st2' expected measured,
    f_single_matmul_error F LOGQ LOGN Diag (2 ^ d) d st st2 (carray (K := Rops) n z) (map (fun k => carray (K := Rops) n (A k)) (range Diag)) = Ok (st', st2', (expected, measured)) /\
    f_ifft_static F LOGN st' /\ f_fft_static F LOGN st2' /\
    (let x := (sqrt (IZR (Diag * N) / 12) * sqrt (energy n z) / IZR (2 ^ d))%R in Rabs (expected - x) <= / 1000000000 * x + powerRZ 2 (-450))%R /\
    (exists (p : Z -> Z) (c : Z -> Z -> Z), (forall i, 0 <= i < N -> (Rabs (IZR (p i) - m i * IZR (2 ^ d)) <= / 2 + enc_rho (2 ^ d))%R) /\
      (forall k i, 0 <= k < Diag -> 0 <= i < N -> (Rabs (IZR (c k i) - v k i * IZR (2 ^ d)) <= / 2 + enc_rho (2 ^ d))%R) /\
      (Rabs (measured - sqrt (energy n (fun j => apply n (matrix_of n Diag A (fun k => k)) z j - gsum Diag (fun k => slots N (IZR (2 ^ d)) (c k) j * slots N (IZR (2 ^ d)) p ((j + k) mod n)))%num))
        <= sqrt (IZR n) * (matmul_noise LOGN Diag (2 ^ d) + / 1000000000 * matmul_error LOGN Diag (2 ^ d)))%R) /\
    (0 <= measured <= (1 + / 1000000000) * (sqrt (IZR n) * matmul_error LOGN Diag (2 ^ d)))%R.
Proof.
  intros Hks Hd HDg Hsz Hst Hst2 Hz HA Hm Hv. assert (HQ1 : 1 <= LOGQ) by (unfold widths in HQ; lia).
  assert (HN17 : 4 <= N <= 2 ^ 17) by (split; [change 4 with (2 ^ 2)|]; apply Z.pow_le_mono_r; lia). assert (NR : (4 <= IZR N <= 131072)%R) by (split; apply IZR_le; lia).
  assert (Hn : 2 <= n <= 2 ^ 16) by (split; [change 2 with (2 ^ 1) at 1|]; apply Z.pow_le_mono_r; lia). assert (nR : (2 <= IZR n <= 65536)%R) by (split; apply IZR_le; lia).
  assert (Eq : Z.quot N 2 = n) by (apply half_quot; lia). set (D := 2 ^ d) in *.
  assert (HD : 0 < D <= 2 ^ 63) by (split; [apply Z.pow_pos_nonneg; lia|apply Z.pow_le_mono_r; lia]). assert (HDR : (1 <= IZR D <= IZR (2 ^ 63))%R) by (split; apply IZR_le; lia).
  assert (DgR : (1 <= IZR Diag <= 8192)%R) by (split; apply IZR_le; lia).
  pose proof u_small as Hu. pose proof u_pos as Hu0. pose proof eta_pos as He. pose proof (rho_small D HD) as RS. pose proof (eta_nonneg LOGN HL D ltac:(lia)) as HEt. pose proof (eta_le LOGN HL D HD) as HEl.
  set (eta := matmul_eta LOGN D) in *.
  unfold f_single_matmul_error. cbv zeta. rewrite Eq.
  assert (DIN : 4 <= Diag * N <= 2 ^ 30) by (change (2 ^ 30) with (2 ^ 13 * 2 ^ 17); nia). assert (DNR : (4 <= IZR (Diag * N) <= 1073741824)%R) by (split; apply IZR_le; lia).
  assert (SZ : 8 * D < 2 ^ (LOGQ - 1)). { assert (D <= D * D) by nia. assert (4 * (4 * D * D) <= N * (4 * D * D)) by nia. assert (N * (4 * D * D) <= Diag * (N * (4 * D * D))) by nia. nia. }
  assert (D64 : (IZR D <= IZR (2 ^ 63))%R) by lra.
  destruct (C83_encode_double F HF LOGQ LOGN ltac:(lia) HL D st z m 1%R (rq_new LOGQ N) ltac:(assert (2 ^ 63 < 2 ^ 64) by (apply Z.pow_lt_mono_r; lia); lia) Hst ltac:(apply objP_object; try lia; apply objP_new) ltac:(lra) Hz Hm) as (st1 & pt & c & E1 & Hst1 & Hc & Hc2).
  { unfold enc_rho in RS. pose proof (p2_pos (-900)). change (2 ^ 64) with (2 * 2 ^ 63). rewrite mult_IZR. assert (1000 <= IZR (2 ^ 63))%R by (apply IZR_le; vm_compute; discriminate). lra. }
  { unfold enc_rho in RS. pose proof (p2_pos (-900)). replace LOGQ with (1 + (LOGQ - 1)) by lia. rewrite Z.pow_add_r by lia. change (2 ^ 1) with 2. rewrite mult_IZR. apply IZR_lt in SZ. rewrite mult_IZR in SZ. lra. }
  match goal with |- context [f_encode F LOGQ LOGN st ?x ?y D ?q] => replace (f_encode F LOGQ LOGN st x y D q) with (Ok (st1, pt)) by (symmetry; exact E1) end. cbn [bind].
  rewrite int_in by lia. cbn [bind].
  assert (HC2 : forall i, 0 <= i < N -> (Rabs (IZR (c i) - m i * IZR D) <= / 2 + enc_rho D)%R) by (intros i Hi; specialize (Hc2 i Hi); rewrite Rmult_1_l in Hc2; unfold enc_rho; lra).
  pose proof (fun j Hj => f_rounded_error LOGQ LOGN HL D HD c m j Hj HC2) as SE. cbv beta in SE. fold eta in SE.
  assert (SZ1 : forall j, 0 <= j < n -> (modulus (slots N (IZR D) c j - z j)%num <= eta)%R) by (intros j Hj; rewrite <- (Hm j Hj); apply SE; exact Hj).
  assert (SB : forall j, 0 <= j < n -> (modulus (slots N (IZR D) c j) <= 1 + eta)%R) by (intros j Hj; eapply Rle_trans; [apply (LinSlots.modulus_near _ (z j))|]; specialize (Hz j Hj); specialize (SZ1 j Hj); lra).
  assert (CB : forall i, 0 <= i < N -> Z.abs (c i) <= 2 * D).
  { intros i Hi. specialize (HC2 i Hi). assert (MB : (Rabs (m i) <= 1)%R) by (apply (coef_slots LOGN m 1 ltac:(lia)); auto; intros j Hj; rewrite Hm by auto; auto).
    assert (MD : (Rabs (m i * IZR D) <= IZR D)%R) by (rewrite Rabs_mult, (Rabs_right (IZR D)) by lra; rewrite <- (Rmult_1_l (IZR D)) at 2; apply Rmult_le_compat_r; lra).
    apply abs_inv in HC2, MD. apply Z.abs_le. split; apply le_IZR; rewrite ?opp_IZR, ?mult_IZR; lra. }
  (* expected *)
  assert (TB : (powerRZ 2 1000 <= top64)%R) by (apply p2_le; lia).
  assert (BIG : (2000000000 <= powerRZ 2 100)%R). { rewrite powerRZ_2 by lia. apply IZR_le. vm_compute. discriminate. }
  unfold f_div at 1. destruct (Req_EM_T 12 0) as [Q|_]; [lra|]. cbn [bind]. set (d0 := rnd F (IZR (Diag * N) / 12)).
  assert (Hd0 : (Rabs (d0 - IZR (Diag * N) / 12) <= u64 * (IZR (Diag * N) / 12) + eta64)%R).
  { pose proof (ar_rnd _ _ _ _ _ _ _ _ HF (IZR (Diag * N) / 12)%R) as R0. rewrite (Rabs_right (IZR (Diag * N) / 12)) in R0 by lra. apply R0. pose proof (p2_le 100 1000 ltac:(lia)). lra. }
  set (x := sqrt (IZR (Diag * N) / 12)). assert (Hx : (/ 2 <= x <= 32768)%R).
  { unfold x. split; [rewrite <- (sqrt_square (/ 2)) by lra|rewrite <- (sqrt_square 32768) by lra]; apply sqrt_le_1_alt; lra. }
  destruct (FloatMsgFacts.f_sqrt_err F u64 eta64 top64 t64 HF d0 (IZR (Diag * N) / 12)%R 1%R 1%R 1%R) as (r & E2 & Hr); try lra.
  { apply Hks. lra. }
  { fold x. pose proof (p2_le 100 1000 ltac:(lia)). lra. }
  { pose proof (p2_le 100 1000 ltac:(lia)). lra. }
  fold x in Hr. rewrite E2. cbn [bind].
  assert (T12 : (powerRZ 2 (-500) <= / 1000000000000000000000000000000)%R).
  { apply Rle_trans with (powerRZ 2 (-120)); [apply p2_le; lia|]. change (powerRZ 2 (-120)) with (/ 2 ^ 120)%R. apply Rinv_le_contravar; [lra|]. rewrite pow_IZR. apply IZR_le. vm_compute. discriminate. }
  assert (RX : (Rabs (r - x) <= / 1000000000000 * x)%R).
  { pose proof (sqrt_eta 1 ltac:(lia)) as SQ. eapply Rle_trans; [exact Hr|]. assert (8 * 1 * u64 * x <= 8 * 1 * / 9007199254740992 * x)%R by (apply Rmult_le_compat_r; lra). lra. }
  assert (EN : (0 <= energy n z <= IZR n)%R).
  { unfold energy. split; [apply rsum_nonneg; [lia|]; intros; apply Rmult_le_pos; apply modulus_nonneg|]. rewrite <- (Rmult_1_r (IZR n)). rewrite <- (rsum_const n 1%R) by lia. apply rsum_le. intros j Hj. specialize (Hz j Hj). pose proof (modulus_nonneg (z j)). rewrite <- (Rmult_1_l 1). apply Rmult_le_compat; lra. }
  set (Zn := sqrt (energy n z)). assert (HZn : (0 <= Zn <= 256)%R). { unfold Zn. split; [apply sqrt_pos|]. rewrite <- (sqrt_square 256) by lra. apply sqrt_le_1_alt. lra. }
  destruct (C118_norm_double F HF n z 1%R Hks ltac:(lia) ltac:(split; [lra|apply (p2_le 0); lia]) Hz) as (q & E3 & Hq). change (gsum (K := Rops) n (fun i => modulus (z i) * modulus (z i))%R) with (energy n z) in Hq. fold Zn in Hq.
  match goal with |- context [f_norm F n ?w] => replace (f_norm F n w) with (Ok q) by (symmetry; exact E3) end. cbn [bind].
  assert (P50 : powerRZ 2 (-50) = (/ 1125899906842624)%R) by (change (powerRZ 2 (-50)) with (/ 2 ^ 50)%R; f_equal; rewrite pow_IZR; apply f_equal; vm_compute; reflexivity).
  assert (QZ : (Rabs (q - Zn) <= / 10000000000 * Zn + powerRZ 2 (-500))%R).
  { eapply Rle_trans; [exact Hq|]. apply Rplus_le_compat_r. rewrite P50. rewrite <- Rmult_assoc. apply Rmult_le_compat_r; [lra|]. lra. }
  assert (ET : (eta64 <= powerRZ 2 (-500))%R) by (apply p2_le; lia).
  assert (RB : (Rabs r <= 65536)%R) by (apply abs_inv in RX; apply Rabs_le; lra). assert (QB : (Rabs q <= 512)%R) by (apply abs_inv in QZ; apply Rabs_le; lra).
  assert (RQ : (Rabs (r * q) <= 33554432)%R). { rewrite Rabs_mult. apply Rle_trans with (65536 * 512)%R; [apply Rmult_le_compat; auto using Rabs_pos|lra]. }
  set (pq := rnd F (r * q)). assert (Hpq : (Rabs (pq - r * q) <= u64 * Rabs (r * q) + eta64)%R). { apply (ar_rnd _ _ _ _ _ _ _ _ HF). pose proof (p2_le 100 1000 ltac:(lia)). lra. }
  assert (P63 : (IZR (2 ^ 63) <= powerRZ 2 100)%R) by (rewrite <- powerRZ_2 by lia; apply p2_le; lia).
  set (D' := rnd F (IZR D)). assert (HD' : (Rabs (D' - IZR D) <= / 1000000000000 * IZR D)%R).
  { pose proof (ar_rnd _ _ _ _ _ _ _ _ HF (IZR D)) as R0. rewrite (Rabs_right (IZR D)) in R0 by lra. eapply Rle_trans; [apply R0; pose proof (p2_le 100 1000 ltac:(lia)); lra|].
    assert (u64 * IZR D <= / 9007199254740992 * IZR D)%R by (apply Rmult_le_compat_r; lra). lra. }
  pose proof HD' as HD2. apply abs_inv in HD2. unfold f_div at 1. destruct (Req_EM_T D' 0) as [Q|_]; [exfalso; lra|]. cbn [bind]. set (X := rnd F (pq / D')).
  assert (PD : (Rabs (pq / D') <= powerRZ 2 1000)%R).
  { unfold Rdiv. rewrite Rabs_mult. assert (I : (Rabs (/ D') <= 2)%R). { rewrite Rabs_right by (apply Rle_ge, Rlt_le, Rinv_0_lt_compat; lra). rewrite <- (Rinv_inv 2). apply Rinv_le_contravar; lra. }
    assert (PB : (Rabs pq <= 100000000)%R). { assert (u64 * Rabs (r * q) <= 1 * 33554432)%R by (apply Rmult_le_compat; try lra; apply Rabs_pos). apply abs_inv in Hpq, RQ. apply Rabs_le. lra. }
    apply Rle_trans with (100000000 * 2)%R; [apply Rmult_le_compat; auto using Rabs_pos|]. pose proof (p2_le 100 1000 ltac:(lia)). lra. }
  assert (HX : (Rabs (X - pq / D') <= u64 * Rabs (pq / D') + eta64)%R) by (apply (ar_rnd _ _ _ _ _ _ _ _ HF); lra).
  pose proof (expected_num x Zn (IZR D) r q pq D' X u64 eta64 (powerRZ 2 (-500)) ltac:(lra) ltac:(lra) ltac:(lra) ltac:(lra) ltac:(lra) ltac:(lra) RX QZ Hpq HD' HX) as EXP.
  (* measured *)
  rewrite !(C68_new (K := Rops)) by lia. cbn [bind]. pose proof (carray_of_carray n (fun _ => 0%num)) as CC0.
  assert (IDX : forall j k, 0 <= (j + k) mod n < n) by (intros; apply Z.mod_pos_bound; lia).
  destruct (C119_mvp_dense F u64 eta64 top64 t64 HF n Diag z A (carray (K := Rops) n (fun _ => 0%num)) (IZR Diag) ltac:(lia) ltac:(lia) ltac:(apply Rle_trans with (8192 * / 9007199254740992)%R; [apply Rmult_le_compat; lra|lra]) CC0) as (Az & E4 & HAz).
  { intros i Hi. rewrite <- (Rmult_1_r (IZR Diag)). apply Properties_FloatDFT.gsum_const_le; [lia|]. intros k Hk. rewrite <- (Rmult_1_l 1). apply Rmult_le_compat; try apply modulus_nonneg; [apply HA; auto|apply Hz, IDX]. }
  { pose proof (p2_le 100 1000 ltac:(lia)). lra. }
  match goal with |- context [msg_mvp_dense (K := Fops F) n Diag ?w ?l ?o] => replace (msg_mvp_dense (K := Fops F) n Diag w l o) with (Ok (carray (K := Rops) n Az)) by (symmetry; exact E4) end. cbn [bind].
  destruct CC0 as [Ca Cb].
  destruct (C132_mvp F HF LOGQ LOGN HQ HQ2 HL Diag d d (2 * D) (1 + eta)%R A v pt c st1 st2 (rq_new LOGQ N) (fst (carray (K := Rops) n (fun _ => 0%num))) (snd (carray (K := Rops) n (fun _ => 0%num))) Hd ltac:(change (2 ^ 20) with 1048576; lia) ltac:(lia) ltac:(lia)) as (st3 & Qp & st4 & z' & E5 & Hst3 & E6 & Hst4 & (ck & Hck & Hnk) & Hz'); auto.
  { fold D. replace (2 * D * (2 * D)) with (4 * D * D) by ring. exact Hsz. }
  { split; [lra|]. pose proof (p2_le 100 500 ltac:(lia)). lra. }
  { apply objP_object; try lia. apply objP_new. }
  fold D in E5, E6, Hz', Hck, Hnk. fold eta in Hz', Hnk.
  match goal with |- context [f_pt_mvp F LOGQ LOGN Diag st1 pt ?l D ?o] => replace (f_pt_mvp F LOGQ LOGN Diag st1 pt l D o) with (Ok (st3, Qp)) by (symmetry; exact E5) end. cbn [bind].
  rewrite int_in by lia. cbn [bind]. replace (2 * d) with (d + d) by ring.
  match goal with |- context [f_decode_log F LOGQ LOGN st2 Qp (d + d) ?a ?b] => replace (f_decode_log F LOGQ LOGN st2 Qp (d + d) a b) with (Ok (st4, carray (K := Rops) n z')) by (symmetry; exact E6) end. cbn [bind].
  set (E0 := matmul_error LOGN Diag D).
  assert (DJ : forall j, 0 <= j < n -> (modulus (Az j - z' j)%num <= E0 + 2 * powerRZ 2 (-1000))%R).
  { intros j Hj. specialize (HAz j Hj). specialize (Hz' j Hj). pose proof (dot_double Diag (IZR Diag) ltac:(lia)) as DD.
    rewrite (apply_dense LOGQ LOGN HL Diag A z j Hj) in HAz. rewrite (apply_dense LOGQ LOGN HL Diag A _ j Hj) in Hz'.
    set (g0 := gsum Diag (fun k => (A k j * z ((j + k) mod n))%num)) in *. set (g1 := gsum Diag (fun k => (A k j * slots N (IZR D) c ((j + k) mod n))%num)) in *.
    assert (G01 : (modulus (g0 - g1)%num <= IZR Diag * eta)%R).
    { unfold g0, g1. rewrite <- (gsum_sub HC). eapply Rle_trans; [apply (modulus_rsum Diag _ (fun _ => eta)); [lia|]|apply Properties_FloatDFT.gsum_const_le; [lia|intros; apply Rle_refl]].
      intros k Hk. replace (A k j * z ((j + k) mod n) - A k j * slots N (IZR D) c ((j + k) mod n))%num with (- (A k j * (slots N (IZR D) c ((j + k) mod n) - z ((j + k) mod n))))%num by ring.
      rewrite modulus_opp, modulus_mul. rewrite <- (Rmult_1_l eta). apply Rmult_le_compat; try apply modulus_nonneg; [apply HA; auto|apply SZ1, IDX]. }
    assert (GS : (gsum (K := Rops) Diag (fun k => modulus (slots N (IZR D) c ((j + k) mod n))) <= IZR Diag * (1 + eta))%R) by (apply Properties_FloatDFT.gsum_const_le; [lia|]; intros k Hk; apply SB, IDX).
    assert (GE : (eta * gsum (K := Rops) Diag (fun k => modulus (slots N (IZR D) c ((j + k) mod n))) <= eta * (IZR Diag * (1 + eta)))%R) by (apply Rmult_le_compat_l; auto).
    replace (Az j - z' j)%num with ((Az j - g0) + ((g0 - g1) + - (z' j - g1)))%num by ring. eapply Rle_trans; [apply modulus_add|]. eapply Rle_trans; [apply Rplus_le_compat_l, modulus_add|]. rewrite modulus_opp.
    set (M1 := modulus (Az j - g0)%num) in *. set (M2 := modulus (g0 - g1)%num) in *. set (M3 := modulus (z' j - g1)%num) in *. set (SS := gsum (K := Rops) Diag (fun k => modulus (slots N (IZR D) c ((j + k) mod n)))) in *.
    apply (sum_up M1 M2 M3 SS (IZR Diag) (IZR N) eta (powerRZ 2 (-42)) (powerRZ 2 (-50)) (powerRZ 2 (-1000))); [exact (Rle_trans _ _ _ HAz DD)|exact G01|exact Hz'|exact GE]. }
  assert (P42 : (0 < powerRZ 2 (-42) <= 1)%R) by (split; [apply p2_pos|apply (p2_le (-42) 0); lia]).
  assert (E0B : (/ 1125899906842624 <= E0 <= powerRZ 2 200)%R) by (unfold E0, matmul_error; cbv zeta; fold eta; rewrite P50; apply error_size; lra).
  assert (T1000 : (0 < powerRZ 2 (-1000) <= powerRZ 2 (-500))%R) by (split; [apply p2_pos|apply p2_le; lia]).
  set (E2' := ((1 + / 100000000000) * E0)%R).
  destruct (C118_sub F u64 eta64 top64 t64 HF n Az z' (carray (K := Rops) n (fun _ => 0%num)) ltac:(lia) (carray_of_carray n (fun _ => 0%num))) as (ez & E7 & Hez).
  { intros j Hj. specialize (DJ j Hj). pose proof (p2_le 201 1000 ltac:(lia)) as P1. change 201 with (1 + 200) in P1. rewrite p2_add in P1. change (powerRZ 2 1) with (2 * 1)%R in P1. pose proof (p2_le 0 200 ltac:(lia)) as P2. change (powerRZ 2 0) with 1%R in P2. lra. }
  match goal with |- context [msg_sub (K := Fops F) n ?a ?b ?o] => replace (msg_sub (K := Fops F) n a b o) with (Ok (carray (K := Rops) n ez)) by (symmetry; exact E7) end. cbn [bind].
  assert (EZ : forall j, 0 <= j < n -> (modulus (ez j) <= E2')%R).
  { intros j Hj. specialize (DJ j Hj). specialize (Hez j Hj). eapply Rle_trans; [apply (LinSlots.modulus_near _ (Az j - z' j)%num)|]. set (M := modulus (Az j - z' j)%num) in *. assert (0 <= M)%R by apply modulus_nonneg. unfold E2'.
    assert (u64 * M <= / 9007199254740992 * M)%R by (apply Rmult_le_compat_r; lra). lra. }
  destruct (C118_norm_double F HF n ez E2' Hks ltac:(lia)) as (y & E8 & Hy); [|exact EZ|].
  { unfold E2'. pose proof (p2_le 201 500 ltac:(lia)) as P1. change 201 with (1 + 200) in P1. rewrite p2_add in P1. change (powerRZ 2 1) with (2 * 1)%R in P1. split; lra. }
  change (gsum (K := Rops) n (fun i => modulus (ez i) * modulus (ez i))%R) with (energy n ez) in Hy.
  match goal with |- context [f_norm F n ?w] => replace (f_norm F n w) with (Ok y) by (symmetry; exact E8) end. cbn [bind].
  exists st3, st4, X, y. split; [reflexivity|]. split; [exact Hst3|]. split; [exact Hst4|]. split; [|split; [|split]].
  - cbv zeta. fold x Zn. eapply Rle_trans; [exact EXP|]. apply Rplus_le_compat_l. change (-450) with (50 + -500). rewrite p2_add. apply Rmult_le_compat_r; [lra|]. rewrite powerRZ_2 by lia. apply IZR_le. vm_compute. discriminate.
  - exists c, ck. split; [exact HC2|]. split; [exact Hck|]. fold D. set (g := fun j => (apply n (matrix_of n Diag A (fun k => k)) z j - gsum Diag (fun k => slots N (IZR D) (ck k) j * slots N (IZR D) c ((j + k) mod n)))%num).
    fold E0. set (V0 := matmul_noise LOGN Diag D). pose proof (dot_double Diag (IZR Diag) ltac:(lia)) as DD.
    assert (V0p : (0 <= V0)%R). { unfold V0, matmul_noise. cbv zeta. fold eta. pose proof (p2_pos (-50)). apply Rplus_le_le_0_compat; apply Rmult_le_pos; try lra; apply Rmult_le_pos; try lra. apply Rmult_le_pos; try lra. apply Rmult_le_pos; lra. }
    assert (NG : forall j, 0 <= j < n -> (modulus (ez j - g j)%num <= V0 + / 100000000000 * E0)%R).
    { intros j Hj. specialize (HAz j Hj). specialize (Hnk j Hj). specialize (Hez j Hj). specialize (DJ j Hj). unfold g.
      set (g0 := apply n (matrix_of n Diag A (fun k => k)) z j) in *. set (g1 := gsum Diag (fun k => slots N (IZR D) (ck k) j * slots N (IZR D) c ((j + k) mod n))%num) in *.
      replace (ez j - (g0 - g1))%num with ((ez j - (Az j - z' j)) + ((Az j - g0) + - (z' j - g1)))%num by ring. eapply Rle_trans; [apply modulus_add|]. eapply Rle_trans; [apply Rplus_le_compat_l, modulus_add|]. rewrite modulus_opp.
      set (M0 := modulus (Az j - z' j)%num) in *. assert (0 <= M0)%R by apply modulus_nonneg. assert (UM : (u64 * M0 <= / 9007199254740992 * M0)%R) by (apply Rmult_le_compat_r; lra).
      apply (noise_up _ _ _ M0 E0 (IZR Diag) (IZR N) eta (powerRZ 2 (-42)) (powerRZ 2 (-50)) (powerRZ 2 (-1000)) u64 eta64 Hez (Rle_trans _ _ _ HAz DD) Hnk DJ UM); lra. }
    pose proof (norm_near n ez g (V0 + / 100000000000 * E0)%R ltac:(lia) ltac:(lra) NG) as NN.
    assert (SQ : (sqrt (energy n ez) <= sqrt (IZR n) * E2')%R).
    { assert (0 <= E2')%R by (unfold E2'; lra). rewrite <- (sqrt_square E2') by auto. rewrite <- sqrt_mult_alt by lra. apply sqrt_le_1_alt. unfold energy. rewrite <- rsum_const by lia. apply rsum_le. intros j Hj. specialize (EZ j Hj). pose proof (modulus_nonneg (ez j)). apply Rmult_le_compat; lra. }
    assert (SN : (1 <= sqrt (IZR n))%R) by (rewrite <- sqrt_1 at 1; apply sqrt_le_1_alt; lra). pose proof (sqrt_pos (energy n ez)) as S0.
    set (G := (sqrt (IZR n) * E0)%R). assert (HG : (/ 1125899906842624 <= G)%R). { unfold G. rewrite <- (Rmult_1_l (/ 1125899906842624)). apply Rmult_le_compat; lra. }
    replace (sqrt (IZR n) * E2')%R with ((1 + / 100000000000) * G)%R in SQ by (unfold G, E2'; ring).
    replace (sqrt (IZR n) * (V0 + / 1000000000 * E0))%R with (sqrt (IZR n) * V0 + / 1000000000 * G)%R by (unfold G; ring). replace (sqrt (IZR n) * (V0 + / 100000000000 * E0))%R with (sqrt (IZR n) * V0 + / 100000000000 * G)%R in NN by (unfold G; ring).
    set (s := sqrt (energy n ez)) in *. assert (NS : (IZR n * (powerRZ 2 (-50) * s) <= / 10000000000 * s)%R). { rewrite P50, <- Rmult_assoc. apply Rmult_le_compat_r; [lra|]. lra. }
    set (t := sqrt (energy n g)) in *. set (W := (sqrt (IZR n) * V0)%R) in *. clearbody s t W G. apply abs_inv in Hy, NN. apply Rabs_le. split; lra.
  - revert E8. unfold f_norm. match goal with |- bind ?w _ = _ -> _ => destruct w as [s| | |]; try discriminate end. cbn [bind]. unfold f_sqrt. destruct (Rlt_dec s 0); [discriminate|]. intros Q. injection Q as <-. apply Hks, sqrt_pos.
  - assert (SQ : (sqrt (energy n ez) <= sqrt (IZR n) * E2')%R).
    { assert (0 <= E2')%R by (unfold E2'; lra). rewrite <- (sqrt_square E2') by auto. rewrite <- sqrt_mult_alt by lra. apply sqrt_le_1_alt. unfold energy. rewrite <- rsum_const by lia. apply rsum_le. intros j Hj. specialize (EZ j Hj). pose proof (modulus_nonneg (ez j)). apply Rmult_le_compat; lra. }
    assert (SN : (1 <= sqrt (IZR n))%R) by (rewrite <- sqrt_1 at 1; apply sqrt_le_1_alt; lra). pose proof (sqrt_pos (energy n ez)) as S0. fold D E0.
    set (G := (sqrt (IZR n) * E0)%R). assert (HG : (/ 1125899906842624 <= G)%R). { unfold G. rewrite <- (Rmult_1_l (/ 1125899906842624)). apply Rmult_le_compat; lra. }
    replace (sqrt (IZR n) * E2')%R with ((1 + / 100000000000) * G)%R in SQ by (unfold G, E2'; ring).
    set (s := sqrt (energy n ez)) in *. clearbody s G. assert (NS : (IZR n * (powerRZ 2 (-50) * s) <= / 10000000000 * s)%R). { rewrite P50, <- Rmult_assoc. apply Rmult_le_compat_r; [lra|]. lra. }
    apply abs_inv in Hy. lra.
Qed.
End Run.

(** The parameters of section3.h with N = 2^15 and 16 diagonals: every slot of the vector and of the diagonals of modulus at most 1 *)
Definition case_z (j : Z) : CC := real (IZR (j mod 5) / 7)%R.
Definition case_A (k j : Z) : CC := mk Rops (IZR ((j + k) mod 3) / 4)%R (/ 3)%R.
Lemma case_z1 j : (modulus (case_z j) <= 1)%R.
Proof. unfold case_z. rewrite modulus_real. pose proof (Z.mod_pos_bound j 5 ltac:(lia)) as [L U]. apply IZR_le in L. assert (U' : j mod 5 <= 4) by lia. apply IZR_le in U'. rewrite Rabs_right; lra. Qed.
Lemma case_A1 k j : (modulus (case_A k j) <= 1)%R.
Proof.
  unfold case_A, modulus, cre, cim. cbn [fst snd mk]. pose proof (Z.mod_pos_bound (j + k) 3 ltac:(lia)) as [L U]. apply IZR_le in L. assert (U' : (j + k) mod 3 <= 2) by lia. apply IZR_le in U'. cbn.
  apply Rle_trans with (sqrt 1); [apply sqrt_le_1_alt|rewrite sqrt_1; lra]. set (w := IZR ((j + k) mod 3)) in *. assert (w / 4 * (w / 4) <= / 2 * / 2)%R by (apply Rmult_le_compat; lra). lra.
Qed.
Lemma many_m LOGN (A : Z -> Z -> CC) Kd : 2 <= LOGN <= 27 -> 0 <= Kd -> exists v : Z -> Z -> R, forall k j, 0 <= k < Kd -> 0 <= j < 2 ^ (LOGN - 1) -> slot (2 ^ LOGN) (v k) j = A k j.
Proof.
  intros HL. apply (natlike_ind (fun Kd => exists v : Z -> Z -> R, forall k j, 0 <= k < Kd -> 0 <= j < 2 ^ (LOGN - 1) -> slot (2 ^ LOGN) (v k) j = A k j)).
  - exists (fun _ _ => 0%R). intros; lia.
  - intros x Hx [v Hv]. destruct (some_m LOGN HL (A x)) as [w Hw]. exists (fun k => if k =? x then w else v k). intros k j Hk Hj. destruct (Z.eqb_spec k x) as [->|]; [apply Hw; auto|apply Hv; lia].
Qed.
Example C132_case : exists st st2 expected measured,
  f_single_matmul_error F64 1450 15 16 (2 ^ 50) 50 None None (carray (K := Rops) (2 ^ 14) case_z) (map (fun k => carray (K := Rops) (2 ^ 14) (case_A k)) (range 16)) = Ok (st, st2, (expected, measured)) /\
  (0 <= measured <= (1 + / 1000000000) * (sqrt (IZR (2 ^ 14)) * matmul_error 15 16 (2 ^ 50)))%R.
Proof.
  destruct (some_m 15 ltac:(lia) case_z) as [m Hm]. destruct (many_m 15 case_A 16 ltac:(lia) ltac:(lia)) as [v Hv].
  destruct (C132_single_matmul F64 C87_binary64 1450 15 ltac:(right; lia) ltac:(lia) ltac:(lia) 16 50 None None case_z case_A m v C118_sign_binary64 ltac:(lia) ltac:(lia)) as (st & st2 & x & y & E & _ & _ & _ & _ & H).
  - vm_compute. reflexivity.
  - apply f_ifft_first.
  - apply f_fft_first.
  - intros j Hj. apply case_z1.
  - intros k j Hk Hj. apply case_A1.
  - exact Hm.
  - exact Hv.
  - exists st, st2, x, y. split; [exact E|exact H].
Qed.

(** The product of the same diagonals, N = 2^9, with the constant plaintext 3 2^40 of scale 2^40 *)
Example C132_mvp_case : exists st Q st2 z', f_pt_mvp F64 1450 9 16 None (repP 1450 (2 ^ 9) (fun i => if i =? 0 then 3 * 2 ^ 40 else 0)) (map (fun k => carray (K := Rops) (2 ^ 8) (case_A k)) (range 16)) (2 ^ 50) (rq_new 1450 (2 ^ 9)) = Ok (st, Q) /\
  f_decode_log F64 1450 9 None Q (50 + 40) (fst (carray (K := Rops) (2 ^ 8) (fun _ => 0%num))) (snd (carray (K := Rops) (2 ^ 8) (fun _ => 0%num))) = Ok (st2, carray (K := Rops) (2 ^ 8) z').
Proof.
  destruct (many_m 9 case_A 16 ltac:(lia) ltac:(lia)) as [v Hv]. set (a := fun i => if i =? 0 then 3 * 2 ^ 40 else 0). assert (AB : forall i, Z.abs (a i) <= 3 * 2 ^ 40) by (intros i; unfold a; destruct (i =? 0); lia).
  destruct (carray_of_carray (2 ^ 8) (fun _ => 0%num)) as [Ca Cb].
  destruct (C132_mvp F64 C87_binary64 1450 9 ltac:(right; lia) ltac:(lia) ltac:(lia) 16 50 40 (3 * 2 ^ 40) (IZR (2 ^ 9) * 3)%R case_A v (repP 1450 (2 ^ 9) a) a None None (rq_new 1450 (2 ^ 9))
    (fst (carray (K := Rops) (2 ^ 8) (fun _ => 0%num))) (snd (carray (K := Rops) (2 ^ 8) (fun _ => 0%num))) ltac:(lia) ltac:(lia) ltac:(lia) ltac:(lia)) as (st & Q & st2 & z' & E & _ & E2 & _); auto.
  - vm_compute. reflexivity.
  - intros k j Hk Hj. apply case_A1.
  - apply repP_holds; lia.
  - intros j Hj. unfold slots. apply modulus_slot; [lia|]. intros k Hk. unfold a. destruct (k =? 0).
    + rewrite mult_IZR. replace (IZR 3 * IZR (2 ^ 40) / IZR (2 ^ 40))%R with 3%R by (field; apply IZR_neq; lia). rewrite Rabs_right; lra.
    + unfold Rdiv. rewrite Rmult_0_l, Rabs_R0. lra.
  - change (2 ^ 9) with 512. split; [lra|]. apply Rle_trans with (powerRZ 2 11); [rewrite powerRZ_2 by lia; change (2 ^ 11) with 2048; lra|apply p2_le; lia].
  - apply objP_object; try lia. apply objP_new.
  - apply f_ifft_first.
  - apply f_fft_first.
  - exists st, Q, st2, z'. split; [exact E|exact E2].
Qed.
