(** C132: matrix-vector products of plaintexts and theorem_single_matmul_error.cpp, in floating-point arithmetic. *)
From Coq Require Import ZArith List Bool Lia Reals Lra Ring.
From Verif Require Import Base BaseFacts Sums ZQ ZQFacts ZQFacts2 RQ RQFacts Conv Rot Util GSum Core CoreFacts Matrix MatrixFacts MatMulFacts
  DFT DFTTheory DFTFacts FFTFacts SpecZQ SpecPoly SpecPolyFacts SpecScheme ConvFacts SpecMat Properties_Mat Properties_Msg SpecDFT Properties_DFT SpecEnc Properties_Core Properties_Rot Properties_Conv
  GroupFacts SlotFacts Encode EncodeFacts Plain BootFacts Properties_Enc Properties_Plain SpecLin LinTrans LinTransFacts LinSlots GroupSlots SpecBoot BootSlots PlainFacts SpecStat StatFacts Section3 Properties_Stat Properties_MatErr Properties_Serial
  Properties_Lin Properties_Boot Poly EvalMod SpecMod EvalModFacts PiBound EvalModBound Properties_EvalMod SpecPipe Pipeline PipeFacts Properties_Pipe Bootstrap SpecEval EvalFacts Section4 SupFacts MeasFacts Measure UtilFacts Properties_ZQ CtsMeasure CtsProps Messages SupRatio TestProg TestLayers EmTest TestLinT TestBoot TestBootP.
From Verif Require Import Float SpecFloat FloatNum Binary64 Properties_Float SpecFloatLin FloatLin FloatSerial FloatGrouped SpecFloatBoot FloatBoot FloatBootSlots FloatBootNum Properties_FloatLin FloatMod SpecFloatMod FloatModFacts FloatModBound Properties_FloatMod.
From Verif Require Import FloatDot FloatMsg Properties_FloatMsg Properties_FloatMsg2 FloatDirect Properties_FloatDFT Properties_FloatDFT2 FloatSetup Properties_FloatSetup FloatTestBoot Properties_FloatTestBoot.
From Verif Require Import FloatSimple Properties_FloatSimple FloatTests Properties_FloatTests FloatEnc2.
From Verif Require Import Properties_FloatTests2 SpecFloatMsg.
From Verif Require PolyRing RotFacts.
From Verif Require Import FloatStat Properties_FloatStat FloatPlain.
Import ListNotations.
Open Scope Z_scope.
Add Ring RCfst : HR.


(** The rounding errors of encode besides 1/2 *)
Definition enc_rho (Delta : Z) : R := (powerRZ 2 (-41) * IZR Delta + powerRZ 2 (-900))%R.
(** What encode may add to a slot of a message of modulus at most 1: N roundings, over the scale *)
Definition matmul_eta (LOGN Delta : Z) : R := (IZR (2 ^ LOGN) * (/ 2 + enc_rho Delta) / IZR Delta)%R.
Lemma Rfold_add (a b c : R) : (a + b + c = c + a + b)%R.
Proof. ring. Qed.

Lemma rho_small Delta : 0 < Delta <= 2 ^ 63 -> (0 <= enc_rho Delta <= / 4 * IZR Delta)%R.
Proof.
  intros HD. assert (HDR : (1 <= IZR Delta)%R) by (apply IZR_le; lia). unfold enc_rho. assert (P1 : (powerRZ 2 (-41) <= powerRZ 2 (-4))%R) by (apply p2_le; lia). assert (P2 : (powerRZ 2 (-900) <= powerRZ 2 (-4))%R) by (apply p2_le; lia).
  pose proof (p2_pos (-41)). pose proof (p2_pos (-900)). change (powerRZ 2 (-4)) with (/ (2 * (2 * (2 * (2 * 1)))))%R in *. assert (powerRZ 2 (-41) * IZR Delta <= / 16 * IZR Delta)%R by (apply Rmult_le_compat_r; lra). assert (0 <= powerRZ 2 (-41) * IZR Delta)%R by (apply Rmult_le_pos; lra). lra.
Qed.

Section Mvp.
Context (F : fpu) (HF : double F) (LOGQ LOGN : Z) (HQ : widths LOGQ) (HQ2 : LOGQ <= 2048) (HL : 2 <= LOGN <= 17).
Local Notation N := (2 ^ LOGN).
Local Notation n := (2 ^ (LOGN - 1)).
Context (S Delta B : Z) (HD : 0 < Delta <= 2 ^ 63) (HS : 0 <= S) (HB : 1 <= B).
Context (A : Z -> Z -> CC) (m : Z -> Z -> R) (o : Z -> Z) (a : Z -> Z).
Context (Ho : forall s, 0 <= s < S -> 0 <= o s).
Context (Hm : forall s j, 0 <= s < S -> 0 <= j < n -> slot N (m s) j = A s j).
Context (HA1 : forall s j, 0 <= s < S -> 0 <= j < n -> (modulus (A s j) <= 1)%R).
Context (Ha : forall i, 0 <= i < N -> Z.abs (a i) <= B).
Context (Hsize : S * (N * (2 * Delta * B)) < 2 ^ (LOGQ - 1)).

Lemma f_mvp_loop st : f_ifft_static F LOGN st ->
  exists st' r (c : Z -> Z -> Z), ('(st, _, _, _, pt_Az) <- for_ 0 S (fun k '(st, pt_v, pt_rot, pt_conv, pt_Az) =>
      '(st, pt_v) <- f_encode F LOGQ LOGN st (fst (carray (K := Rops) n (A k))) (snd (carray (K := Rops) n (A k))) Delta pt_v ;;
      pt_rot <- rot_poly LOGQ N (repP LOGQ N a) pt_rot (o k) ;;
      pt_conv <- conv_poly LOGQ N pt_v pt_rot pt_conv ;;
      pt_Az <- rq_add LOGQ N pt_Az pt_conv ;;
      Ok (st, pt_v, pt_rot, pt_conv, pt_Az)) (st, rq_new LOGQ N, rq_new LOGQ N, rq_new LOGQ N, repP LOGQ N (fun _ => 0)) ;;
    Ok (st, pt_Az)) = Ok (st', repP LOGQ N r) /\ f_ifft_static F LOGN st' /\
  (forall i, 0 <= i < N -> Z.abs (r i) <= S * (N * (2 * Delta * B))) /\
  (forall k i, 0 <= k < S -> 0 <= i < N -> (Rabs (IZR (c k i) - m k i * IZR Delta) <= / 2 + enc_rho Delta)%R) /\
  (forall j, 0 <= j < n -> slot N (zs r) j = gsum S (fun k => (slot N (zs (c k)) j * slot N (zs a) ((j + o k) mod n))%num)).
Proof.
  intros Hst. assert (HQ1 : 1 <= LOGQ) by (unfold widths in HQ; lia). pose proof (Npos LOGN ltac:(lia)) as HN.
  assert (Hn : 0 < n) by (apply Z.pow_pos_nonneg; lia). assert (HN4 : 4 <= N) by (change 4 with (2 ^ 2); apply Z.pow_le_mono_r; lia).
  assert (HL' : 2 <= LOGN <= 27) by lia. pose proof (rho_small Delta HD) as RS. assert (HDR : (1 <= IZR Delta)%R) by (apply IZR_le; lia).
  match goal with |- context [for_ 0 S ?body ?s0] =>
    destruct (for_inv body (fun k (w : tables * poly * poly * poly * poly) => let '(st, v, ro, cv, az) := w in
       f_ifft_static F LOGN st /\ objP LOGQ N v /\ objP LOGQ N ro /\ objP LOGQ N cv /\ exists r (c : Z -> Z -> Z), az = repP LOGQ N r /\
       (forall i, 0 <= i < N -> Z.abs (r i) <= k * (N * (2 * Delta * B))) /\
       (forall l i, 0 <= l < k -> 0 <= i < N -> (Rabs (IZR (c l i) - m l i * IZR Delta) <= / 2 + enc_rho Delta)%R) /\
       (forall j, 0 <= j < n -> slot N (zs r) j = gsum k (fun k => (slot N (zs (c k)) j * slot N (zs a) ((j + o k) mod n))%num)))
       0 S s0 HS) as (w & E & H)
  end.
  - split; [exact Hst|]. split; [apply objP_new|]. split; [apply objP_new|]. split; [apply objP_new|].
    exists (fun _ => 0), (fun _ _ => 0). split; [reflexivity|]. split; [intros; lia|]. split; [intros; lia|]. intros j Hj. rewrite gsum_0 by lia. rewrite slot_at by auto. unfold at_.
    apply (gsum_zero HC). intros k Hk. unfold zs. apply RC_eq; cbn; ring.
  - intros k [[[[st1 v] ro] cv] az] Hk (H1 & Hv & Hro & Hcv & r & c0 & -> & Hr & Hc0 & Hs).
    assert (Hv' : objectP LOGQ N v) by (apply objP_object; auto; lia).
    assert (D64 : (IZR Delta <= IZR (2 ^ 63))%R) by (apply IZR_le; lia).
    assert (SZ : 8 * Delta < 2 ^ (LOGQ - 1)). { assert (Delta <= Delta * B) by nia. assert (4 * (2 * Delta * B) <= N * (2 * Delta * B)) by nia. assert (N * (2 * Delta * B) <= S * (N * (2 * Delta * B))) by nia. nia. }
    destruct (C83_encode_double F HF LOGQ LOGN ltac:(lia) HL Delta st1 (A k) (m k) 1%R v ltac:(assert (2 ^ 63 < 2 ^ 64) by (apply Z.pow_lt_mono_r; lia); lia) H1 Hv' ltac:(lra)) as (st2 & v2 & c & E1 & H2 & Hc & Hc2).
    { intros j Hj. apply HA1; auto. }
    { intros j Hj. apply Hm; auto. }
    { unfold enc_rho in RS. pose proof (p2_pos (-900)). change (2 ^ 64) with (2 * 2 ^ 63). rewrite mult_IZR. assert (1000 <= IZR (2 ^ 63))%R by (apply IZR_le; vm_compute; discriminate). lra. }
    { unfold enc_rho in RS. pose proof (p2_pos (-900)). replace LOGQ with (1 + (LOGQ - 1)) by lia. rewrite Z.pow_add_r by lia. change (2 ^ 1) with 2. rewrite mult_IZR. apply IZR_lt in SZ. rewrite mult_IZR in SZ. lra. }
    rewrite Rmult_1_l in Hc2.
    match goal with |- context [f_encode F LOGQ LOGN st1 ?x ?y Delta v] => replace (f_encode F LOGQ LOGN st1 x y Delta v) with (Ok (st2, v2)) by (symmetry; exact E1) end. cbn [bind].
    destruct (rot_poly_rep LOGN LOGQ (o k) ltac:(lia) HQ1 (Ho k Hk) a) as (b & Hab & E2).
    rewrite E2 by auto. cbn [bind]. apply holdsP_rep in Hc; try lia. subst v2.
    assert (E3 : conv_poly LOGQ N (repP LOGQ N c) (repP LOGQ N b) cv = Ok (repP LOGQ N (negconv N c b))).
    { destruct (C27_conv LOGN LOGQ (repP LOGQ N c) (repP LOGQ N b) cv c b ltac:(lia) HQ) as (P & EP & HP).
      - apply repP_holds; lia.
      - apply repP_holds; lia.
      - apply objP_object; auto; lia.
      - rewrite EP. f_equal. apply holdsP_rep in HP; auto. lia. }
    rewrite E3. cbn [bind]. rewrite rq_add_rep by lia. cbn [bind]. eexists. split; [reflexivity|].
    assert (Hcm : forall i, 0 <= i < N -> Z.abs (c i) <= 2 * Delta).
    { intros i Hi. specialize (Hc2 i Hi). assert (MB : (Rabs (m k i) <= 1)%R) by (apply (coef_slots LOGN (m k) 1 HL'); auto; intros j Hj; rewrite Hm by auto; auto).
      assert (MD : (Rabs (m k i * IZR Delta) <= IZR Delta)%R) by (rewrite Rabs_mult, (Rabs_right (IZR Delta)) by lra; rewrite <- (Rmult_1_l (IZR Delta)) at 2; apply Rmult_le_compat_r; lra).
      unfold enc_rho in RS. apply abs_inv in Hc2, MD. apply Z.abs_le. split; apply le_IZR; rewrite ?opp_IZR, ?mult_IZR; lra. }
    assert (Hg : PolyRing.gcd1 N (5 ^ o k)) by (apply (gcd1_pow5 LOGN (o k)); [lia|apply Ho; auto]).
    assert (Hbb : forall i, 0 <= i < N -> Z.abs (b i) <= B) by (apply (PolyRing.auto_bound N ltac:(lia) (5 ^ o k) a b B Hg Hab Ha)).
    split; [exact H2|]. split; [eexists; split; [reflexivity|intros; apply rep_length]|]. split; [eexists; split; [reflexivity|intros; apply rep_length]|].
    split; [eexists; split; [reflexivity|intros; apply rep_length]|].
    exists (fun i => r i + negconv N c b i), (fun l => if l =? k then c else c0 l). split; [reflexivity|]. split; [|split].
    + intros i Hi. specialize (Hr i Hi). pose proof (negconv_bound N c b (2 * Delta) B ltac:(lia) ltac:(lia) Hcm Hbb i Hi). lia.
    + intros l i Hl Hi. destruct (Z.eqb_spec l k) as [->|]; [specialize (Hc2 i Hi); unfold enc_rho; lra|apply Hc0; lia].
    + intros j Hj. rewrite gsum_S by lia. rewrite Z.eqb_refl.
      rewrite (gsum_ext k (fun l => (slot N (zs (if l =? k then c else c0 l)) j * slot N (zs a) ((j + o l) mod n))%num) (fun l => (slot N (zs (c0 l)) j * slot N (zs a) ((j + o l) mod n))%num)) by (intros l Hl; destruct (Z.eqb_spec l k); [lia|reflexivity]).
      rewrite <- Hs by auto.
      rewrite (slot_ext N (zs (fun i => r i + negconv N c b i)) (fun i => zs r i + rnegconv N (zs c) (zs b) i)%R).
      2:{ intros i Hi. unfold zs. rewrite plus_IZR. f_equal. apply (real_negconv LOGN). }
      rewrite slot_add, slot_negconv by lia. f_equal. f_equal.
      apply (slot_rot LOGN HL' (zs a) (zs b) j (o k)); [lia|apply Ho; auto|]. apply (real_sub LOGN). apply RotFacts.substituted_auto; [lia|exact Hab].
  - rewrite E. destruct w as [[[[st1 v] ro] cv] az]. destruct H as (H1 & _ & _ & _ & r & c & -> & Hr & Hc & Hs). cbn [bind]. exists st1, r, c. auto.
Qed.

Lemma f_rounded_error (c : Z -> Z) (m0 : Z -> R) j : 0 <= j < n -> (forall i, 0 <= i < N -> (Rabs (IZR (c i) - m0 i * IZR Delta) <= / 2 + enc_rho Delta)%R) ->
  (modulus (slot N (fun i => zs c i / IZR Delta)%R j - slot N m0 j)%num <= matmul_eta LOGN Delta)%R.
Proof.
  intros Hj Hc. rewrite <- slot_sub. assert (HDR : (1 <= IZR Delta)%R) by (apply IZR_le; lia). unfold matmul_eta.
  replace (IZR N * (/ 2 + enc_rho Delta) / IZR Delta)%R with (IZR N * ((/ 2 + enc_rho Delta) / IZR Delta))%R by (unfold Rdiv; ring).
  apply modulus_slot; [apply Z.pow_pos_nonneg; lia|]. intros i Hi. specialize (Hc i Hi). unfold zs.
  replace (IZR (c i) / IZR Delta - m0 i)%R with ((IZR (c i) - m0 i * IZR Delta) / IZR Delta)%R by (field; lra).
  unfold Rdiv. rewrite Rabs_mult, (Rabs_right (/ IZR Delta)) by (apply Rle_ge, Rlt_le, Rinv_0_lt_compat; lra).
  apply Rmult_le_compat_r; auto. apply Rlt_le, Rinv_0_lt_compat; lra.
Qed.
Lemma f_mvp_error (r : Z -> Z) (c : Z -> Z -> Z) D0 j : 0 < D0 -> 0 <= j < n ->
  (forall k i, 0 <= k < S -> 0 <= i < N -> (Rabs (IZR (c k i) - m k i * IZR Delta) <= / 2 + enc_rho Delta)%R) ->
  (forall j, 0 <= j < n -> slot N (zs r) j = gsum S (fun k => (slot N (zs (c k)) j * slot N (zs a) ((j + o k) mod n))%num)) ->
  (modulus (slots N (IZR (Delta * D0)) r j - gsum S (fun k => A k j * slots N (IZR D0) a ((j + o k) mod n)))%num
    <= gsum (K := Rops) S (fun k => matmul_eta LOGN Delta * modulus (slots N (IZR D0) a ((j + o k) mod n)))%R)%R.
Proof.
  intros HD0 Hj Hc Hr. assert (R1 : IZR Delta <> 0%R) by (apply IZR_neq; lia). assert (R2 : IZR D0 <> 0%R) by (apply IZR_neq; lia).
  unfold slots. change (fun i => (IZR (r i) / IZR (Delta * D0))%R) with (fun i => (zs r i / IZR (Delta * D0))%R).
  rewrite (slots_zs LOGN) by (apply IZR_neq; lia). rewrite Hr by auto. rewrite <- (gsum_scale HC), <- (gsum_sub HC).
  apply modulus_rsum; auto. intros k Hk.
  match goal with |- (modulus ?x <= _)%R => replace x with
    ((slot N (fun i => zs (c k) i / IZR Delta)%R j - A k j) * slot N (fun i => IZR (a i) / IZR D0)%R ((j + o k) mod n))%num end.
  - rewrite modulus_mul. apply Rmult_le_compat_r; [apply modulus_nonneg|]. rewrite <- (Hm k j Hk Hj). apply f_rounded_error; auto.
  - rewrite (slots_zs LOGN (c k)) by auto. change (fun i => (IZR (a i) / IZR D0)%R) with (fun i => (zs a i / IZR D0)%R).
    rewrite (slots_zs LOGN a) by auto. rewrite mult_IZR, Rinv_mult.
    assert (E : real (/ IZR Delta * / IZR D0)%R = (real (/ IZR Delta) * real (/ IZR D0))%num) by (apply RC_eq; cbn; ring).
    rewrite E. ring.
Qed.
End Mvp.

Section Plain.
Context (F : fpu) (HF : double F) (LOGQ LOGN : Z) (HQ : widths LOGQ) (HQ2 : LOGQ <= 2048) (HL : 2 <= LOGN <= 17).
Local Notation N := (2 ^ LOGN).
Local Notation n := (2 ^ (LOGN - 1)).

Lemma eta_nonneg Delta : 0 < Delta -> (0 <= matmul_eta LOGN Delta)%R.
Proof.
  intros HD. assert (HDR : (1 <= IZR Delta)%R) by (apply IZR_le; lia). unfold matmul_eta, enc_rho. assert (0 < IZR N)%R by (apply IZR_lt, Z.pow_pos_nonneg; lia). pose proof (p2_pos (-41)). pose proof (p2_pos (-900)).
  assert (0 <= powerRZ 2 (-41) * IZR Delta)%R by (apply Rmult_le_pos; lra). apply Rmult_le_pos; [apply Rmult_le_pos; lra|]. apply Rlt_le, Rinv_0_lt_compat. lra.
Qed.
Lemma eta_le Delta : 0 < Delta <= 2 ^ 63 -> (matmul_eta LOGN Delta <= IZR N)%R.
Proof.
  intros HD. assert (HDR : (1 <= IZR Delta)%R) by (apply IZR_le; lia). pose proof (rho_small Delta HD) as RS. assert (0 < IZR N)%R by (apply IZR_lt, Z.pow_pos_nonneg; lia). unfold matmul_eta.
  apply (Rmult_le_reg_r (IZR Delta)); [lra|]. unfold Rdiv. rewrite Rmult_assoc, Rinv_l, Rmult_1_r by lra. apply Rmult_le_compat_l; lra.
Qed.
Lemma apply_dense Kd (A : Z -> Z -> CC) (z : Z -> CC) j : 0 <= j < n -> apply n (matrix_of n Kd A (fun k => k)) z j = gsum Kd (fun k => (A k j * z ((j + k) mod n))%num).
Proof. intros Hj. apply (apply_offsets LOGQ LOGN HL Kd A (fun k => k) z j Hj). Qed.

(** K diagonals of modulus at most 1, encoded with scale 2^d, times a plaintext [a] of scale 2^e with slots of modulus at most Z *)
Theorem C132_mvp Kd d e B Zb (A : Z -> Z -> CC) (m : Z -> Z -> R) P a st st2 pt_Az zr zi :
  0 <= d <= 63 -> 0 <= e <= 2 ^ 20 -> 0 <= Kd <= 2 ^ 17 -> 1 <= B -> Kd * (N * (2 * 2 ^ d * B)) < 2 ^ (LOGQ - 1) ->
  (forall k j, 0 <= k < Kd -> 0 <= j < n -> slot N (m k) j = A k j) -> (forall k j, 0 <= k < Kd -> 0 <= j < n -> (modulus (A k j) <= 1)%R) ->
  holdsP LOGQ N P a -> (forall i, 0 <= i < N -> Z.abs (a i) <= B) -> (forall j, 0 <= j < n -> (modulus (slots N (IZR (2 ^ e)) a j) <= Zb)%R) -> (0 <= Zb <= powerRZ 2 500)%R -> objectP LOGQ N pt_Az ->
  f_ifft_static F LOGN st -> f_fft_static F LOGN st2 -> cells n zr -> cells n zi ->
  let eta := matmul_eta LOGN (2 ^ d) in
  exists st' Q st2' z', f_pt_mvp F LOGQ LOGN Kd st P (map (fun k => carray (K := Rops) n (A k)) (range Kd)) (2 ^ d) pt_Az = Ok (st', Q) /\ f_ifft_static F LOGN st' /\
    f_decode_log F LOGQ LOGN st2 Q (d + e) zr zi = Ok (st2', carray (K := Rops) n z') /\ f_fft_static F LOGN st2' /\
    (exists c : Z -> Z -> Z, (forall k i, 0 <= k < Kd -> 0 <= i < N -> (Rabs (IZR (c k i) - m k i * IZR (2 ^ d)) <= / 2 + enc_rho (2 ^ d))%R) /\
      forall j, 0 <= j < n -> (modulus (z' j - gsum Kd (fun k => slots N (IZR (2 ^ d)) (c k) j * slots N (IZR (2 ^ e)) a ((j + k) mod n)))%num <= powerRZ 2 (-42) * (IZR N * (IZR Kd * ((1 + eta) * Zb))) + powerRZ 2 (-1000))%R) /\
    forall j, 0 <= j < n -> (modulus (z' j - apply n (matrix_of n Kd A (fun k => k)) (slots N (IZR (2 ^ e)) a) j)%num
      <= eta * gsum (K := Rops) Kd (fun k => modulus (slots N (IZR (2 ^ e)) a ((j + k) mod n))) + powerRZ 2 (-42) * (IZR N * (IZR Kd * ((1 + eta) * Zb))) + powerRZ 2 (-1000))%R.
Proof.
  intros Hd He HK HB Hsz Hm HA HP Ha HZ HZ0 Haz Hst Hst2 Hzr Hzi eta. assert (HQ1 : 1 <= LOGQ) by (unfold widths in HQ; lia). assert (HN : 0 < N) by (apply Z.pow_pos_nonneg; lia).
  assert (HD : 0 < 2 ^ d <= 2 ^ 63) by (split; [apply Z.pow_pos_nonneg; lia|apply Z.pow_le_mono_r; lia]). assert (HE : 0 < 2 ^ e) by (apply Z.pow_pos_nonneg; lia).
  assert (Hn : 0 < n) by (apply Z.pow_pos_nonneg; lia). pose proof (eta_nonneg (2 ^ d) ltac:(lia)) as HEt. fold eta in HEt.
  apply holdsP_rep in HP; try lia. subst P.
  destruct (f_mvp_loop F HF LOGQ LOGN HQ HQ2 HL Kd (2 ^ d) B HD ltac:(lia) HB A m (fun k => k) a ltac:(intros; lia) Hm HA Ha Hsz st Hst) as (st' & r & c & E & Hst' & Hr & Hc & Hs).
  pose proof (fun j Hj => f_mvp_error LOGQ LOGN HL Kd (2 ^ d) HD ltac:(lia) A m (fun k => k) a Hm r c (2 ^ e) j HE Hj Hc Hs) as ME. cbv beta in ME. fold eta in ME.
  assert (PW : powerRZ 2 (d + e) = IZR (2 ^ d * 2 ^ e)) by (rewrite <- Z.pow_add_r by lia; apply powerRZ_2; lia).
  assert (PP : (0 < IZR (2 ^ d * 2 ^ e))%R) by (apply IZR_lt; nia).
  assert (IDX : forall j k, 0 <= (j + k) mod n < n) by (intros; apply Z.mod_pos_bound; lia).
  assert (KR : (0 <= IZR Kd <= IZR (2 ^ 17))%R) by (split; apply IZR_le; lia).
  set (Y := (IZR Kd * ((1 + eta) * Zb))%R).
  assert (SB : forall j, 0 <= j < n -> (modulus (slots N (IZR (2 ^ d * 2 ^ e)) r j) <= Y)%R).
  { intros j Hj. specialize (ME j Hj). eapply Rle_trans; [apply (LinSlots.modulus_near _ (gsum Kd (fun k => (A k j * slots N (IZR (2 ^ e)) a ((j + k) mod n))%num)))|].
    assert (G1 : (modulus (gsum Kd (fun k => (A k j * slots N (IZR (2 ^ e)) a ((j + k) mod n))%num)) <= IZR Kd * Zb)%R).
    { eapply Rle_trans; [apply (modulus_rsum Kd _ (fun _ => Zb)); [lia|]|apply Properties_FloatDFT.gsum_const_le; [lia|intros; apply Rle_refl]].
      intros k Hk. rewrite modulus_mul. rewrite <- (Rmult_1_l Zb). apply Rmult_le_compat; try apply modulus_nonneg; [apply HA; auto|apply HZ; apply IDX]. }
    assert (G2 : (gsum (K := Rops) Kd (fun k => eta * modulus (slots N (IZR (2 ^ e)) a ((j + k) mod n)))%R <= IZR Kd * (eta * Zb))%R).
    { apply Properties_FloatDFT.gsum_const_le; [lia|]. intros k Hk. apply Rmult_le_compat_l; [exact HEt|]. apply HZ, IDX. }
    unfold Y. replace (IZR Kd * ((1 + eta) * Zb))%R with (IZR Kd * Zb + IZR Kd * (eta * Zb))%R by ring. eapply Rle_trans; [apply Rplus_le_compat; [exact G1|eapply Rle_trans; [exact ME|exact G2]]|]. apply Rle_refl. }
  assert (HY : (0 <= Y <= powerRZ 2 900)%R).
  { unfold Y. split; [apply Rmult_le_pos; [lra|apply Rmult_le_pos; lra]|]. apply Rle_trans with (powerRZ 2 17 * (powerRZ 2 18 * powerRZ 2 500))%R; [|rewrite <- !p2_add; apply p2_le; lia].
    pose proof (eta_le (2 ^ d) HD) as EL. fold eta in EL. assert (NL : (IZR N <= IZR (2 ^ 17))%R) by (apply IZR_le, Z.pow_le_mono_r; lia). rewrite !(powerRZ_2 17), !(powerRZ_2 18) by lia.
    apply Rmult_le_compat; [lra|apply Rmult_le_pos; lra|lra|]. apply Rmult_le_compat; [lra|lra| |lra]. change (2 ^ 18) with 262144. change (2 ^ 17) with 131072 in NL. lra. }
  destruct (C85_decode_log_double F HF LOGQ LOGN ltac:(lia) HL (d + e) st2 (repP LOGQ N r) r Y zr zi ltac:(change (2 ^ 30) with 1073741824; change (2 ^ 20) with 1048576 in He; lia) Hst2 Hzr Hzi) as (st2' & z' & E2 & Hst2' & Hz'); auto.
  { split; [apply repP_holds; lia|]. intros i Hi. specialize (Hr i Hi). lia. }
  { intros i Hi. rewrite PW. apply (coef_slots LOGN (fun i => IZR (r i) / IZR (2 ^ d * 2 ^ e))%R Y ltac:(lia)); auto. }
  exists st', (repP LOGQ N r), st2', z'. split; [|split; [exact Hst'|split; [exact E2|split; [exact Hst2'|split]]]].
  - unfold f_pt_mvp. cbv zeta. rewrite rq_setzero_ok by (try lia; apply objectP_obj; auto; lia). cbn [bind].
    rewrite <- E. apply f_equal2; [|reflexivity]. apply for_ext. intros k [[[[st1 v] ro] cv] az] Hk.
    rewrite map_range, lget_tab by auto. reflexivity.
  - exists c. split; [exact Hc|]. intros j Hj. specialize (Hz' j Hj). rewrite PW in Hz'. fold Y.
    replace (gsum Kd (fun k => slots N (IZR (2 ^ d)) (c k) j * slots N (IZR (2 ^ e)) a ((j + k) mod n))%num) with (slots N (IZR (2 ^ d * 2 ^ e)) r j); [exact Hz'|].
    unfold slots. change (fun i => (IZR (r i) / IZR (2 ^ d * 2 ^ e))%R) with (fun i => (zs r i / IZR (2 ^ d * 2 ^ e))%R). rewrite (slots_zs LOGN) by lra. rewrite Hs by auto. rewrite <- (gsum_scale HC). apply gsum_ext. intros k Hk.
    change (fun i => (IZR (c k i) / IZR (2 ^ d))%R) with (fun i => (zs (c k) i / IZR (2 ^ d))%R). change (fun i => (IZR (a i) / IZR (2 ^ e))%R) with (fun i => (zs a i / IZR (2 ^ e))%R).
    rewrite !(slots_zs LOGN) by (apply IZR_neq; lia). rewrite mult_IZR, Rinv_mult. assert (EE : real (/ IZR (2 ^ d) * / IZR (2 ^ e))%R = (real (/ IZR (2 ^ d)) * real (/ IZR (2 ^ e)))%num) by (apply RC_eq; cbn; ring). rewrite EE. ring.
  - intros j Hj. specialize (Hz' j Hj). rewrite PW in Hz'. specialize (ME j Hj). rewrite (apply_dense Kd A _ j Hj).
    set (g := gsum Kd (fun k => (A k j * slots N (IZR (2 ^ e)) a ((j + k) mod n))%num)) in *. set (s := slots N (IZR (2 ^ d * 2 ^ e)) r j) in *.
    replace (z' j - g)%num with ((z' j - s) + (s - g))%num by ring. eapply Rle_trans; [apply modulus_add|].
    assert (G : gsum (K := Rops) Kd (fun k => eta * modulus (slots N (IZR (2 ^ e)) a ((j + k) mod n)))%R = (eta * gsum (K := Rops) Kd (fun k => modulus (slots N (IZR (2 ^ e)) a ((j + k) mod n))))%R) by (apply rsum_scale).
    rewrite G in ME. apply Rle_trans with ((powerRZ 2 (-42) * (IZR N * Y) + powerRZ 2 (-1000)) + eta * gsum (K := Rops) Kd (fun k => modulus (slots N (IZR (2 ^ e)) a ((j + k) mod n))))%R; [apply Rplus_le_compat; assumption|]. right. unfold Y. apply Rfold_add.
Qed.
End Plain.
