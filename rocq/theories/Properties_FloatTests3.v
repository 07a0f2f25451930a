(** C126, continued: coeffToSlot_test.cpp in double precision. *)
From Coq Require Import ZArith List Bool Lia Reals Lra Ring.
From Verif Require Import Base BaseFacts Sums ZQ ZQFacts ZQFacts2 RQ RQFacts Conv Rot Util GSum Core CoreFacts Matrix MatrixFacts MatMulFacts
  DFT DFTTheory DFTFacts FFTFacts SpecZQ SpecPoly SpecPolyFacts SpecScheme ConvFacts SpecMat Properties_Mat Properties_Msg SpecDFT Properties_DFT SpecEnc Properties_Core Properties_Rot Properties_Conv
  GroupFacts SlotFacts Encode EncodeFacts Plain BootFacts Properties_Enc Properties_Plain SpecLin LinTrans LinTransFacts LinSlots GroupSlots SpecBoot BootSlots PlainFacts SpecStat StatFacts Section3 Properties_Stat Properties_MatErr Properties_Serial
  Properties_Lin Properties_Boot Poly EvalMod SpecMod EvalModFacts PiBound EvalModBound Properties_EvalMod SpecPipe Pipeline PipeFacts Properties_Pipe Bootstrap SpecEval EvalFacts Section4 SupFacts MeasFacts Measure UtilFacts Properties_ZQ CtsMeasure CtsProps Messages SupRatio TestProg TestLayers EmTest TestLinT TestBoot TestBootP TestLin TestCts.
From Verif Require Import Float SpecFloat FloatNum Binary64 Properties_Float SpecFloatLin FloatLin FloatSerial FloatGrouped SpecFloatBoot FloatBoot FloatBootSlots FloatBootNum Properties_FloatLin FloatMod SpecFloatMod FloatModFacts FloatModBound Properties_FloatMod.
From Verif Require Import FloatDot FloatMsg Properties_FloatMsg Properties_FloatMsg2 FloatDirect Properties_FloatDFT Properties_FloatDFT2 FloatSetup Properties_FloatSetup FloatTestBoot Properties_FloatTestBoot.
From Verif Require Import FloatSimple Properties_FloatSimple FloatTests Properties_FloatTests Properties_FloatTests2.
Import ListNotations.
Open Scope Z_scope.
Add Ring RCftv : HR.

(** size of the slots of a fresh ciphertext of slots up to X *)
Definition f_start (N LD : Z) (X : R) : R := (X + IZR N * ((enc_off LD X + 8) / IZR (2 ^ LD)))%R.
(** what the conversion of a coefficient to double and the division by the scale may be off, for quotients up to A *)
Definition quot_off (A : R) : R := (powerRZ 2 (-51) * A + powerRZ 2 (-1000))%R.

Section Coef.
Context (F : fpu) (HF : double F).
Let Hu : (0 <= u64 <= / 1024)%R := ar_u _ _ _ _ _ _ _ _ HF.
Let He : (0 <= eta64 <= / 1024)%R := ar_eta _ _ _ _ _ _ _ _ HF.
Let Hr : forall x, (Rabs x <= top64 -> Rabs (rnd F x - x) <= u64 * Rabs x + eta64)%R := ar_rnd _ _ _ _ _ _ _ _ HF.

Lemma f_zq_double_ok Q c : 66 <= Q -> Z.abs c < 2 ^ 64 -> f_zq_double F Q (rep Q c) = Ok (if c <? 0 then (- rnd F (IZR (- c)))%R else rnd F (IZR c)).
Proof.
  intros HQ Hc. pose proof (len_bounds Q ltac:(lia)) as Hl. assert (P : 2 ^ 65 <= 2 ^ (Q - 1)) by (apply Z.pow_le_mono_r; lia). pose proof (pow2_half Q ltac:(lia)) as P2.
  change (2 ^ 65) with (2 * W) in P. change (2 ^ 64) with W in Hc. assert (0 < W) by reflexivity.
  unfold f_zq_double. rewrite zq_copy_rep by (try lia; apply zq_new_length). cbn [bind]. rewrite zq_is_big_rep by lia. cbn [bind].
  assert (RD : forall v, 0 <= v < W -> rd (rep Q v) 0 = Ok v).
  { intros v Hv. unfold rep. rewrite rd_raw by lia. rewrite dg_0. rewrite (Z.mod_small v (2 ^ Q)) by lia. rewrite Z.mod_small by lia. reflexivity. }
  destruct (Z.ltb_spec c 0) as [C|C].
  - assert (E : c mod 2 ^ Q = c + 2 ^ Q) by (symmetry; apply (Z.mod_unique _ _ (-1)); lia). destruct (Z.leb_spec (2 ^ (Q - 1)) (c mod 2 ^ Q)); [|lia]. rewrite zq_negate_rep by lia. cbn [bind]. rewrite RD by lia. reflexivity.
  - rewrite Z.mod_small by lia. destruct (Z.leb_spec (2 ^ (Q - 1)) c); [lia|]. cbn [bind]. rewrite RD by lia. reflexivity.
Qed.
Lemma f_coeff_near Q LD c A : 66 <= Q -> 0 <= LD <= 60 -> Z.abs c < 2 ^ 64 -> (Rabs (IZR c / IZR (2 ^ LD)) <= A)%R ->
  exists v, f_coeff_double F Q LD (rep Q c) = Ok v /\ (Rabs (v - IZR c / IZR (2 ^ LD)) <= quot_off A)%R.
Proof.
  intros HQ HLD Hc HA. unfold f_coeff_double. rewrite f_zq_double_ok by auto. cbn [bind].
  assert (D1 : 1 <= 2 ^ LD <= 2 ^ 60) by (split; [pose proof (Z.pow_pos_nonneg 2 LD); lia|apply Z.pow_le_mono_r; lia]).
  assert (T : (IZR (2 ^ 66) <= top64)%R) by (apply top64_big; lia). change (2 ^ 66) with 73786976294838206464 in T. change (2 ^ 60) with 1152921504606846976 in D1. change (2 ^ 64) with 18446744073709551616 in Hc.
  assert (ED : rnd F (IZR (2 ^ LD)) = IZR (2 ^ LD)).
  { pose proof (ar_exact _ _ _ _ _ _ _ _ HF 1 LD ltac:(lia) ltac:(lia)) as E. rewrite !Rmult_1_l in E. apply E. rewrite Rabs_right by (apply Rle_ge, IZR_le; lia). apply Rle_trans with (IZR 1152921504606846976); [apply IZR_le; lia|lra]. }
  rewrite ED. assert (DR : (1 <= IZR (2 ^ LD))%R) by (apply IZR_le; lia). set (D := IZR (2 ^ LD)) in *.
  assert (CR : (Rabs (IZR c) <= 18446744073709551616)%R) by (rewrite <- abs_IZR; apply IZR_le; lia).
  set (x' := if c <? 0 then (- rnd F (IZR (- c)))%R else rnd F (IZR c)).
  assert (Hx : (Rabs (x' - IZR c) <= u64 * Rabs (IZR c) + eta64)%R).
  { unfold x'. destruct (c <? 0); [|apply Hr; lra]. replace (- rnd F (IZR (- c)) - IZR c)%R with (- (rnd F (IZR (- c)) - IZR (- c)))%R by (rewrite opp_IZR; ring). rewrite Rabs_Ropp. replace (Rabs (IZR c)) with (Rabs (IZR (- c))) by (rewrite opp_IZR; apply Rabs_Ropp).
    apply Hr. rewrite opp_IZR, Rabs_Ropp. lra. }
  unfold f_div. destruct (Req_EM_T D 0); [lra|]. eexists. split; [reflexivity|]. assert (ID : (0 < / D <= 1)%R). { split; [apply Rinv_0_lt_compat; lra|]. rewrite <- Rinv_1. apply Rinv_le_contravar; lra. }
  set (q := (IZR c / D)%R) in *. assert (AQ : Rabs q = (Rabs (IZR c) * / D)%R) by (unfold q, Rdiv; rewrite Rabs_mult, (Rabs_right (/ D)) by lra; reflexivity).
  pose proof (Rabs_pos (IZR c)) as C0. pose proof (Rabs_pos q) as Q0. assert (Q1 : (Rabs q <= Rabs (IZR c))%R) by (rewrite AQ; rewrite <- (Rmult_1_r (Rabs (IZR c))) at 2; apply Rmult_le_compat_l; lra).
  assert (E1 : (Rabs (x' / D - q) <= u64 * Rabs q + eta64)%R).
  { replace (x' / D - q)%R with ((x' - IZR c) * / D)%R by (unfold q; field; lra). rewrite Rabs_mult, (Rabs_right (/ D)) by lra. apply Rle_trans with ((u64 * Rabs (IZR c) + eta64) * / D)%R; [apply Rmult_le_compat_r; lra|].
    rewrite AQ. replace ((u64 * Rabs (IZR c) + eta64) * / D)%R with (u64 * (Rabs (IZR c) * / D) + eta64 * / D)%R by ring. apply Rplus_le_compat_l. rewrite <- (Rmult_1_r eta64) at 2. apply Rmult_le_compat_l; lra. }
  set (aq := Rabs q) in *. assert (U1 : (0 <= u64 * aq <= / 1024 * aq)%R) by (split; [apply Rmult_le_pos|apply Rmult_le_compat_r]; lra).
  assert (E2 : (Rabs (x' / D) <= aq + u64 * aq + eta64)%R). { replace (x' / D)%R with (q + (x' / D - q))%R by ring. eapply Rle_trans; [apply Rabs_triang|]. fold aq. lra. }
  pose proof (rd_err u64 eta64 top64 (rnd F) Hu Hr _ _ E2 ltac:(lra)) as E3.
  assert (U2 : (u64 * (aq + u64 * aq + eta64) <= u64 * aq + / 1024 * (u64 * aq) + / 1024 * eta64)%R).
  { assert (u64 * (u64 * aq) <= / 1024 * (u64 * aq))%R by (apply Rmult_le_compat_r; lra). assert (u64 * eta64 <= / 1024 * eta64)%R by (apply Rmult_le_compat_r; lra). lra. }
  unfold quot_off. pose proof (u_is 2 ltac:(lia)) as U51. change (2 - 53) with (-51) in U51. change (2 ^ 2) with 4 in U51. rewrite <- U51. assert (UA : (u64 * aq <= u64 * A)%R) by (apply Rmult_le_compat_l; lra).
  pose proof (eta_scaled (-1000) 2 ltac:(lia) ltac:(lia)) as E10. change (2 ^ 2) with 4 in E10.
  apply abs_inv in E1, E3. apply Rabs_le. lra.
Qed.
End Coef.

Section CT.
Context (F : fpu) (HF : double F) (lpow : R -> R -> R) (pw : R) (Hpw : power_within pw lpow) (Hp52 : (pw <= powerRZ 2 (-52))%R).
Context (LOGQ LOGN LD h RM : Z) (rnd : nat -> Z) (G D : nat).
Context (HQ : 66 <= LOGQ <= 1525) (HL : 2 <= LOGN <= 17) (HD : 0 <= LD <= 60) (Hh : 0 <= h) (Hr : rand_stream RM rnd) (HG : (1 <= G <= 4)%nat) (HGD : LOGN - 1 = Z.of_nat (G * D)).
Local Notation N := (2 ^ LOGN).
Local Notation n := (2 ^ (LOGN - 1)).
Local Notation E := (16 * N + 1 + h).

Lemma f_start_ok m' (z : Z -> CC) X : (forall j, 0 <= j < n -> (modulus (z j) <= X)%R) -> (forall j, 0 <= j < n -> (modulus (slots N (IZR (2 ^ LD)) m' j - z j)%num <= IZR N * ((enc_off LD X + 8) / IZR (2 ^ LD)))%R) ->
  forall j, 0 <= j < n -> (modulus (slots N (IZR (2 ^ LD)) m' j) <= f_start N LD X)%R.
Proof. intros Hz H j Hj. eapply Rle_trans; [apply (modulus_near _ (z j))|]. unfold f_start. apply Rplus_le_compat; auto. Qed.
Lemma f_coef_size (m : Z -> R) (z : Z -> CC) (c : Z) X i : (forall j, 0 <= j < n -> slot N m j = z j) -> (forall j, 0 <= j < n -> (modulus (z j) <= X)%R) -> 0 <= i < N -> (Rabs (IZR c - m i * IZR (2 ^ LD)) <= enc_off LD X)%R ->
  (Rabs (IZR c / IZR (2 ^ LD)) <= f_start N LD X)%R.
Proof.
  intros Hm Hz Hi Hc. pose proof (n_pos LOGN ltac:(lia)) as Hn. pose proof (N2 LOGN ltac:(lia)) as HN2. assert (X0 : (0 <= X)%R) by (eapply Rle_trans; [apply modulus_nonneg|apply (Hz 0); lia]). pose proof (enc_off_pos LD X ltac:(lia) X0) as EO.
  assert (Dp : (0 < IZR (2 ^ LD))%R) by (apply IZR_lt, Z.pow_pos_nonneg; lia). set (DD := IZR (2 ^ LD)) in *. assert (ID : (0 < / DD)%R) by (apply Rinv_0_lt_compat; lra).
  assert (MX : (Rabs (m i) <= X)%R) by (apply (coef_slots LOGN m X ltac:(lia)); auto; intros j Hj; rewrite (Hm j Hj); apply Hz; exact Hj).
  replace (IZR c / DD)%R with (m i + (IZR c - m i * DD) * / DD)%R by (field; lra). eapply Rle_trans; [apply Rabs_triang|]. unfold f_start. fold DD. apply Rplus_le_compat; [exact MX|].
  rewrite Rabs_mult, (Rabs_right (/ DD)) by lra. apply Rle_trans with (enc_off LD X * / DD)%R; [apply Rmult_le_compat_r; lra|]. assert (NR : (1 <= IZR N)%R) by (apply IZR_le; lia).
  apply Rle_trans with (1 * ((enc_off LD X + 8) / DD))%R; [rewrite Rmult_1_l; unfold Rdiv; apply Rmult_le_compat_r; lra|]. apply Rmult_le_compat_r; [unfold Rdiv; apply Rmult_le_pos; lra|lra].
Qed.

Theorem C126_CoeffToSlot_test : forall fuel LDt stc st st2 pos (z : Z -> CC) X, 1 <= LDt <= 62 -> f_cts_static F lpow LOGQ LOGN LDt (Z.of_nat G) stc -> f_ifft_static F LOGN st -> f_fft_static F LOGN st2 ->
  (forall j, 0 <= j < n -> (modulus (z j) <= X)%R) -> (X * IZR (2 ^ LD) + powerRZ 2 (-41) * (X * IZR (2 ^ LD)) + 2 < IZR (2 ^ 64))%R ->
  let z0 := f_start N LD X in let e := f_cts_error N (2 ^ LDt) E D (f_row N (2 ^ LDt) G (powerRZ 2 (-40)) (enc41 2 (2 ^ LDt))) z0 (IZR (2 ^ LD)) in
  (IZR (2 ^ (LD + Z.of_nat D * LDt)) * (z0 + e) < IZR (2 ^ (LOGQ - 1)))%R -> (z0 + e <= powerRZ 2 900)%R ->
  keygen fuel N rnd h (fresh N) pos = Diverge /\ f_CoeffToSlot_test F lpow fuel LOGQ LOGN LD LDt (Z.of_nat G) h RM rnd stc st st2 pos (carray (K := Rops) n z) = Diverge \/
  exists stc' st' st2' pos' res ex, f_CoeffToSlot_test F lpow fuel LOGQ LOGN LD LDt (Z.of_nat G) h RM rnd stc st st2 pos (carray (K := Rops) n z) = Ok (stc', st', st2', pos', (carray (K := Rops) n res, carray (K := Rops) n ex)) /\
    forall m, (forall j, 0 <= j < n -> slot N m j = z j) -> forall j r, 0 <= j < n -> reverses (LOGN - 1) j r ->
      (Rabs (fst (ex j) - m r) <= enc_off LD X / IZR (2 ^ LD) + quot_off z0)%R /\ (Rabs (snd (ex j) - m (r + n)%Z) <= enc_off LD X / IZR (2 ^ LD) + quot_off z0)%R /\
      (Rabs (fst (res j) - fst (ex j)) <= e + dec_off N (z0 + e) + 8 / IZR (2 ^ LD) + quot_off z0)%R /\ (Rabs (snd (res j) - snd (ex j)) <= e + dec_off N (z0 + e) + 8 / IZR (2 ^ LD) + quot_off z0)%R.
Proof.
  intros fuel LDt stc st st2 pos z X HDt Hstc Hst Hst2 Hz HX z0 e Hsz H9. pose proof (n_pos LOGN ltac:(lia)) as Hn. pose proof (N2 LOGN ltac:(lia)) as HN2.
  assert (Eq : Z.quot N 2 = n) by (apply half_quot; lia). unfold f_CoeffToSlot_test. cbv zeta. rewrite Eq.
  destruct (C34_keygen fuel N rnd RM h (fresh N) pos ltac:(lia) ltac:(lia) Hr (repeat_length _ _)) as [E0|(s & pos1 & E0 & Hs & Hw)]; [left; rewrite E0; split; reflexivity|right].
  rewrite E0. cbn [bind]. rewrite <- norm1_count in Hw by exact Hs.
  rewrite !(C68_new (K := Rops)) by lia. cbn [bind].
  destruct (some_m LOGN ltac:(lia) z) as [m Hm].
  destruct (f_enc_coefs F HF LOGN HL LOGQ LD RM rnd s st pos1 z m X ltac:(lia) ltac:(lia) Hr Hs Hst Hm Hz HX) as (st1 & pt & c & ct & pos2 & m' & E1 & Hst1 & Hc & E2 & Hct & HP & HS0). assert (HB : forall j, 0 <= j < n -> (modulus (slots N (IZR (2 ^ LD)) m' j) <= z0)%R) by (apply (f_start_ok m' z X); auto).
  match goal with |- context [f_encode F LOGQ LOGN st ?x ?y ?u ?v] => replace (f_encode F LOGQ LOGN st x y u v) with (Ok (st1, pt)) by (symmetry; exact E1) end. cbn [bind]. rewrite E2. cbn [bind].
  assert (W1 : widths LOGQ) by (unfold widths; lia). assert (W2 : widths (2 * LOGQ)) by (unfold widths; lia). assert (LQ : 1 <= LOGQ) by lia.
  assert (EE : noise N (coef s) = E) by (unfold noise; rewrite Hw; reflexivity).
  assert (Dp : (0 < IZR (2 ^ LD))%R) by (apply IZR_lt, Z.pow_pos_nonneg; lia).
  destruct (C109_CoeffToSlot_double F HF LOGQ LOGN LDt RM rnd s W1 W2 ltac:(lia) HL ltac:(lia) Hr Hs lpow pw Hpw Hp52 G D HG HGD z0 (IZR (2 ^ LD)) ct m' stc st1 pos2 (sq_new LOGQ N) (sq_new LOGQ N)) as (stc' & st' & pos' & ct0 & ct1 & w0 & w1 & F1 & Hstc' & Hst' & Hw0 & Hw1 & Hcs); auto; try lia.
  { apply new_object2; lia. } { apply new_object2; lia. }
  rewrite EE in Hcs. fold e in Hcs. rewrite F1. cbn [bind]. destruct (Z.eqb_spec (Z.of_nat G) 0) as [|HG0]; [lia|]. cbn [negb guard bind].
  assert (Ed : Z.quot (LOGN - 1) (Z.of_nat G) = Z.of_nat D) by (rewrite HGD, Nat2Z.inj_mul, Z.mul_comm; apply Z.quot_mul; lia). rewrite Ed.
  set (sc := LD + Z.of_nat D * LDt) in *. assert (D16 : Z.of_nat D <= 16) by nia.
  assert (S30 : 0 <= sc <= 2 ^ 30) by (change (2 ^ 30) with 1073741824; nia). assert (Q30 : LOGQ <= 2 ^ 30) by (change (2 ^ 30) with 1073741824; lia).
  assert (ES : (IZR (2 ^ LDt) ^ D * IZR (2 ^ LD))%R = IZR (2 ^ sc)).
  { rewrite pow_IZR, <- mult_IZR. f_equal. rewrite <- Z.pow_mul_r, <- Z.pow_add_r by lia. f_equal. lia. }
  rewrite ES in Hcs. assert (PS : powerRZ 2 sc = IZR (2 ^ sc)) by (apply powerRZ_2; lia). assert (Sp : (0 < IZR (2 ^ sc))%R) by (apply IZR_lt, Z.pow_pos_nonneg; lia).
  assert (Hco : forall i, 0 <= i < N -> (Rabs (IZR (m' i) / IZR (2 ^ LD)) <= z0)%R) by (apply (coef_slots LOGN); [lia|exact HB]).
  assert (Rv : forall j, 0 <= j < n -> reverses (LOGN - 1) j (brv (Z.to_nat (LOGN - 1)) j)) by (intros j Hj; apply reverses_brv; [lia|reflexivity]).
  set (rev := brv (Z.to_nat (LOGN - 1))) in *. assert (Hrn : forall j, 0 <= j < n -> 0 <= rev j < n) by (intros j Hj; apply (Rv j Hj)).
  set (x0 := fun j => real (IZR (m' (rev j)) / IZR (2 ^ LD))). set (x1 := fun j => real (IZR (m' (rev j + n)%Z) / IZR (2 ^ LD))).
  assert (ON : objectP LOGQ N (rq_new LOGQ N)) by (apply objP_object; try lia; apply objP_new).
  destruct (C35_dec LOGQ N ct0 s w0 (rq_new LOGQ N) LQ ltac:(lia) Hs ON Hw0) as (pt0 & F2 & P2).
  destruct (C35_dec LOGQ N ct1 s w1 (rq_new LOGQ N) LQ ltac:(lia) Hs ON Hw1) as (pt1 & F3 & P3).
  destruct (carray_of_carray n (fun _ => 0%num)) as [Ca Cb].
  destruct (f_decode_slots F HF LOGN HL LOGQ sc st2 pt0 w0 x0 e z0 (fst (carray (K := Rops) n (fun _ => (0%num : CC)))) (snd (carray (K := Rops) n (fun _ => (0%num : CC)))) ltac:(lia) ltac:(lia) Hst2 P2) as (st2b & y0 & G2 & Hst2b & HY0); auto.
  { intros j Hj. apply (Hcs j (rev j) Hj (Rv j Hj)). } { intros j Hj. unfold x0. rewrite modulus_real. apply Hco. specialize (Hrn j Hj). lia. }
  destruct (f_decode_slots F HF LOGN HL LOGQ sc st2b pt1 w1 x1 e z0 (fst (carray (K := Rops) n (fun _ => (0%num : CC)))) (snd (carray (K := Rops) n (fun _ => (0%num : CC)))) ltac:(lia) ltac:(lia) Hst2b P3) as (st2c & y1 & G3 & _ & HY1); auto.
  { intros j Hj. apply (Hcs j (rev j) Hj (Rv j Hj)). } { intros j Hj. unfold x1. rewrite modulus_real. apply Hco. specialize (Hrn j Hj). lia. }
  rewrite int_in by (change (2 ^ 30) with 1073741824 in S30; lia). cbn [bind]. rewrite F2. cbn [bind].
  match goal with |- context [f_decode_log F LOGQ LOGN st2 ?a ?b ?c ?d] => replace (f_decode_log F LOGQ LOGN st2 a b c d) with (Ok (st2b, carray (K := Rops) n y0)) by (symmetry; exact G2) end. cbn [bind]. rewrite F3. cbn [bind].
  match goal with |- context [f_decode_log F LOGQ LOGN st2b ?a ?b ?c ?d] => replace (f_decode_log F LOGQ LOGN st2b a b c d) with (Ok (st2c, carray (K := Rops) n y1)) by (symmetry; exact G3) end. cbn [bind].
  match goal with |- context [for_ 0 n ?f ?p] => replace (for_ 0 n f p) with (Ok (carray (K := Rops) n (fun j => (fst (y0 j), fst (y1 j))))) end.
  2:{ symmetry. apply (msg_loop (K := Rops)); [lia|apply carray_of_carray|]. intros i a b Hi. rewrite !carray_cvtab. cbn [fst snd cvtab]. rewrite !grd_gtab by auto. cbn [bind]. rewrite gwr_tab by auto. cbn [bind]. rewrite gwr_tab by auto. reflexivity. }
  cbn [bind].
  assert (CQ : forall i, 0 <= i < N -> exists v, f_coeff_double F LOGQ LD (rep LOGQ (c i)) = Ok v /\ (Rabs (v - IZR (c i) / IZR (2 ^ LD)) <= quot_off z0)%R).
  { intros i Hi. apply (f_coeff_near F HF); try lia; [apply HP; exact Hi|]. apply (f_coef_size m z (c i) X i); auto. apply HP; exact Hi. }
  destruct (fin_choice 0%R N _ CQ) as [q HQ']. clear CQ.
  match goal with |- context [for_ 0 n ?f ?p] => replace (for_ 0 n f p) with (Ok (carray (K := Rops) n (fun j => (q (rev j), q (rev j + n)%Z)))) end.
  2:{ symmetry. apply (msg_loop (K := Rops)); [lia|apply carray_of_carray|]. intros i a b Hi. destruct (brv_L LOGN ltac:(lia) i Hi) as (E5 & E6 & _). fold rev in E5, E6. rewrite E5. cbn [bind].
    destruct Hc as [Hc _]. apply holdsP_rep in Hc; try lia. subst pt.
    assert (BB : n <= 2 ^ 16) by (apply Z.pow_le_mono_r; lia). change (2 ^ 16) with 65536 in BB.
    rewrite Z.mod_small by (change (2 ^ 32) with 4294967296; lia). unfold repP. rewrite !lget_tab by lia. cbn [bind]. rewrite (proj1 (HQ' (rev i) ltac:(lia))). cbn [bind]. rewrite (proj1 (HQ' (rev i + n) ltac:(lia))). cbn [bind].
    rewrite gwr_tab by auto. cbn [bind]. rewrite gwr_tab by auto. reflexivity. }
  cbn [bind]. do 6 eexists. split; [reflexivity|]. intros p Hp j r Hj Hrev.
  assert (EQ : forall i, 0 <= i < N -> p i = m i).
  { intros i Hi. apply Rminus_diag_uniq. assert (Z0 : (Rabs (p i - m i) <= 0)%R). { apply (coef_slots LOGN (fun i => p i - m i)%R 0%R); auto; try lia. intros k Hk. rewrite slot_sub, (Hp k Hk), (Hm k Hk). replace (z k - z k)%num with (0%num : CC) by ring. rewrite modulus_0. lra. } pose proof (Rabs_pos (p i - m i)). destruct (Req_dec (p i - m i) 0) as [->|Hne]; [reflexivity|]. apply Rabs_pos_lt in Hne. lra. }
  pose proof (proj1 (reverses_brv (LOGN - 1) j r ltac:(lia)) Hrev) as ER. fold rev in ER. subst r. specialize (Hrn j Hj). rewrite !EQ by lia. cbn [fst snd].
  pose proof (HY0 j Hj) as A0. pose proof (HY1 j Hj) as A1. unfold x0 in A0. unfold x1 in A1.
  assert (RE : forall (y : CC) v b, (modulus (y - real v)%num <= b)%R -> (Rabs (fst y - v) <= b)%R).
  { intros y v b H. eapply Rle_trans; [|exact H]. replace (fst y - v)%R with (cre Rops (y - real v)%num) by (destruct y; cbn; ring). apply modulus_cre. }
  apply RE in A0, A1.
  assert (HN : forall i, 0 <= i < N -> (Rabs (q i - m i) <= enc_off LD X / IZR (2 ^ LD) + quot_off z0)%R /\ (Rabs (IZR (m' i) / IZR (2 ^ LD) - q i) <= 8 / IZR (2 ^ LD) + quot_off z0)%R).
  { intros i Hi. destruct (HP i Hi) as (H1 & _ & H3 & _). assert (Ip : (0 < / IZR (2 ^ LD))%R) by (apply Rinv_0_lt_compat; auto). destruct (HQ' i Hi) as [_ HQ'']. split.
    - replace (q i - m i)%R with ((q i - IZR (c i) / IZR (2 ^ LD)) + (IZR (c i) - m i * IZR (2 ^ LD)) * / IZR (2 ^ LD))%R by (field; lra). eapply Rle_trans; [apply Rabs_triang|]. rewrite Rplus_comm. apply Rplus_le_compat; [|exact HQ''].
      unfold Rdiv. rewrite Rabs_mult, (Rabs_right (/ IZR (2 ^ LD))) by lra. apply Rmult_le_compat_r; lra.
    - replace (IZR (m' i) / IZR (2 ^ LD) - q i)%R with (IZR (m' i - c i) * / IZR (2 ^ LD) + - (q i - IZR (c i) / IZR (2 ^ LD)))%R by (rewrite minus_IZR; field; lra). eapply Rle_trans; [apply Rabs_triang|]. apply Rplus_le_compat; [|rewrite Rabs_Ropp; exact HQ''].
      unfold Rdiv. rewrite Rabs_mult, (Rabs_right (/ IZR (2 ^ LD))), <- abs_IZR by lra. apply Rmult_le_compat_r; [lra|]. apply IZR_le. exact H3. }
  destruct (HN (rev j) ltac:(lia)) as [N1 N3]. destruct (HN (rev j + n) ltac:(lia)) as [N4 N5].
  split; [exact N1|]. split; [exact N4|].
  assert (TT : forall a b cc e1 e2, (Rabs (a - b) <= e1)%R -> (Rabs (b - cc) <= e2)%R -> (Rabs (a - cc) <= e1 + e2)%R).
  { intros a b cc e1 e2 H1 H2. replace (a - cc)%R with ((a - b) + (b - cc))%R by ring. eapply Rle_trans; [apply Rabs_triang|]. lra. }
  split; (eapply Rle_trans; [eapply TT; [eassumption|eassumption]|lra]).
Qed.

(** CoeffToSlot with scale 2^LDt, then SlotToCoeff with scale 2^LDb: the message comes back *)
Theorem C126_CoeffToSlot_SlotToCoeff_test : forall fuel LDb LDt stc sts st st2 pos (z : Z -> CC) X, 1 <= LDt <= 62 -> 1 <= LDb -> LDb + Z.of_nat G <= 63 ->
  f_cts_static F lpow LOGQ LOGN LDt (Z.of_nat G) stc -> f_stc_static F LOGQ LOGN LDb (Z.of_nat G) sts -> f_ifft_static F LOGN st -> f_fft_static F LOGN st2 ->
  (forall j, 0 <= j < n -> (modulus (z j) <= X)%R) -> (X * IZR (2 ^ LD) + powerRZ 2 (-41) * (X * IZR (2 ^ LD)) + 2 < IZR (2 ^ 64))%R ->
  let z0 := f_start N LD X in let e := f_cts_error N (2 ^ LDt) E D (f_row N (2 ^ LDt) G (powerRZ 2 (-40)) (enc41 2 (2 ^ LDt))) z0 (IZR (2 ^ LD)) in
  let b := (f_stc_error N (2 ^ LDb) E G D (f_row N (2 ^ LDb) G (powerRZ 2 (-37)) (enc41 (2 ^ G) (2 ^ LDb))) (z0 + e) (IZR (2 ^ LDt) ^ D * IZR (2 ^ LD)) + e + e + (enc_off LD X + 8) / IZR (2 ^ LD))%R in
  (IZR (2 ^ (LD + Z.of_nat D * LDt + Z.of_nat D * LDb)) * (X + IZR N * b) < IZR (2 ^ (LOGQ - 1)))%R -> (X + IZR N * b <= powerRZ 2 900)%R ->
  keygen fuel N rnd h (fresh N) pos = Diverge /\ f_CoeffToSlot_SlotToCoeff_test F lpow fuel LOGQ LOGN LD LDb LDt (Z.of_nat G) h RM rnd stc sts st st2 pos (carray (K := Rops) n z) = Diverge \/
  exists stc' sts' st' st2' pos' y, f_CoeffToSlot_SlotToCoeff_test F lpow fuel LOGQ LOGN LD LDb LDt (Z.of_nat G) h RM rnd stc sts st st2 pos (carray (K := Rops) n z) = Ok (stc', sts', st', st2', pos', carray (K := Rops) n y) /\
    forall j, 0 <= j < n -> (modulus (y j - z j)%num <= IZR N * b + dec_off N (X + IZR N * b))%R.
Proof.
  intros fuel LDb LDt stc sts st st2 pos z X HDt HDb0 HDb Hstc Hsts Hst Hst2 Hz HX z0 e b Hsz H9. pose proof (n_pos LOGN ltac:(lia)) as Hn. pose proof (N2 LOGN ltac:(lia)) as HN2.
  assert (Eq : Z.quot N 2 = n) by (apply half_quot; lia). unfold f_CoeffToSlot_SlotToCoeff_test. cbv zeta. rewrite Eq.
  destruct (C34_keygen fuel N rnd RM h (fresh N) pos ltac:(lia) ltac:(lia) Hr (repeat_length _ _)) as [E0|(s & pos1 & E0 & Hs & Hw)]; [left; rewrite E0; split; reflexivity|right].
  rewrite E0. cbn [bind]. rewrite <- norm1_count in Hw by exact Hs.
  rewrite !(C68_new (K := Rops)) by lia. cbn [bind].
  destruct (some_m LOGN ltac:(lia) z) as [m Hm].
  destruct (f_enc_coefs F HF LOGN HL LOGQ LD RM rnd s st pos1 z m X ltac:(lia) ltac:(lia) Hr Hs Hst Hm Hz HX) as (st1 & pt & c & ct & pos2 & m' & E1 & Hst1 & Hc & E2 & Hct & HP & HS0). assert (HB : forall j, 0 <= j < n -> (modulus (slots N (IZR (2 ^ LD)) m' j) <= z0)%R) by (apply (f_start_ok m' z X); auto).
  match goal with |- context [f_encode F LOGQ LOGN st ?x ?y ?u ?v] => replace (f_encode F LOGQ LOGN st x y u v) with (Ok (st1, pt)) by (symmetry; exact E1) end. cbn [bind]. rewrite E2. cbn [bind].
  assert (W1 : widths LOGQ) by (unfold widths; lia). assert (W2 : widths (2 * LOGQ)) by (unfold widths; lia). assert (LQ : 1 <= LOGQ) by lia.
  assert (EE : noise N (coef s) = E) by (unfold noise; rewrite Hw; reflexivity).
  assert (Dp : (0 < IZR (2 ^ LD))%R) by (apply IZR_lt, Z.pow_pos_nonneg; lia). assert (Dtp : (0 < IZR (2 ^ LDt))%R) by (apply IZR_lt, Z.pow_pos_nonneg; lia).
  destruct (C109_CoeffToSlot_double F HF LOGQ LOGN LDt RM rnd s W1 W2 ltac:(lia) HL ltac:(lia) Hr Hs lpow pw Hpw Hp52 G D HG HGD z0 (IZR (2 ^ LD)) ct m' stc st1 pos2 (sq_new LOGQ N) (sq_new LOGQ N)) as (stc' & st' & pos' & ct0 & ct1 & w0 & w1 & F1 & Hstc' & Hst' & Hw0 & Hw1 & Hcs); auto; try lia.
  { apply new_object2; lia. } { apply new_object2; lia. }
  rewrite EE in Hcs. fold e in Hcs. rewrite F1. cbn [bind].
  assert (Hco : forall i, 0 <= i < N -> (Rabs (IZR (m' i) / IZR (2 ^ LD)) <= z0)%R) by (apply (coef_slots LOGN); [lia|exact HB]).
  assert (Rv : forall j, 0 <= j < n -> reverses (LOGN - 1) j (brv (Z.to_nat (LOGN - 1)) j)) by (intros j Hj; apply reverses_brv; [lia|reflexivity]).
  set (rev := brv (Z.to_nat (LOGN - 1))) in *. assert (Hrn : forall j, 0 <= j < n -> 0 <= rev j < n) by (intros j Hj; apply (Rv j Hj)).
  set (D1 := (IZR (2 ^ LDt) ^ D * IZR (2 ^ LD))%R) in *. assert (D1p : (0 < D1)%R) by (apply Rmult_lt_0_compat; auto; apply pow_lt; auto).
  destruct (C110_SlotToCoeff_double F HF LOGQ LOGN LDb RM rnd s W1 W2 ltac:(lia) HL ltac:(lia) Hr Hs G D HG HGD (z0 + e) D1 e e (fun i => IZR (m' i) / IZR (2 ^ LD))%R ct0 ct1 w0 w1 sts st' pos' (sq_new LOGQ N)) as (sts' & st'' & pos'' & ct' & w & F2 & Hsts' & Hst'' & Hww & Hb); auto; try lia.
  { apply new_object2; lia. }
  { intros j Hj. destruct (Hcs j (rev j) Hj (Rv j Hj)) as [A0 A1]. specialize (Hrn j Hj). split; (eapply Rle_trans; [eapply modulus_near|]; apply Rplus_le_compat; [|eassumption]); rewrite modulus_real; apply Hco; lia. }
  rewrite EE in Hb. rewrite F2. cbn [bind].
  assert (ON : objectP LOGQ N (rq_new LOGQ N)) by (apply objP_object; try lia; apply objP_new).
  destruct (C35_dec LOGQ N ct' s w (rq_new LOGQ N) LQ ltac:(lia) Hs ON Hww) as (pt' & F3 & P3). rewrite F3. cbn [bind].
  destruct (Z.eqb_spec (Z.of_nat G) 0) as [|HG0]; [lia|]. cbn [negb guard bind].
  assert (Ed : Z.quot (LOGN - 1) (Z.of_nat G) = Z.of_nat D) by (rewrite HGD, Nat2Z.inj_mul, Z.mul_comm; apply Z.quot_mul; lia). rewrite Ed.
  set (sc := LD + Z.of_nat D * LDt + Z.of_nat D * LDb) in *. assert (D16 : Z.of_nat D <= 16) by nia.
  assert (S30 : 0 <= sc <= 2 ^ 30) by (change (2 ^ 30) with 1073741824; nia). assert (Q30 : LOGQ <= 2 ^ 30) by (change (2 ^ 30) with 1073741824; lia).
  assert (ES : (IZR (2 ^ LDb) ^ D * D1)%R = IZR (2 ^ sc)).
  { unfold D1. rewrite !pow_IZR, <- !mult_IZR. f_equal. rewrite <- !Z.pow_mul_r, <- !Z.pow_add_r by lia. f_equal. lia. }
  rewrite ES in Hb. assert (PS : powerRZ 2 sc = IZR (2 ^ sc)) by (apply powerRZ_2; lia). assert (Sp : (0 < IZR (2 ^ sc))%R) by (apply IZR_lt, Z.pow_pos_nonneg; lia).
  assert (HFF : forall j, 0 <= j < n -> (modulus (slots N (IZR (2 ^ sc)) w j - z j)%num <= IZR N * b)%R).
  { intros j Hj. rewrite <- (Hm j Hj). unfold slots. rewrite <- slot_sub. apply modulus_slot; [lia|]. intros i Hi. destruct (HP i Hi) as (_ & _ & _ & H4). specialize (Hb i Hi).
    replace (IZR (w i) / IZR (2 ^ sc) - m i)%R with ((IZR (w i) / IZR (2 ^ sc) - IZR (m' i) / IZR (2 ^ LD)) + (IZR (m' i) / IZR (2 ^ LD) - m i))%R by ring. eapply Rle_trans; [apply Rabs_triang|]. unfold b. lra. }
  destruct (carray_of_carray n (fun _ => 0%num)) as [Ca Cb].
  destruct (f_decode_slots F HF LOGN HL LOGQ sc st2 pt' w z (IZR N * b)%R X (fst (carray (K := Rops) n (fun _ => (0%num : CC)))) (snd (carray (K := Rops) n (fun _ => (0%num : CC)))) ltac:(lia) ltac:(lia) Hst2 P3 HFF Hz Hsz H9 Ca Cb) as (st2b & y & G2 & _ & HY).
  rewrite int_in by (change (2 ^ 30) with 1073741824 in S30; lia). cbn [bind].
  match goal with |- context [f_decode_log F LOGQ LOGN st2 ?a ?b ?c ?d] => replace (f_decode_log F LOGQ LOGN st2 a b c d) with (Ok (st2b, carray (K := Rops) n y)) by (symmetry; exact G2) end. cbn [bind].
  do 6 eexists. split; [reflexivity|]. exact HY.
Qed.
End CT.

(** The parameters of test.h: LOGQ 1450, LOGN 9, LOGDELTA 50, LOGDELTA_boot 60, LOGDELTA_boot_tilde 60, G 2, H 128 *)
Local Notation dlc := (f_row 512 (2 ^ 60) 2 (powerRZ 2 (-40)) (enc41 2 (2 ^ 60))).
Local Notation dls := (f_row 512 (2 ^ 60) 2 (powerRZ 2 (-37)) (enc41 (2 ^ 2) (2 ^ 60))).
Local Notation z9 := (f_start 512 50 1).
Local Notation e9 := (f_cts_error 512 (2 ^ 60) 8321 4 dlc z9 (IZR (2 ^ 50))).
Local Notation s9 := (f_stc_error 512 (2 ^ 60) 8321 2 4 dls (z9 + e9) (IZR (2 ^ 60) ^ 4 * IZR (2 ^ 50))).
Lemma pw_is k : 0 <= k -> powerRZ 2 (- k) = (/ IZR (2 ^ k))%R.
Proof. intros Hk. rewrite powerRZ_neg', powerRZ_2 by lia. reflexivity. Qed.
Lemma pw37 : powerRZ 2 (-37) = (/ 137438953472)%R. Proof. exact (pw_is 37 ltac:(lia)). Qed.
Lemma pw40 : powerRZ 2 (-40) = (/ 1099511627776)%R. Proof. exact (pw_is 40 ltac:(lia)). Qed.
Lemma pw41 : powerRZ 2 (-41) = (/ 2199023255552)%R. Proof. exact (pw_is 41 ltac:(lia)). Qed.
Lemma pw51 : powerRZ 2 (-51) = (/ 2251799813685248)%R. Proof. exact (pw_is 51 ltac:(lia)). Qed.
Lemma pw60 : powerRZ 2 (-60) = (/ 1152921504606846976)%R. Proof. exact (pw_is 60 ltac:(lia)). Qed.
Lemma row_num B e : (0 <= B)%R -> (0 <= e)%R -> (0 <= f_row 512 (2 ^ 60) 2 e (enc41 B (2 ^ 60)) <= e + 4608 * (/ 1152921504606846976 + powerRZ 2 (-41) * B))%R.
Proof.
  intros HB He. unfold f_row, encoded_error, enc41. change (3 ^ Z.of_nat 2) with 9. change (2 ^ 60) with 1152921504606846976. pose proof (p2_pos (-41)). pose proof (p2_pos (-900)). pose proof (small_p (-900) ltac:(lia)).
  assert (0 <= powerRZ 2 (-41) * B)%R by (apply Rmult_le_pos; lra). set (x := powerRZ 2 (-41)) in *.
  replace ((/ 2 + (x * (B * 1152921504606846976) + powerRZ 2 (-900))) / 1152921504606846976)%R with ((/ 2 + powerRZ 2 (-900)) / 1152921504606846976 + x * B)%R by field. lra.
Qed.
Lemma z9_num : (1 <= z9 <= 101 / 100)%R.
Proof.
  unfold f_start. pose proof num_enc_off as EO. replace ((enc_off 50 1 + 8) / IZR (2 ^ 50))%R with (enc_off 50 1 / IZR (2 ^ 50) + 8 / IZR (2 ^ 50))%R by (unfold Rdiv; ring). set (y := (enc_off 50 1 / IZR (2 ^ 50))%R) in *. change (2 ^ 50) with 1125899906842624. cbn [pow] in EO. lra.
Qed.
Lemma e9_num : (0 <= e9 <= 4 / 10 ^ 8)%R.
Proof.
  set (k := (IZR 512 * IZR 8321 / (2 * IZR (2 ^ 50)))%R). set (k' := (IZR 512 * IZR 8321 / (2 * (IZR (2 ^ 60) * IZR (2 ^ 50))))%R).
  assert (Hk : forall d, (0 <= switch_noise 512 (2 ^ 60) 8321 (IZR (2 ^ 50)) d <= (match d with O => k | _ => k' end))%R).
  { intros [|d].
    - destruct (switch_noise_mono 512 (2 ^ 60) 8321 8321 (IZR (2 ^ 50)) 0 1%R) as [A1 A2]; try lra; try lia. rewrite Rmult_1_l in A2. fold k in A2. split; [exact A1|exact A2].
    - destruct (switch_noise_mono 512 (2 ^ 60) 8321 8321 (IZR (2 ^ 50)) (S d) (IZR (2 ^ 60))) as [A1 A2]; try lra; try lia; [|split; [exact A1|exact A2]].
      cbn [pow]. assert (1 <= IZR (2 ^ 60) ^ d)%R by (apply pow_R1_Rle, IZR_le; discriminate). change (2 ^ 60) with 1152921504606846976 in *. nra. }
  assert (Hd : (0 <= dlc <= 42 / 10 ^ 10)%R).
  { pose proof (row_num 2 (powerRZ 2 (-40)) ltac:(lra) ltac:(apply Rlt_le, p2_pos)) as H. split; [apply H|]. eapply Rle_trans; [apply H|]. rewrite pw40, pw41. cbn [pow]. lra. }
  assert (Hz : (0 <= z9 <= 101 / 100)%R) by (pose proof z9_num; lra).
  assert (Ha : forall d : nat, (0 <= Rpower 2 (- / INR 4) <= 1)%R).
  { intros _. split; [apply Rlt_le; unfold Rpower; apply exp_pos|]. rewrite <- (Rpower_O 2) by lra. apply Rle_Rpower; [lra|]. change (INR 4) with (1 + 1 + 1 + 1)%R. lra. }
  destruct (size_error_mono _ (fun _ => 1%R) _ _ _ _ _ _ 4 Ha Hd Hz Hk) as [_ [H1 H2]]. specialize (Hk 4%nat). unfold f_cts_error, f_cts_rounding.
  match goal with |- context [error_after ?a ?b ?c ?d ?e] => set (x := error_after a b c d e) in *; match type of H2 with (_ <= ?u)%R => set (y := u) in * end end.
  match goal with |- context [switch_noise ?a ?b ?c ?d ?e] => set (sn := switch_noise a b c d e) in * end.
  assert (HY : (2 * y + k' <= 4 / 10 ^ 8)%R); [|lra].
  unfold y, k, k'. clear. cbn [error_after size_after pow]. change (2 ^ 50) with 1125899906842624. change (2 ^ 60) with 1152921504606846976. lra.
Qed.
Lemma s9_num : (s9 <= 5 / 10 ^ 6)%R.
Proof.
  pose proof e9_num as He. set (e := e9) in *. set (D1 := (IZR (2 ^ 60) ^ 4 * IZR (2 ^ 50))%R). set (k := (IZR 512 * IZR 8321 / (2 * (1 * IZR (2 ^ 90))))%R).
  assert (D1b : (IZR (2 ^ 90) <= D1)%R).
  { unfold D1. rewrite pow_IZR, <- mult_IZR. apply IZR_le. vm_compute. discriminate. }
  assert (P90 : (0 < IZR (2 ^ 90))%R) by (apply IZR_lt; reflexivity).
  assert (Hk : forall d, (0 <= switch_noise 512 (2 ^ 60) 8321 D1 d <= k)%R).
  { intros d. assert (B : (1 <= IZR (2 ^ 60) ^ d)%R) by (apply pow_R1_Rle, IZR_le; discriminate). unfold switch_noise, k. assert (0 < 2 * (1 * IZR (2 ^ 90)) <= 2 * (IZR (2 ^ 60) ^ d * D1))%R by (split; nra).
    unfold Rdiv. split; [apply Rmult_le_pos; [lra|apply Rlt_le, Rinv_0_lt_compat; lra]|]. apply Rmult_le_compat_l; [lra|]. apply Rinv_le_contravar; lra. }
  assert (Hd : (0 <= dls <= 84 / 10 ^ 10)%R).
  { pose proof (row_num (2 ^ 2) (powerRZ 2 (-37)) ltac:(lra) ltac:(apply Rlt_le, p2_pos)) as H. split; [apply H|]. eapply Rle_trans; [apply H|]. rewrite pw37, pw41. cbn [pow]. lra. }
  assert (Hz : (0 <= z9 + e <= 102 / 100)%R) by (pose proof z9_num; cbn [pow] in He; lra).
  assert (Ha : forall d : nat, (0 <= 2 ^ 2 <= 2 ^ 2)%R) by (intros _; lra).
  destruct (size_error_mono (fun _ => 2 ^ 2)%R (fun _ => 2 ^ 2)%R _ _ _ _ _ (fun _ => k) 4 Ha Hd Hz Hk) as [_ [_ H2]]. unfold f_stc_error. fold D1.
  eapply Rle_trans; [apply Rmult_le_compat_l; [lra|exact H2]|].
  unfold k. clear. cbn [error_after size_after pow]. change (2 ^ 90) with 1237940039285380274899124224. lra.
Qed.

(** CoeffToSlot_test: the two lines printed differ by at most 5*10^-8, and the second is the coefficients in bit-reversed order, up to 10^-12 *)
Theorem C126_CoeffToSlot_parameters : forall F, double F -> forall lpow pw, power_within pw lpow -> (pw <= powerRZ 2 (-52))%R -> forall fuel RM rnd stc st st2 pos z, rand_stream RM rnd -> f_cts_static F lpow 1450 9 60 2 stc -> f_ifft_static F 9 st -> f_fft_static F 9 st2 -> random_message 256 z ->
  keygen fuel 512 rnd 128 (fresh 512) pos = Diverge /\ f_CoeffToSlot_test F lpow fuel 1450 9 50 60 2 128 RM rnd stc st st2 pos (carray (K := Rops) 256 z) = Diverge \/
  exists stc' st' st2' pos' res ex, f_CoeffToSlot_test F lpow fuel 1450 9 50 60 2 128 RM rnd stc st st2 pos (carray (K := Rops) 256 z) = Ok (stc', st', st2', pos', (carray (K := Rops) 256 res, carray (K := Rops) 256 ex)) /\
    forall m, (forall j, 0 <= j < 256 -> slot 512 m j = z j) -> forall j r, 0 <= j < 256 -> reverses 8 j r ->
      (Rabs (fst (ex j) - m r) <= / 10 ^ 12)%R /\ (Rabs (snd (ex j) - m (r + 256)%Z) <= / 10 ^ 12)%R /\
      (Rabs (fst (res j) - fst (ex j)) <= 5 / 10 ^ 8)%R /\ (Rabs (snd (res j) - snd (ex j)) <= 5 / 10 ^ 8)%R.
Proof.
  intros F HF lpow pw Hpw Hp52 fuel RM rnd stc st st2 pos z Hr Hstc Hst Hst2 Hz. pose proof e9_num as He. pose proof z9_num as Hz9.
  pose proof (C126_CoeffToSlot_test F HF lpow pw Hpw Hp52 1450 9 50 128 RM rnd 2 4 ltac:(lia) ltac:(lia) ltac:(lia) ltac:(lia) Hr ltac:(lia) eq_refl fuel 60 stc st st2 pos z 1%R ltac:(lia) Hstc Hst Hst2 (random_message_modulus _ _ Hz) num_top50) as T.
  cbv zeta in T. change (2 ^ 9) with 512 in T. change (16 * 512 + 1 + 128) with 8321 in T. change (2 ^ (9 - 1)) with 256 in T. set (e := e9) in *. set (z0 := z9) in *. cbn [pow] in He.
  pose proof num_enc_off as EO. set (eo := (enc_off 50 1 / IZR (2 ^ 50))%R) in *.
  assert (QO : (0 <= quot_off z0 <= 1 / 10 ^ 15)%R).
  { unfold quot_off. pose proof (p2_pos (-1000)). pose proof (p2_le (-1000) (-60) ltac:(lia)) as P. rewrite pw60 in P. rewrite pw51. cbn [pow]. lra. }
  set (qo := quot_off z0) in *. pose proof (num_dec_off (z0 + e) ltac:(lra)) as DO. set (do_ := dec_off 512 (z0 + e)) in *.
  destruct T as [[E1 E2]|(stc' & st' & st2' & pos' & res & ex & E & H)].
  { apply Rle_lt_trans with (IZR (2 ^ (50 + Z.of_nat 4 * 60)) * 2)%R.
    - apply Rmult_le_compat_l; [apply IZR_le; vm_compute; discriminate|]. lra.
    - rewrite <- mult_IZR. apply IZR_lt. vm_compute. reflexivity. }
  { pose proof one_900. lra. }
  - left. split; [exact E1|exact E2].
  - right. exists stc', st', st2', pos', res, ex. split; [exact E|]. intros m Hm j r Hj Hrev. destruct (H m Hm j r Hj Hrev) as (H1 & H2 & H3 & H4).
    assert (B1 : (eo + qo <= / 10 ^ 12)%R) by (cbn [pow] in *; lra). assert (B2 : (e + do_ + 8 / IZR (2 ^ 50) + qo <= 5 / 10 ^ 8)%R) by (change (2 ^ 50) with 1125899906842624; cbn [pow] in *; lra).
    split; [lra|]. split; [lra|]. split; (eapply Rle_trans; [eassumption|exact B2]).
Qed.
(** CoeffToSlot_SlotToCoeff_test: z_out is within 3*10^-3 of z *)
Theorem C126_CoeffToSlot_SlotToCoeff_parameters : forall F, double F -> forall lpow pw, power_within pw lpow -> (pw <= powerRZ 2 (-52))%R -> forall fuel RM rnd stc sts st st2 pos z, rand_stream RM rnd -> f_cts_static F lpow 1450 9 60 2 stc -> f_stc_static F 1450 9 60 2 sts -> f_ifft_static F 9 st -> f_fft_static F 9 st2 -> random_message 256 z ->
  keygen fuel 512 rnd 128 (fresh 512) pos = Diverge /\ f_CoeffToSlot_SlotToCoeff_test F lpow fuel 1450 9 50 60 60 2 128 RM rnd stc sts st st2 pos (carray (K := Rops) 256 z) = Diverge \/
  exists stc' sts' st' st2' pos' y, f_CoeffToSlot_SlotToCoeff_test F lpow fuel 1450 9 50 60 60 2 128 RM rnd stc sts st st2 pos (carray (K := Rops) 256 z) = Ok (stc', sts', st', st2', pos', carray (K := Rops) 256 y) /\
    forall j, 0 <= j < 256 -> (modulus (y j - z j)%num <= 3 / 1000)%R.
Proof.
  intros F HF lpow pw Hpw Hp52 fuel RM rnd stc sts st st2 pos z Hr Hstc Hsts Hst Hst2 Hz. pose proof e9_num as He. pose proof s9_num as Hb. pose proof num_enc_off as EO.
  pose proof (C126_CoeffToSlot_SlotToCoeff_test F HF lpow pw Hpw Hp52 1450 9 50 128 RM rnd 2 4 ltac:(lia) ltac:(lia) ltac:(lia) ltac:(lia) Hr ltac:(lia) eq_refl fuel 60 60 stc sts st st2 pos z 1%R ltac:(lia) ltac:(lia) ltac:(lia) Hstc Hsts Hst Hst2 (random_message_modulus _ _ Hz) num_top50) as T.
  cbv zeta in T. change (2 ^ 9) with 512 in T. change (16 * 512 + 1 + 128) with 8321 in T. change (2 ^ (9 - 1)) with 256 in T.
  assert (S0 : (0 <= s9)%R).
  { unfold f_stc_error. assert (Hk : forall d, (0 <= switch_noise 512 (2 ^ 60) 8321 (IZR (2 ^ 60) ^ 4 * IZR (2 ^ 50)) d <= switch_noise 512 (2 ^ 60) 8321 (IZR (2 ^ 60) ^ 4 * IZR (2 ^ 50)) d)%R).
    { intros d. split; [|apply Rle_refl]. assert (B : (0 < IZR (2 ^ 60) ^ d)%R) by (apply pow_lt, IZR_lt; reflexivity). assert (B4 : (0 < IZR (2 ^ 60) ^ 4 * IZR (2 ^ 50))%R) by (apply Rmult_lt_0_compat; [apply pow_lt|]; apply IZR_lt; reflexivity). unfold switch_noise.
      apply Rmult_le_pos; [lra|]. apply Rlt_le, Rinv_0_lt_compat. assert (0 < IZR (2 ^ 60) ^ d * (IZR (2 ^ 60) ^ 4 * IZR (2 ^ 50)))%R by (apply Rmult_lt_0_compat; auto). lra. }
    assert (Hd : (0 <= dls <= dls)%R) by (split; [apply row_num; [lra|apply Rlt_le, p2_pos]|apply Rle_refl]).
    assert (Hz' : (0 <= z9 + e9 <= z9 + e9)%R) by (pose proof z9_num; split; [lra|apply Rle_refl]).
    destruct (size_error_mono (fun _ => 2 ^ 2)%R (fun _ => 2 ^ 2)%R _ _ _ _ _ _ 4 ltac:(intros; lra) Hd Hz' Hk) as [_ [H1 _]]. lra. }
  assert (BB : (0 <= IZR 512 * (s9 + e9 + e9 + (enc_off 50 1 + 8) / IZR (2 ^ 50)) <= 28 / 10 ^ 4)%R).
  { replace ((enc_off 50 1 + 8) / IZR (2 ^ 50))%R with (enc_off 50 1 / IZR (2 ^ 50) + 8 / IZR (2 ^ 50))%R by (unfold Rdiv; ring). set (x := s9) in *. set (e := e9) in *. set (y := (enc_off 50 1 / IZR (2 ^ 50))%R) in *. change (2 ^ 50) with 1125899906842624. cbn [pow] in *. lra. }
  match type of BB with (_ <= ?u <= _)%R => set (x := u) in * end. cbn [pow] in BB. pose proof (num_dec_off (1 + x) ltac:(lra)) as DO.
  destruct T as [[E1 E2]|(stc' & sts' & st' & st2' & pos' & y & E & H)].
  { apply Rle_lt_trans with (IZR (2 ^ (50 + Z.of_nat 4 * 60 + Z.of_nat 4 * 60)) * 2)%R.
    - apply Rmult_le_compat_l; [apply IZR_le; vm_compute; discriminate|]. lra.
    - rewrite <- mult_IZR. apply IZR_lt. vm_compute. reflexivity. }
  { pose proof one_900. lra. }
  - left. split; [exact E1|exact E2].
  - right. exists stc', sts', st', st2', pos', y. split; [exact E|]. intros j Hj. eapply Rle_trans; [apply H; exact Hj|]. fold x. cbn [pow] in DO. lra.
Qed.
(** The hypotheses hold in IEEE double precision, of the message with parts 1/2 and -1/2 and of the tables before the first call *)
Example C126_cts_case : double F64 /\ power_within (powerRZ 2 (-52)) pow64 /\ f_cts_static F64 pow64 1450 9 60 2 None /\ f_stc_static F64 1450 9 60 2 None /\ f_ifft_static F64 9 None /\ f_fft_static F64 9 None /\ random_message 256 (fun _ => (/ 2, - / 2)%R) /\ rand_stream (2 ^ 31 - 1) counting.
Proof. split; [apply C87_binary64|]. split; [apply pow64_within|]. repeat (split; [constructor; reflexivity|]). apply C102_case. Qed.
