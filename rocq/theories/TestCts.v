(** C104: what the two functions of coeffToSlot_test.cpp print. *)
From Coq Require Import ZArith List Bool Lia Reals Lra Ring.
From Verif Require Import Base BaseFacts Sums ZQ ZQFacts ZQFacts2 RQ RQFacts Conv Rot Util GSum Core CoreFacts Matrix MatrixFacts MatMulFacts
  DFT DFTTheory DFTFacts FFTFacts SpecZQ SpecPoly SpecPolyFacts SpecScheme ConvFacts SpecMat Properties_Mat Properties_Msg SpecDFT Properties_DFT SpecEnc Properties_Core Properties_Rot Properties_Conv
  GroupFacts SlotFacts Encode EncodeFacts Plain BootFacts Properties_Enc Properties_Plain SpecLin LinTrans LinTransFacts LinSlots GroupSlots SpecBoot BootSlots PlainFacts SpecStat StatFacts Section3 Properties_Stat Properties_MatErr Properties_Serial
  Properties_Lin Properties_Boot Properties_Pipe Bootstrap SpecEval EvalFacts Section4 SupFacts MeasFacts Measure UtilFacts Properties_ZQ CtsMeasure CtsProps TestProg TestLayers.
From Verif Require Import TestLin TestLinT.
Import ListNotations.
Open Scope Z_scope.
Add Ring RCtct : HR.

Lemma coeff_double_is LOGQ LD p : coeff_double LOGQ LD p = (v <- zq_double LOGQ p ;; Ok (v / IZR (2 ^ LD))%R).
Proof.
  unfold coeff_double, zq_double, zq_to_double_int. destruct (zq_copy LOGQ (zq_new LOGQ) p) as [v| | |]; cbn [bind]; auto. destruct (zq_is_big LOGQ v) as [b| | |]; cbn [bind]; auto.
  destruct b; cbn [bind].
  - destruct (zq_negate LOGQ v) as [u| | |]; cbn [bind]; auto. destruct (rd u 0) as [w| | |]; cbn [bind]; auto. rewrite opp_IZR. apply f_equal. unfold Rdiv. ring.
  - destruct (rd v 0) as [w| | |]; cbn [bind]; auto.
Qed.

Section CT.
Context (LOGQ LOGN LD h RM : Z) (rnd : nat -> Z) (G D : nat).
Context (HQ : 66 <= LOGQ <= 1525) (HL : 2 <= LOGN <= 17) (HD : 0 <= LD <= 63) (Hh : 0 <= h) (Hr : rand_stream RM rnd) (HG : (1 <= G <= 4)%nat) (HGD : LOGN - 1 = Z.of_nat (G * D)).
Local Notation N := (2 ^ LOGN).
Local Notation n := (2 ^ (LOGN - 1)).
Local Notation E := (16 * N + 1 + h).

Theorem C104_CoeffToSlot_test : forall fuel LDt stc st st2 pos (z : Z -> CC) X, 0 <= LDt < 64 -> cts_static LOGQ LOGN LDt (Z.of_nat G) stc -> ifft_static LOGN st -> fft_static LOGN st2 ->
  (forall j, 0 <= j < n -> (modulus (z j) <= X)%R) -> (X * IZR (2 ^ LD) <= IZR (2 ^ 64) - 1)%R ->
  let z0 := start_size N (2 ^ LD) X in let e := cts_error N (2 ^ LDt) E G D z0 (IZR (2 ^ LD)) in
  (IZR (2 ^ (LD + Z.of_nat D * LDt)) * (z0 + e) < IZR (2 ^ (LOGQ - 1)))%R ->
  keygen fuel N rnd h (fresh N) pos = Diverge /\ CoeffToSlot_test fuel LOGQ LOGN LD LDt (Z.of_nat G) h RM rnd stc st st2 pos (carray (K := Rops) n z) = Diverge \/
  exists stc' st' st2' pos' res ex, CoeffToSlot_test fuel LOGQ LOGN LD LDt (Z.of_nat G) h RM rnd stc st st2 pos (carray (K := Rops) n z) = Ok (stc', st', st2', pos', (carray (K := Rops) n res, carray (K := Rops) n ex)) /\
    forall m, (forall j, 0 <= j < n -> slot N m j = z j) -> forall j r, 0 <= j < n -> reverses (LOGN - 1) j r ->
      (Rabs (fst (ex j) - m r) <= / 2 / IZR (2 ^ LD))%R /\ (Rabs (snd (ex j) - m (r + n)%Z) <= / 2 / IZR (2 ^ LD))%R /\
      (Rabs (fst (res j) - fst (ex j)) <= e + 8 / IZR (2 ^ LD))%R /\ (Rabs (snd (res j) - snd (ex j)) <= e + 8 / IZR (2 ^ LD))%R.
Proof.
  intros fuel LDt stc st st2 pos z X HDt Hstc Hst Hst2 Hz HX z0 e Hsz. pose proof (n_pos LOGN ltac:(lia)) as Hn. pose proof (N2 LOGN ltac:(lia)) as HN2.
  assert (Eq : Z.quot N 2 = n) by (apply half_quot; lia). unfold CoeffToSlot_test. cbv zeta. rewrite Eq.
  destruct (C34_keygen fuel N rnd RM h (fresh N) pos ltac:(lia) ltac:(lia) Hr (repeat_length _ _)) as [E0|(s & pos1 & E0 & Hs & Hw)]; [left; rewrite E0; split; reflexivity|right].
  rewrite E0. cbn [bind]. rewrite <- norm1_count in Hw by exact Hs.
  rewrite !(C68_new (K := Rops)) by lia. cbn [bind].
  destruct (some_m LOGN ltac:(lia) z) as [m Hm].
  destruct (enc_coefs LOGN LOGQ LD RM rnd s st pos1 z m X ltac:(lia) ltac:(lia) ltac:(lia) Hr Hs Hst Hm Hz HX) as (st1 & pt & c & ct & pos2 & m' & E1 & Hst1 & Hc & E2 & Hct & HP & HB).
  match goal with |- context [encode LOGQ LOGN st ?x ?y ?u ?v] => replace (encode LOGQ LOGN st x y u v) with (Ok (st1, pt)) by (symmetry; exact E1) end. cbn [bind]. rewrite E2. cbn [bind].
  assert (W1 : widths LOGQ) by (unfold widths; lia). assert (W2 : widths (2 * LOGQ)) by (unfold widths; lia). assert (LQ : 1 <= LOGQ) by lia.
  assert (EE : noise N (coef s) = E) by (unfold noise; rewrite Hw; reflexivity).
  assert (Dp : (0 < IZR (2 ^ LD))%R) by (apply IZR_lt, Z.pow_pos_nonneg; lia).
  destruct (C64_CoeffToSlot LOGQ LOGN LDt RM rnd s W1 W2 ltac:(lia) HDt Hr Hs G D HG HGD z0 (IZR (2 ^ LD)) ct m' stc st1 pos2 (sq_new LOGQ N) (sq_new LOGQ N)) as (stc' & st' & pos' & ct0 & ct1 & w0 & w1 & F1 & Hstc' & Hst' & Hw0 & Hw1 & Hcs); auto; try lia.
  { apply new_object2; lia. } { apply new_object2; lia. }
  rewrite EE in Hcs. fold e in Hcs. rewrite F1. cbn [bind]. destruct (Z.eqb_spec (Z.of_nat G) 0) as [|HG0]; [lia|]. cbn [negb guard bind].
  assert (Ed : Z.quot (LOGN - 1) (Z.of_nat G) = Z.of_nat D) by (rewrite HGD, Nat2Z.inj_mul, Z.mul_comm; apply Z.quot_mul; lia). rewrite Ed.
  set (sc := LD + Z.of_nat D * LDt) in *. assert (D16 : Z.of_nat D <= 16) by nia.
  assert (S30 : 0 <= sc <= 2 ^ 30) by (change (2 ^ 30) with 1073741824; nia). assert (Q30 : LOGQ <= 2 ^ 30) by (change (2 ^ 30) with 1073741824; lia).
  assert (ES : (IZR (2 ^ LDt) ^ D * IZR (2 ^ LD))%R = IZR (2 ^ sc)).
  { rewrite pow_IZR, <- mult_IZR. f_equal. rewrite <- Z.pow_mul_r, <- Z.pow_add_r by lia. f_equal. lia. }
  rewrite ES in Hcs. assert (PS : powerRZ 2 sc = IZR (2 ^ sc)) by (apply powerRZ_2; lia). assert (Sp : (0 < IZR (2 ^ sc))%R) by (apply IZR_lt, Z.pow_pos_nonneg; lia).
  assert (Hco : forall i, 0 <= i < N -> (Rabs (IZR (m' i) / IZR (2 ^ LD)) <= z0)%R) by (apply (coef_slots LOGN); [lia|exact HB]).
  assert (Rv : forall j, 0 <= j < n -> reverses (LOGN - 1) j (brv (Z.to_nat (LOGN - 1)) j)) by (intros j Hj; apply reverses_brv; [lia|reflexivity]).
  set (rev := brv (Z.to_nat (LOGN - 1))) in *. assert (Hrn : forall j, 0 <= j < n -> 0 <= rev j < n) by (intros j Hj; apply (Rv j Hj)).
  assert (B0 : forall j, 0 <= j < n -> (modulus (slots N (IZR (2 ^ sc)) w0 j) <= z0 + e)%R).
  { intros j Hj. destruct (Hcs j (rev j) Hj (Rv j Hj)) as [A _]. eapply Rle_trans; [apply modulus_near with (y := real (IZR (m' (rev j)) / IZR (2 ^ LD)))|].
    apply Rplus_le_compat; [rewrite modulus_real; apply Hco; specialize (Hrn j Hj); lia|exact A]. }
  assert (B1 : forall j, 0 <= j < n -> (modulus (slots N (IZR (2 ^ sc)) w1 j) <= z0 + e)%R).
  { intros j Hj. destruct (Hcs j (rev j) Hj (Rv j Hj)) as [_ A]. eapply Rle_trans; [apply modulus_near with (y := real (IZR (m' (rev j + n)%Z) / IZR (2 ^ LD)))|].
    apply Rplus_le_compat; [rewrite modulus_real; apply Hco; specialize (Hrn j Hj); lia|exact A]. }
  pose proof (signed_slots LOGQ LOGN w0 _ _ ltac:(lia) LQ Sp B0 Hsz) as S0. pose proof (signed_slots LOGQ LOGN w1 _ _ ltac:(lia) LQ Sp B1 Hsz) as S1.
  assert (ON : objectP LOGQ N (rq_new LOGQ N)) by (apply objP_object; try lia; apply objP_new).
  destruct (C35_dec LOGQ N ct0 s w0 (rq_new LOGQ N) LQ ltac:(lia) Hs ON Hw0) as (pt0 & F2 & P2).
  destruct (C35_dec LOGQ N ct1 s w1 (rq_new LOGQ N) LQ ltac:(lia) Hs ON Hw1) as (pt1 & F3 & P3).
  destruct (carray_of_carray n (fun _ => 0%num)) as [Ca Cb].
  destruct (C56_decode_log LOGQ LOGN LQ ltac:(lia) sc st2 pt0 w0 _ _ Q30 ltac:(lia) Hst2 Ca Cb (conj P2 S0)) as [st2b G2]. pose proof (decode_log_static _ _ _ _ _ _ _ _ _ Hst2 G2) as Hst2b.
  destruct (C56_decode_log LOGQ LOGN LQ ltac:(lia) sc st2b pt1 w1 _ _ Q30 ltac:(lia) Hst2b Ca Cb (conj P3 S1)) as [st2c G3].
  rewrite int_in by (change (2 ^ 30) with 1073741824 in S30; lia). cbn [bind]. rewrite F2. cbn [bind].
  match goal with |- context [decode_log LOGQ LOGN st2 ?a ?b ?c ?d] => replace (decode_log LOGQ LOGN st2 a b c d) with (Ok (st2b, carray (K := Rops) n (slots N (powerRZ 2 sc) w0))) by (symmetry; exact G2) end. cbn [bind]. rewrite F3. cbn [bind].
  match goal with |- context [decode_log LOGQ LOGN st2b ?a ?b ?c ?d] => replace (decode_log LOGQ LOGN st2b a b c d) with (Ok (st2c, carray (K := Rops) n (slots N (powerRZ 2 sc) w1))) by (symmetry; exact G3) end. cbn [bind].
  set (y0 := slots N (powerRZ 2 sc) w0). set (y1 := slots N (powerRZ 2 sc) w1).
  match goal with |- context [for_ 0 n ?f ?p] => replace (for_ 0 n f p) with (Ok (carray (K := Rops) n (fun j => (fst (y0 j), fst (y1 j))))) end.
  2:{ symmetry. apply (msg_loop (K := Rops)); [lia|apply carray_of_carray|]. intros i a b Hi. rewrite !carray_cvtab. cbn [fst snd cvtab]. rewrite !grd_gtab by auto. cbn [bind]. rewrite gwr_tab by auto. cbn [bind]. rewrite gwr_tab by auto. reflexivity. }
  cbn [bind].
  assert (CB : forall i, 0 <= i < N -> - 2 ^ (LOGQ - 1) <= c i < 2 ^ (LOGQ - 1)) by apply Hc.
  match goal with |- context [for_ 0 n ?f ?p] => replace (for_ 0 n f p) with (Ok (carray (K := Rops) n (fun j => (IZR (c (rev j)) / IZR (2 ^ LD), IZR (c (rev j + n)%Z) / IZR (2 ^ LD))%R))) end.
  2:{ symmetry. apply (msg_loop (K := Rops)); [lia|apply carray_of_carray|]. intros i a b Hi. destruct (brv_L LOGN ltac:(lia) i Hi) as (E5 & E6 & _). fold rev in E5, E6. rewrite E5. cbn [bind].
    destruct Hc as [Hc _]. apply holdsP_rep in Hc; try lia. subst pt.
    assert (BB : n <= 2 ^ 16) by (apply Z.pow_le_mono_r; lia). change (2 ^ 16) with 65536 in BB.
    rewrite Z.mod_small by (change (2 ^ 32) with 4294967296; lia). unfold repP. rewrite !lget_tab by lia. cbn [bind]. rewrite !coeff_double_is, !zq_double_ok by (try lia; apply CB; lia). cbn [bind].
    rewrite !low64_small by (apply HP; lia). rewrite gwr_tab by auto. cbn [bind]. rewrite gwr_tab by auto. reflexivity. }
  cbn [bind]. do 6 eexists. split; [reflexivity|]. intros p Hp j r Hj Hrev.
  assert (EQ : forall i, 0 <= i < N -> p i = m i).
  { intros i Hi. apply Rminus_diag_uniq. assert (Z0 : (Rabs (p i - m i) <= 0)%R). { apply (coef_slots LOGN (fun i => p i - m i)%R 0%R); auto; try lia. intros k Hk. rewrite slot_sub, (Hp k Hk), (Hm k Hk). replace (z k - z k)%num with (0%num : CC) by ring. rewrite modulus_0. lra. } pose proof (Rabs_pos (p i - m i)). destruct (Req_dec (p i - m i) 0) as [->|Hne]; [reflexivity|]. apply Rabs_pos_lt in Hne. lra. }
  pose proof (proj1 (reverses_brv (LOGN - 1) j r ltac:(lia)) Hrev) as ER. fold rev in ER. subst r. specialize (Hrn j Hj). rewrite !EQ by lia. cbn [fst snd].
  destruct (Hcs j (rev j) Hj (Rv j Hj)) as [A0 A1]. rewrite <- PS in A0, A1. fold y0 in A0. fold y1 in A1.
  assert (RE : forall (y : CC) v b, (modulus (y - real v)%num <= b)%R -> (Rabs (fst y - v) <= b)%R).
  { intros y v b H. eapply Rle_trans; [|exact H]. replace (fst y - v)%R with (cre Rops (y - real v)%num) by (destruct y; cbn; ring). apply modulus_cre. }
  apply RE in A0, A1.
  assert (HN : forall i, 0 <= i < N -> (Rabs (IZR (c i) / IZR (2 ^ LD) - m i) <= / 2 / IZR (2 ^ LD))%R /\ (Rabs (IZR (m' i) / IZR (2 ^ LD) - IZR (c i) / IZR (2 ^ LD)) <= 8 / IZR (2 ^ LD))%R).
  { intros i Hi. destruct (HP i Hi) as (H1 & _ & H3 & _). unfold nearest in H1. assert (Ip : (0 < / IZR (2 ^ LD))%R) by (apply Rinv_0_lt_compat; auto). split.
    - replace (IZR (c i) / IZR (2 ^ LD) - m i)%R with ((IZR (c i) - m i * IZR (2 ^ LD)) * / IZR (2 ^ LD))%R by (field; lra). unfold Rdiv. rewrite Rabs_mult, (Rabs_right (/ IZR (2 ^ LD))) by lra. apply Rmult_le_compat_r; lra.
    - replace (IZR (m' i) / IZR (2 ^ LD) - IZR (c i) / IZR (2 ^ LD))%R with (IZR (m' i - c i) * / IZR (2 ^ LD))%R by (rewrite minus_IZR; field; lra). unfold Rdiv. rewrite Rabs_mult, (Rabs_right (/ IZR (2 ^ LD))), <- abs_IZR by lra. apply Rmult_le_compat_r; [lra|]. apply IZR_le. exact H3. }
  destruct (HN (rev j) ltac:(lia)) as [N1 N2]. destruct (HN (rev j + n) ltac:(lia)) as [N3 N4].
  split; [exact N1|]. split; [exact N3|].
  assert (TT : forall a b cc e1 e2, (Rabs (a - b) <= e1)%R -> (Rabs (b - cc) <= e2)%R -> (Rabs (a - cc) <= e1 + e2)%R).
  { intros a b cc e1 e2 H1 H2. replace (a - cc)%R with ((a - b) + (b - cc))%R by ring. eapply Rle_trans; [apply Rabs_triang|]. lra. }
  split; eapply TT; eauto.
Qed.

(** CoeffToSlot with scale 2^LDt, then SlotToCoeff with scale 2^LDb: the message comes back *)
Theorem C104_CoeffToSlot_SlotToCoeff_test : forall fuel LDb LDt stc sts st st2 pos (z : Z -> CC) X, 0 <= LDt < 64 -> 0 <= LDb -> LDb + Z.of_nat G - 1 < 64 ->
  cts_static LOGQ LOGN LDt (Z.of_nat G) stc -> stc_static LOGQ LOGN LDb (Z.of_nat G) sts -> ifft_static LOGN st -> fft_static LOGN st2 ->
  (forall j, 0 <= j < n -> (modulus (z j) <= X)%R) -> (X * IZR (2 ^ LD) <= IZR (2 ^ 64) - 1)%R ->
  let z0 := start_size N (2 ^ LD) X in let e := cts_error N (2 ^ LDt) E G D z0 (IZR (2 ^ LD)) in
  let b := (stc_error N (2 ^ LDb) E G D (z0 + e) (IZR (2 ^ LDt) ^ D * IZR (2 ^ LD)) + e + e + 17 / 2 / IZR (2 ^ LD))%R in
  (IZR (2 ^ (LD + Z.of_nat D * LDt + Z.of_nat D * LDb)) * (X + IZR N * b) < IZR (2 ^ (LOGQ - 1)))%R ->
  keygen fuel N rnd h (fresh N) pos = Diverge /\ CoeffToSlot_SlotToCoeff_test fuel LOGQ LOGN LD LDb LDt (Z.of_nat G) h RM rnd stc sts st st2 pos (carray (K := Rops) n z) = Diverge \/
  exists stc' sts' st' st2' pos' y, CoeffToSlot_SlotToCoeff_test fuel LOGQ LOGN LD LDb LDt (Z.of_nat G) h RM rnd stc sts st st2 pos (carray (K := Rops) n z) = Ok (stc', sts', st', st2', pos', carray (K := Rops) n y) /\
    forall j, 0 <= j < n -> (modulus (y j - z j)%num <= IZR N * b)%R.
Proof.
  intros fuel LDb LDt stc sts st st2 pos z X HDt HDb0 HDb Hstc Hsts Hst Hst2 Hz HX z0 e b Hsz. pose proof (n_pos LOGN ltac:(lia)) as Hn. pose proof (N2 LOGN ltac:(lia)) as HN2.
  assert (Eq : Z.quot N 2 = n) by (apply half_quot; lia). unfold CoeffToSlot_SlotToCoeff_test. cbv zeta. rewrite Eq.
  destruct (C34_keygen fuel N rnd RM h (fresh N) pos ltac:(lia) ltac:(lia) Hr (repeat_length _ _)) as [E0|(s & pos1 & E0 & Hs & Hw)]; [left; rewrite E0; split; reflexivity|right].
  rewrite E0. cbn [bind]. rewrite <- norm1_count in Hw by exact Hs.
  rewrite !(C68_new (K := Rops)) by lia. cbn [bind].
  destruct (some_m LOGN ltac:(lia) z) as [m Hm].
  destruct (enc_coefs LOGN LOGQ LD RM rnd s st pos1 z m X ltac:(lia) ltac:(lia) ltac:(lia) Hr Hs Hst Hm Hz HX) as (st1 & pt & c & ct & pos2 & m' & E1 & Hst1 & Hc & E2 & Hct & HP & HB).
  match goal with |- context [encode LOGQ LOGN st ?x ?y ?u ?v] => replace (encode LOGQ LOGN st x y u v) with (Ok (st1, pt)) by (symmetry; exact E1) end. cbn [bind]. rewrite E2. cbn [bind].
  assert (W1 : widths LOGQ) by (unfold widths; lia). assert (W2 : widths (2 * LOGQ)) by (unfold widths; lia). assert (LQ : 1 <= LOGQ) by lia.
  assert (EE : noise N (coef s) = E) by (unfold noise; rewrite Hw; reflexivity).
  assert (Dp : (0 < IZR (2 ^ LD))%R) by (apply IZR_lt, Z.pow_pos_nonneg; lia). assert (Dtp : (0 < IZR (2 ^ LDt))%R) by (apply IZR_lt, Z.pow_pos_nonneg; lia).
  destruct (C64_CoeffToSlot LOGQ LOGN LDt RM rnd s W1 W2 ltac:(lia) HDt Hr Hs G D HG HGD z0 (IZR (2 ^ LD)) ct m' stc st1 pos2 (sq_new LOGQ N) (sq_new LOGQ N)) as (stc' & st' & pos' & ct0 & ct1 & w0 & w1 & F1 & Hstc' & Hst' & Hw0 & Hw1 & Hcs); auto; try lia.
  { apply new_object2; lia. } { apply new_object2; lia. }
  rewrite EE in Hcs. fold e in Hcs. rewrite F1. cbn [bind].
  assert (Hco : forall i, 0 <= i < N -> (Rabs (IZR (m' i) / IZR (2 ^ LD)) <= z0)%R) by (apply (coef_slots LOGN); [lia|exact HB]).
  assert (Rv : forall j, 0 <= j < n -> reverses (LOGN - 1) j (brv (Z.to_nat (LOGN - 1)) j)) by (intros j Hj; apply reverses_brv; [lia|reflexivity]).
  set (rev := brv (Z.to_nat (LOGN - 1))) in *. assert (Hrn : forall j, 0 <= j < n -> 0 <= rev j < n) by (intros j Hj; apply (Rv j Hj)).
  set (D1 := (IZR (2 ^ LDt) ^ D * IZR (2 ^ LD))%R) in *. assert (D1p : (0 < D1)%R) by (apply Rmult_lt_0_compat; auto; apply pow_lt; auto).
  destruct (C64_SlotToCoeff LOGQ LOGN LDb RM rnd s W1 W2 ltac:(lia) ltac:(lia) Hr Hs G D HG HGD (z0 + e) D1 e e (fun i => IZR (m' i) / IZR (2 ^ LD))%R ct0 ct1 w0 w1 sts st' pos' (sq_new LOGQ N)) as (sts' & st'' & pos'' & ct' & w & F2 & Hsts' & Hst'' & Hww & Hb); auto; try lia.
  { apply new_object2; lia. }
  { intros j Hj. destruct (Hcs j (rev j) Hj (Rv j Hj)) as [A0 A1]. specialize (Hrn j Hj). split; (eapply Rle_trans; [eapply modulus_near|]; apply Rplus_le_compat; [|eassumption]); rewrite modulus_real; apply Hco; lia. }
  rewrite EE in Hb. rewrite F2. cbn [bind].
  assert (ON : objectP LOGQ N (rq_new LOGQ N)) by (apply objP_object; try lia; apply objP_new).
  destruct (C35_dec LOGQ N ct' s w (rq_new LOGQ N) LQ ltac:(lia) Hs ON Hww) as (pt' & F3 & P3). rewrite F3. cbn [bind].
  destruct (Z.eqb_spec (Z.of_nat G) 0) as [|HG0]; [lia|]. cbn [negb guard bind].
  assert (Ed : Z.quot (LOGN - 1) (Z.of_nat G) = Z.of_nat D) by (rewrite HGD, Nat2Z.inj_mul, Z.mul_comm; apply Z.quot_mul; lia). rewrite Ed.
  set (sc := LD + Z.of_nat D * LDt + Z.of_nat D * LDb) in *. assert (D16 : Z.of_nat D <= 16) by nia.
  assert (S30 : 0 <= sc <= 2 ^ 30) by (change (2 ^ 30) with 1073741824; nia). assert (Q30 : LOGQ <= 2 ^ 30) by (change (2 ^ 30) with 1073741824; lia).
  assert (ES : (IZR (2 ^ LDb) ^ D * D1)%R = IZR (2 ^ sc)).
  { unfold D1. rewrite !pow_IZR, <- !mult_IZR. f_equal. rewrite <- !Z.pow_mul_r, <- !Z.pow_add_r by lia. f_equal. lia. }
  rewrite ES in Hb. assert (PS : powerRZ 2 sc = IZR (2 ^ sc)) by (apply powerRZ_2; lia). assert (Sp : (0 < IZR (2 ^ sc))%R) by (apply IZR_lt, Z.pow_pos_nonneg; lia).
  assert (HF : forall j, 0 <= j < n -> (modulus (slots N (IZR (2 ^ sc)) w j - z j)%num <= IZR N * b)%R).
  { intros j Hj. rewrite <- (Hm j Hj). unfold slots. rewrite <- slot_sub. apply modulus_slot; [lia|]. intros i Hi. destruct (HP i Hi) as (_ & _ & _ & H4). specialize (Hb i Hi).
    replace (IZR (w i) / IZR (2 ^ sc) - m i)%R with ((IZR (w i) / IZR (2 ^ sc) - IZR (m' i) / IZR (2 ^ LD)) + (IZR (m' i) / IZR (2 ^ LD) - m i))%R by ring. eapply Rle_trans; [apply Rabs_triang|]. unfold b. lra. }
  assert (B : forall j, 0 <= j < n -> (modulus (slots N (IZR (2 ^ sc)) w j) <= X + IZR N * b)%R).
  { intros j Hj. eapply Rle_trans; [apply (modulus_near _ (z j))|]. apply Rplus_le_compat; [apply Hz; exact Hj|apply HF; exact Hj]. }
  pose proof (signed_slots LOGQ LOGN w _ _ ltac:(lia) LQ Sp B Hsz) as S0.
  destruct (carray_of_carray n (fun _ => 0%num)) as [Ca Cb].
  destruct (C56_decode_log LOGQ LOGN LQ ltac:(lia) sc st2 pt' w _ _ Q30 ltac:(lia) Hst2 Ca Cb (conj P3 S0)) as [st2b G2].
  rewrite int_in by (change (2 ^ 30) with 1073741824 in S30; lia). cbn [bind].
  match goal with |- context [decode_log LOGQ LOGN st2 ?a ?b ?c ?d] => replace (decode_log LOGQ LOGN st2 a b c d) with (Ok (st2b, carray (K := Rops) n (slots N (powerRZ 2 sc) w))) by (symmetry; exact G2) end. cbn [bind].
  do 6 eexists. split; [reflexivity|]. intros j Hj. rewrite PS. apply HF. exact Hj.
Qed.
End CT.

(** The parameters of test.h: LOGQ 1450, LOGN 9, LOGDELTA 50, LOGDELTA_boot 60, LOGDELTA_boot_tilde 60, G 2, H 128 *)
Local Notation e9 := (cts_error 512 (2 ^ 60) 8321 2 4 (start_size 512 (2 ^ 50) 1) (IZR (2 ^ 50))).
Lemma ct_num : (0 <= e9 <= 4 / IZR (10 ^ 9))%R.
Proof.
  set (k := (IZR 512 * IZR 8321 / (2 * IZR (2 ^ 50)))%R). set (k' := (IZR 512 * IZR 8321 / (2 * (IZR (2 ^ 60) * IZR (2 ^ 50))))%R).
  assert (Hk : forall d, (0 <= switch_noise 512 (2 ^ 60) 8321 (IZR (2 ^ 50)) d <= (match d with O => k | _ => k' end))%R).
  { intros [|d].
    - destruct (switch_noise_mono 512 (2 ^ 60) 8321 8321 (IZR (2 ^ 50)) 0 1%R) as [A1 A2]; try lra; try lia. rewrite Rmult_1_l in A2. fold k in A2. split; [exact A1|exact A2].
    - destruct (switch_noise_mono 512 (2 ^ 60) 8321 8321 (IZR (2 ^ 50)) (S d) (IZR (2 ^ 60))) as [A1 A2]; try lra; try lia; [|split; [exact A1|exact A2]].
      cbn [pow]. assert (1 <= IZR (2 ^ 60) ^ d)%R by (apply pow_R1_Rle, IZR_le; discriminate). change (2 ^ 60) with 1152921504606846976 in *. nra. }
  set (dl := row_rounding 512 (2 ^ 60) 2). assert (Hd : (0 <= dl <= dl)%R).
  { split; [|apply Rle_refl]. unfold dl, row_rounding. apply Rmult_le_pos; [apply IZR_le, Z.pow_nonneg; lia|]. change (2 ^ 60) with 1152921504606846976. lra. }
  set (z0 := start_size 512 (2 ^ 50) 1). assert (Hz : (0 <= z0 <= z0)%R) by (unfold z0, start_size; change (2 ^ 50) with 1125899906842624; lra).
  assert (Ha : forall d : nat, (0 <= Rpower 2 (- / INR 4) <= 1)%R).
  { intros _. split; [apply Rlt_le; unfold Rpower; apply exp_pos|]. rewrite <- (Rpower_O 2) by lra. apply Rle_Rpower; [lra|]. change (INR 4) with (1 + 1 + 1 + 1)%R. lra. }
  destruct (size_error_mono _ (fun _ => 1%R) _ _ _ _ _ _ 4 Ha Hd Hz Hk) as [_ [H1 H2]]. specialize (Hk 4%nat). unfold cts_error, cts_rounding. fold dl z0.
  match goal with |- context [error_after ?a ?b ?c ?d ?e] => set (x := error_after a b c d e) in *; match type of H2 with (_ <= ?u)%R => set (y := u) in * end end.
  match goal with |- context [switch_noise ?a ?b ?c ?d ?e] => set (sn := switch_noise a b c d e) in * end.
  assert (HY : (2 * y + k' <= 4 / IZR (10 ^ 9))%R); [|lra].
  unfold y, k, k', dl, z0, row_rounding, start_size. clear. cbn [error_after size_after]. change (2 ^ 50) with 1125899906842624. change (2 ^ 60) with 1152921504606846976. change (3 ^ Z.of_nat 2) with 9. change (10 ^ 9) with 1000000000. lra.
Qed.
Lemma ct_back : (stc_error 512 (2 ^ 60) 8321 2 4 (start_size 512 (2 ^ 50) 1 + e9) (IZR (2 ^ 60) ^ 4 * IZR (2 ^ 50)) <= 1 / IZR (10 ^ 9))%R.
Proof.
  pose proof ct_num as He. change (10 ^ 9) with 1000000000 in *. set (e := e9) in *. set (D1 := (IZR (2 ^ 60) ^ 4 * IZR (2 ^ 50))%R). set (k := (IZR 512 * IZR 8321 / (2 * (1 * IZR (2 ^ 90))))%R).
  assert (D1b : (IZR (2 ^ 90) <= D1)%R).
  { unfold D1. rewrite pow_IZR, <- mult_IZR. apply IZR_le. vm_compute. discriminate. }
  assert (P90 : (0 < IZR (2 ^ 90))%R) by (apply IZR_lt; reflexivity).
  assert (Hk : forall d, (0 <= switch_noise 512 (2 ^ 60) 8321 D1 d <= k)%R).
  { intros d. assert (B : (1 <= IZR (2 ^ 60) ^ d)%R) by (apply pow_R1_Rle, IZR_le; discriminate). unfold switch_noise, k. assert (0 < 2 * (1 * IZR (2 ^ 90)) <= 2 * (IZR (2 ^ 60) ^ d * D1))%R by (split; nra).
    unfold Rdiv. split; [apply Rmult_le_pos; [lra|apply Rlt_le, Rinv_0_lt_compat; lra]|]. apply Rmult_le_compat_l; [lra|]. apply Rinv_le_contravar; lra. }
  set (dl := row_rounding 512 (2 ^ 60) 2). assert (Hd : (0 <= dl <= dl)%R).
  { split; [|apply Rle_refl]. unfold dl, row_rounding. apply Rmult_le_pos; [apply IZR_le, Z.pow_nonneg; lia|]. change (2 ^ 60) with 1152921504606846976. lra. }
  assert (Hz : (0 <= start_size 512 (2 ^ 50) 1 + e <= 2)%R) by (unfold start_size; change (2 ^ 50) with 1125899906842624; lra).
  assert (Ha : forall d : nat, (0 <= 2 ^ 2 <= 2 ^ 2)%R) by (intros _; lra).
  destruct (size_error_mono (fun _ => 2 ^ 2)%R (fun _ => 2 ^ 2)%R _ _ _ _ _ (fun _ => k) 4 Ha Hd Hz Hk) as [_ [_ H2]]. unfold stc_error. fold dl D1.
  apply Rle_trans with (2 * error_after (fun _ => 2 ^ 2)%R dl 2 (fun _ => k) 4)%R; [lra|].
  unfold k, dl, row_rounding. clear. cbn [error_after size_after pow]. change (2 ^ 90) with 1237940039285380274899124224. change (2 ^ 60) with 1152921504606846976. change (3 ^ Z.of_nat 2) with 9. lra.
Qed.

(** CoeffToSlot_test: the two lines printed differ by at most 5*10^-9, and the second is the coefficients in bit-reversed order, rounded to multiples of 2^-50 *)
Theorem C104_CoeffToSlot_parameters : forall fuel RM rnd stc st st2 pos z, rand_stream RM rnd -> cts_static 1450 9 60 2 stc -> ifft_static 9 st -> fft_static 9 st2 -> random_message 256 z ->
  keygen fuel 512 rnd 128 (fresh 512) pos = Diverge /\ CoeffToSlot_test fuel 1450 9 50 60 2 128 RM rnd stc st st2 pos (carray (K := Rops) 256 z) = Diverge \/
  exists stc' st' st2' pos' res ex, CoeffToSlot_test fuel 1450 9 50 60 2 128 RM rnd stc st st2 pos (carray (K := Rops) 256 z) = Ok (stc', st', st2', pos', (carray (K := Rops) 256 res, carray (K := Rops) 256 ex)) /\
    forall m, (forall j, 0 <= j < 256 -> slot 512 m j = z j) -> forall j r, 0 <= j < 256 -> reverses 8 j r ->
      (Rabs (fst (ex j) - m r) <= / 2 / IZR (2 ^ 50))%R /\ (Rabs (snd (ex j) - m (r + 256)%Z) <= / 2 / IZR (2 ^ 50))%R /\
      (Rabs (fst (res j) - fst (ex j)) <= 5 / IZR (10 ^ 9))%R /\ (Rabs (snd (res j) - snd (ex j)) <= 5 / IZR (10 ^ 9))%R.
Proof.
  intros fuel RM rnd stc st st2 pos z Hr Hstc Hst Hst2 Hz. pose proof ct_num as He.
  destruct (C104_CoeffToSlot_test 1450 9 50 128 RM rnd 2 4 ltac:(lia) ltac:(lia) ltac:(lia) ltac:(lia) Hr ltac:(lia) eq_refl fuel 60 stc st st2 pos z 1%R ltac:(lia) Hstc Hst Hst2 (random_message_modulus _ _ Hz)) as [[E1 E2]|(stc' & st' & st2' & pos' & res & ex & E & H)].
  { rewrite Rmult_1_l. change (IZR (2 ^ 64) - 1)%R with (IZR (2 ^ 64) - IZR 1)%R. rewrite <- minus_IZR. apply IZR_le. vm_compute. discriminate. }
  { change (2 ^ 9) with 512. change (16 * 512 + 1 + 128) with 8321. apply Rle_lt_trans with (IZR (2 ^ (50 + Z.of_nat 4 * 60)) * 2)%R.
    - apply Rmult_le_compat_l; [apply IZR_le; vm_compute; discriminate|]. change (10 ^ 9) with 1000000000 in He. unfold start_size at 1. set (e := e9) in *. change (2 ^ 50) with 1125899906842624. lra.
    - rewrite <- mult_IZR. apply IZR_lt. vm_compute. reflexivity. }
  - left. split; [exact E1|exact E2].
  - right. exists stc', st', st2', pos', res, ex. split; [exact E|]. intros m Hm j r Hj Hrev. destruct (H m Hm j r Hj Hrev) as (H1 & H2 & H3 & H4).
    change (2 ^ 9) with 512 in H3, H4. change (16 * 512 + 1 + 128) with 8321 in H3, H4. split; [exact H1|]. split; [exact H2|].
    assert (BB : (e9 + 8 / IZR (2 ^ 50) <= 5 / IZR (10 ^ 9))%R). { set (e := e9) in *. change (2 ^ 50) with 1125899906842624. change (10 ^ 9) with 1000000000 in *. lra. }
    split; (eapply Rle_trans; [eassumption|exact BB]).
Qed.
(** CoeffToSlot_SlotToCoeff_test: z_out is within 5*10^-6 of z *)
Theorem C104_CoeffToSlot_SlotToCoeff_parameters : forall fuel RM rnd stc sts st st2 pos z, rand_stream RM rnd -> cts_static 1450 9 60 2 stc -> stc_static 1450 9 60 2 sts -> ifft_static 9 st -> fft_static 9 st2 -> random_message 256 z ->
  keygen fuel 512 rnd 128 (fresh 512) pos = Diverge /\ CoeffToSlot_SlotToCoeff_test fuel 1450 9 50 60 60 2 128 RM rnd stc sts st st2 pos (carray (K := Rops) 256 z) = Diverge \/
  exists stc' sts' st' st2' pos' y, CoeffToSlot_SlotToCoeff_test fuel 1450 9 50 60 60 2 128 RM rnd stc sts st st2 pos (carray (K := Rops) 256 z) = Ok (stc', sts', st', st2', pos', carray (K := Rops) 256 y) /\
    forall j, 0 <= j < 256 -> (modulus (y j - z j)%num <= 5 / IZR (10 ^ 6))%R.
Proof.
  intros fuel RM rnd stc sts st st2 pos z Hr Hstc Hsts Hst Hst2 Hz. pose proof ct_num as He. pose proof ct_back as Hb.
  pose proof (C104_CoeffToSlot_SlotToCoeff_test 1450 9 50 128 RM rnd 2 4 ltac:(lia) ltac:(lia) ltac:(lia) ltac:(lia) Hr ltac:(lia) eq_refl fuel 60 60 stc sts st st2 pos z 1%R ltac:(lia) ltac:(lia) ltac:(lia) Hstc Hsts Hst Hst2 (random_message_modulus _ _ Hz)) as T.
  cbv zeta in T. change (2 ^ 9) with 512 in T. change (16 * 512 + 1 + 128) with 8321 in T. change (2 ^ (9 - 1)) with 256 in T.
  assert (BB : (IZR 512 * (stc_error 512 (2 ^ 60) 8321 2 4 (start_size 512 (2 ^ 50) 1 + e9) (IZR (2 ^ 60) ^ 4 * IZR (2 ^ 50)) + e9 + e9 + 17 / 2 / IZR (2 ^ 50)) <= 5 / IZR (10 ^ 6))%R).
  { set (e := e9) in *. match goal with |- context [stc_error ?a ?b ?c ?d ?f ?g ?h] => set (x := stc_error a b c d f g h) in * end. change (2 ^ 50) with 1125899906842624. change (10 ^ 9) with 1000000000 in *. change (10 ^ 6) with 1000000. lra. }
  match type of BB with (?u <= _)%R => set (x := u) in * end.
  destruct T as [[E1 E2]|(stc' & sts' & st' & st2' & pos' & y & E & H)].
  { rewrite Rmult_1_l. change (IZR (2 ^ 64) - 1)%R with (IZR (2 ^ 64) - IZR 1)%R. rewrite <- minus_IZR. apply IZR_le. vm_compute. discriminate. }
  { apply Rle_lt_trans with (IZR (2 ^ (50 + Z.of_nat 4 * 60 + Z.of_nat 4 * 60)) * 2)%R.
    - apply Rmult_le_compat_l; [apply IZR_le; vm_compute; discriminate|]. change (10 ^ 6) with 1000000 in BB. lra.
    - rewrite <- mult_IZR. apply IZR_lt. vm_compute. reflexivity. }
  - left. split; [exact E1|exact E2].
  - right. exists stc', sts', st', st2', pos', y. split; [exact E|]. intros j Hj. eapply Rle_trans; [apply H; exact Hj|exact BB].
Qed.
(** The hypotheses hold of the same message, of the tables before the first call, and of a counter as random numbers *)
Example C104_case : cts_static 1450 9 60 2 None /\ stc_static 1450 9 60 2 None /\ ifft_static 9 None /\ fft_static 9 None /\ random_message 256 (fun _ => (/ 2, - / 2)%R) /\ rand_stream (2 ^ 31 - 1) counting.
Proof. split; [apply cts_first|]. split; [apply stc_first|]. apply C102_case. Qed.
