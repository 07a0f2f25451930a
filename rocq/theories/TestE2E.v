(** C106: what end_to_end_test.cpp prints. *)
From Coq Require Import ZArith List Bool Lia Reals Lra Ring.
From Verif Require Import Base BaseFacts Sums ZQ ZQFacts ZQFacts2 RQ RQFacts Conv Rot Util GSum Core CoreFacts Matrix MatrixFacts MatMulFacts
  DFT DFTTheory DFTFacts FFTFacts SpecZQ SpecPoly SpecPolyFacts SpecScheme ConvFacts SpecMat Properties_Mat Properties_Msg SpecDFT Properties_DFT SpecEnc Properties_Core Properties_Rot Properties_Conv
  GroupFacts SlotFacts Encode EncodeFacts Plain BootFacts Properties_Enc Properties_Plain SpecLin LinTrans LinTransFacts LinSlots GroupSlots SpecBoot BootSlots PlainFacts SpecStat StatFacts Section3 Properties_Stat Properties_MatErr Properties_Serial
  Properties_Lin Properties_Boot Poly EvalMod SpecMod EvalModFacts PiBound EvalModBound Properties_EvalMod SpecPipe Pipeline PipeFacts Properties_Pipe Bootstrap SpecEval EvalFacts Section4 SupFacts MeasFacts Measure UtilFacts Properties_ZQ CtsMeasure CtsProps Messages SupRatio TestProg TestLayers TestLinT.
From Verif Require Import TestBoot TestBootP.
Import ListNotations.
Open Scope Z_scope.
Add Ring RCte : HR.

(** ** One comparison: the printed number is at most [e] away from the largest difference of the ideal slots [a] and the wanted numbers [v] *)
Lemma scale_slots N (q Delta : R) w j : (0 < q)%R -> (0 < Delta)%R -> slots N Delta w j = (real (q / Delta) * slots N q w j)%num.
Proof.
  intros Hq HD. unfold slots. rewrite <- slot_scale. apply slot_ext. intros i Hi. field. lra.
Qed.
Section Stage.
Context (LOGN LD Q : Z) (q : R) (HL : 2 <= LOGN <= 17) (HLD : 0 <= LD <= 60) (HQ : 1 <= Q <= 2 ^ 30) (Hq : (0 < q)%R).
Local Notation N := (2 ^ LOGN).
Local Notation n := (2 ^ (LOGN - 1)).
Local Notation Delta := (IZR (2 ^ LD)).
Local Notation zeros := (fst (carray (K := Rops) n (fun _ => (0%num : CC)))).

Lemma stage_ok st2 s c0 c1 wanted (a0 a1 : Z -> R) (v : Z -> Z -> R) A e : fft_static LOGN st2 -> ternary N s ->
  carries Q N (coef s) c0 q (fun j => real (a0 j)) e -> carries Q N (coef s) c1 q (fun j => real (a1 j)) e ->
  (forall j, 0 <= j < n -> (Rabs (a0 j) <= A)%R /\ (Rabs (a1 j) <= A)%R) -> (q * (A + e) < IZR (2 ^ (Q - 1)))%R ->
  (forall off, off = 0 \/ off = n -> wanted off zeros = Ok (gtab n (v off))) ->
  exists st2' S, stage_error LOGN LD Q st2 (c0, c1) (map Some s) wanted = Ok (st2', S) /\ fft_static LOGN st2' /\
    (forall j, 0 <= j < n -> (Rabs (q * a0 j - Delta * v 0%Z j) <= Delta * S + q * e)%R /\ (Rabs (q * a1 j - Delta * v n j) <= Delta * S + q * e)%R) /\
    (forall d, (forall j, 0 <= j < n -> (Rabs (q * a0 j - Delta * v 0%Z j) <= d)%R /\ (Rabs (q * a1 j - Delta * v n j) <= d)%R) -> (Delta * S <= d + q * e)%R).
Proof.
  intros Hst2 Hs (w0 & D0 & S0) (w1 & D1 & S1) HA Hsz Hwant. pose proof (N2 LOGN ltac:(lia)) as HN2. pose proof (n_pos LOGN ltac:(lia)) as Hn.
  assert (Dp : (0 < Delta)%R) by (apply IZR_lt, Z.pow_pos_nonneg; lia).
  assert (En : N / 2 = n) by (rewrite HN2, Z.mul_comm; apply Z.div_mul; lia). rewrite En in S0, S1.
  assert (Eq : Z.quot N 2 = n) by (apply half_quot; lia).
  assert (MB : forall w a, (forall j, 0 <= j < n -> (modulus (slots N q w j - real (a j))%num <= e)%R) -> (forall j, 0 <= j < n -> (Rabs (a j) <= A)%R) -> forall i, 0 <= i < N -> - 2 ^ (Q - 1) <= w i < 2 ^ (Q - 1)).
  { intros w a H1 H2. apply (signed_slots Q LOGN w q (A + e)); auto; try lia. intros j Hj. eapply Rle_trans; [apply (modulus_near _ (real (a j)))|]. rewrite modulus_real. apply Rplus_le_compat; auto. }
  pose proof (MB w0 a0 S0 (fun j Hj => proj1 (HA j Hj))) as B0. pose proof (MB w1 a1 S1 (fun j Hj => proj2 (HA j Hj))) as B1.
  assert (ON : objectP Q N (rq_new Q N)) by (apply objP_object; try lia; apply objP_new).
  destruct (C35_dec Q N c0 s w0 (rq_new Q N) ltac:(lia) ltac:(lia) Hs ON D0) as (pt0 & F0 & P0).
  destruct (C35_dec Q N c1 s w1 (rq_new Q N) ltac:(lia) ltac:(lia) Hs ON D1) as (pt1 & F1 & P1).
  destruct (carray_of_carray n (fun _ => 0%num)) as [Ca Cb].
  destruct (C56_decode_log Q LOGN ltac:(lia) ltac:(lia) LD st2 pt0 w0 _ _ ltac:(lia) ltac:(change (2 ^ 30) with 1073741824; lia) Hst2 Ca Cb (conj P0 B0)) as [st2a G0]. pose proof (decode_log_static _ _ _ _ _ _ _ _ _ Hst2 G0) as Hst2a.
  destruct (C56_decode_log Q LOGN ltac:(lia) ltac:(lia) LD st2a pt1 w1 _ _ ltac:(lia) ltac:(change (2 ^ 30) with 1073741824; lia) Hst2a Ca Cb (conj P1 B1)) as [st2b G1]. pose proof (decode_log_static _ _ _ _ _ _ _ _ _ Hst2a G1) as Hst2b.
  rewrite powerRZ_2 in G0, G1 by lia.
  set (y0 := slots N Delta w0) in *. set (y1 := slots N Delta w1) in *.
  destruct (C94_sup_norm n (fun j => (y0 j - real (v 0%Z j))%num) ltac:(lia)) as (m0 & M0 & L0).
  destruct (C94_sup_norm n (fun j => (y1 j - real (v n j))%num) ltac:(lia)) as (m1 & M1 & L1).
  exists st2b, (if Rlt_dec m0 m1 then m1 else m0). split.
  { unfold stage_error. cbv zeta. rewrite Eq. rewrite !(C68_new (K := Rops)) by lia. cbn [bind fst snd]. rewrite F0. cbn [bind].
    match goal with |- context [decode_log Q LOGN st2 ?a ?b ?c ?d] => replace (decode_log Q LOGN st2 a b c d) with (Ok (st2a, carray (K := Rops) n y0)) by (symmetry; exact G0) end. cbn [bind]. rewrite F1. cbn [bind].
    match goal with |- context [decode_log Q LOGN st2a ?a ?b ?c ?d] => replace (decode_log Q LOGN st2a a b c d) with (Ok (st2b, carray (K := Rops) n y1)) by (symmetry; exact G1) end. cbn [bind].
    pose proof (Hwant 0 (or_introl eq_refl)) as W0. pose proof (Hwant n (or_intror eq_refl)) as W1.
    match goal with |- context [wanted 0 ?a] => replace (wanted 0 a) with (Ok (gtab n (v 0))) by (symmetry; exact W0) end. cbn [bind].
    match goal with |- context [wanted n ?a] => replace (wanted n a) with (Ok (gtab n (v n))) by (symmetry; exact W1) end. cbn [bind].
    assert (Zi : snd (carray (K := Rops) n (fun _ => (0%num : CC))) = gtab n (fun _ => 0%R)) by (rewrite carray_cvtab; reflexivity).
    assert (XX : forall off, (gtab n (v off), snd (carray (K := Rops) n (fun _ => (0%num : CC)))) = carray (K := Rops) n (fun j => real (v off j))) by (intros off; rewrite Zi, carray_cvtab; reflexivity).
    rewrite !XX. rewrite !(C68_sub (K := Rops)) by (try lia; apply carray_of_carray). cbn [bind].
    match goal with |- context [msg_sup_norm n ?a] => replace (msg_sup_norm n a) with (Ok m0) by (symmetry; exact M0) end. cbn [bind].
    match goal with |- context [msg_sup_norm n ?a] => replace (msg_sup_norm n a) with (Ok m1) by (symmetry; exact M1) end. reflexivity. }
  split; [exact Hst2b|].
  set (S := if Rlt_dec m0 m1 then m1 else m0). assert (HS0 : (m0 <= S)%R) by (unfold S; destruct Rlt_dec; lra). assert (HS1 : (m1 <= S)%R) by (unfold S; destruct Rlt_dec; lra).
  assert (key : forall w a j x, (modulus (slots N q w j - real (a j))%num <= e)%R ->
      (Rabs (q * a j - Delta * x) <= Delta * modulus (slots N Delta w j - real x)%num + q * e)%R /\ (Delta * modulus (slots N Delta w j - real x)%num <= Rabs (q * a j - Delta * x) + q * e)%R).
  { intros w a j x He. rewrite (scale_slots N q Delta) by auto. set (u := slots N q w j) in *.
    assert (E1 : (Delta * modulus (real (q / Delta) * u - real x)%num = modulus (real q * u - real (Delta * x))%num)%R).
    { replace (real q * u - real (Delta * x))%num with (real Delta * (real (q / Delta) * u - real x))%num. { rewrite modulus_mul, modulus_real, (Rabs_right Delta) by lra. reflexivity. }
      destruct u as [u1 u2]. apply RC_eq; unfold real; cbn; field; lra. }
    assert (E2 : (q * modulus (u - real (a j))%num = modulus (real q * u - real (q * a j))%num)%R).
    { replace (real q * u - real (q * a j))%num with (real q * (u - real (a j)))%num. { rewrite modulus_mul, modulus_real, (Rabs_right q) by lra. reflexivity. }
      destruct u as [u1 u2]. apply RC_eq; unfold real; cbn; ring. }
    rewrite E1. assert (E3 : (modulus (real q * u - real (q * a j))%num <= q * e)%R) by (rewrite <- E2; apply Rmult_le_compat_l; lra).
    assert (E4 : (Rabs (q * a j - Delta * x) = modulus (real (q * a j - Delta * x)))%R) by (rewrite modulus_real; reflexivity). rewrite E4. split.
    - replace (real (q * a j - Delta * x)) with ((real q * u - real (Delta * x)) - (real q * u - real (q * a j)))%num by (rewrite <- real_minus; ring).
      eapply Rle_trans; [apply modulus_sub|]. lra.
    - replace (real q * u - real (Delta * x))%num with (real (q * a j - Delta * x) + (real q * u - real (q * a j)))%num by (rewrite <- real_minus; ring).
      eapply Rle_trans; [apply modulus_add|]. lra. }
  split.
  { intros j Hj. destruct (key w0 a0 j (v 0%Z j) (S0 j Hj)) as [K0 _]. destruct (key w1 a1 j (v n j) (S1 j Hj)) as [K1 _].
    destruct L0 as (_ & L0 & _). destruct L1 as (_ & L1 & _). specialize (L0 j Hj). specialize (L1 j Hj).
    split; (eapply Rle_trans; [eassumption|]); apply Rplus_le_compat_r, Rmult_le_compat_l; try lra; fold y0; fold y1; cbv beta in *; unfold RC in *; lra. }
  intros d Hd. assert (E0 : (0 <= e)%R) by (eapply Rle_trans; [apply modulus_nonneg|apply (S0 0 ltac:(lia))]).
  assert (Hd0 : (0 <= d)%R) by (eapply Rle_trans; [apply Rabs_pos|apply (Hd 0 ltac:(lia))]).
  assert (DB : forall m y v0 w a, largest n (fun j => modulus (y j - real (v0 j))%num) m -> y = slots N Delta w -> (forall j, 0 <= j < n -> (modulus (slots N q w j - real (a j))%num <= e)%R) ->
    (forall j, 0 <= j < n -> (Rabs (q * a j - Delta * v0 j) <= d)%R) -> (Delta * m <= d + q * e)%R).
  { intros m y v0 w a (_ & _ & [->|(j & Hj & ->)]) -> H1 H2; [rewrite Rmult_0_r; nra|]. destruct (key w a j (v0 j) (H1 j Hj)) as [_ K1]. specialize (H2 j Hj). lra. }
  unfold S. destruct Rlt_dec; [eapply DB; [exact L1|reflexivity|exact S1|intros j Hj; apply (Hd j Hj)]|eapply DB; [exact L0|reflexivity|exact S0|intros j Hj; apply (Hd j Hj)]].
Qed.
End Stage.

(** ** The wanted numbers *)
Lemma wanted_rep LOGN Q LD off mm : 2 <= LOGN <= 17 -> 1 <= Q -> off = 0 \/ off = 2 ^ (LOGN - 1) -> (forall i, 0 <= i < 2 ^ LOGN -> - 2 ^ (Q - 1) <= mm i < 2 ^ (Q - 1)) ->
  cts_wanted Q LOGN (2 ^ LD) off (repP Q (2 ^ LOGN) mm) (fst (carray (K := Rops) (2 ^ (LOGN - 1)) (fun _ => (0%num : CC)))) =
    Ok (gtab (2 ^ (LOGN - 1)) (fun j => IZR (low64 (mm (brv (Z.to_nat (LOGN - 1)) j + off)%Z)) / IZR (2 ^ LD))%R).
Proof.
  intros HL HQ Hoff Hm. pose proof (N2 LOGN ltac:(lia)) as HN2. pose proof (n_pos LOGN ltac:(lia)) as Hn. set (n := 2 ^ (LOGN - 1)) in *.
  assert (Zr : fst (carray (K := Rops) n (fun _ => (0%num : CC))) = gtab n (fun _ => 0%R)) by (rewrite carray_cvtab; reflexivity).
  match goal with |- cts_wanted _ _ _ _ _ ?a = _ => replace a with (gtab (A := R) n (fun _ => 0%R)) by (symmetry; exact Zr) end.
  unfold cts_wanted. rewrite half_quot by lia. fold n. apply (fill_gtab n _ (fun i => Some 0%R)); [lia|]. intros i h Hi.
  destruct (brv_L LOGN ltac:(lia) i Hi) as (E1 & E2 & _). rewrite E1. cbn [bind].
  assert (B : n <= 2 ^ 16) by (apply Z.pow_le_mono_r; lia). change (2 ^ 16) with 65536 in B. fold n in E2.
  assert (E4 : 0 <= brv (Z.to_nat (LOGN - 1)) i + off < 2 ^ LOGN) by lia.
  rewrite Z.mod_small by (change (2 ^ 32) with 4294967296; lia). unfold repP. rewrite lget_tab by lia. cbn [bind]. rewrite zq_double_ok by (auto; apply Hm; lia). reflexivity.
Qed.
Lemma evalqI_wanted_rep LOGN LOGQ LOGq LD off y c : 2 <= LOGN <= 17 -> 1 <= LOGQ -> 1 <= LOGq -> off = 0 \/ off = 2 ^ (LOGN - 1) ->
  (forall i, 0 <= i < 2 ^ LOGN -> - 2 ^ (LOGQ - 1) <= y i < 2 ^ (LOGQ - 1)) -> (forall i, 0 <= i < 2 ^ LOGN -> - 2 ^ (LOGq - 1) <= c i < 2 ^ (LOGq - 1)) ->
  evalqI_wanted LOGq LOGQ LOGN LD (repP LOGQ (2 ^ LOGN) y) (repP LOGq (2 ^ LOGN) c) off (fst (carray (K := Rops) (2 ^ (LOGN - 1)) (fun _ => (0%num : CC)))) =
    Ok (gtab (2 ^ (LOGN - 1)) (fun j => (IZR (low64 (y (brv (Z.to_nat (LOGN - 1)) j + off)%Z)) - IZR (low64 (c (brv (Z.to_nat (LOGN - 1)) j + off)%Z))) / IZR (2 ^ LD))%R).
Proof.
  intros HL HQ Hq Hoff Hm Hc. pose proof (N2 LOGN ltac:(lia)) as HN2. pose proof (n_pos LOGN ltac:(lia)) as Hn. set (n := 2 ^ (LOGN - 1)) in *.
  assert (Zr : fst (carray (K := Rops) n (fun _ => (0%num : CC))) = gtab n (fun _ => 0%R)) by (rewrite carray_cvtab; reflexivity).
  match goal with |- evalqI_wanted _ _ _ _ _ _ _ ?a = _ => replace a with (gtab (A := R) n (fun _ => 0%R)) by (symmetry; exact Zr) end.
  unfold evalqI_wanted. rewrite half_quot by lia. fold n. apply (fill_gtab n _ (fun i => Some 0%R)); [lia|]. intros i h Hi.
  destruct (brv_L LOGN ltac:(lia) i Hi) as (E1 & E2 & _). rewrite E1. cbn [bind].
  assert (B : n <= 2 ^ 16) by (apply Z.pow_le_mono_r; lia). change (2 ^ 16) with 65536 in B. fold n in E2.
  assert (E4 : 0 <= brv (Z.to_nat (LOGN - 1)) i + off < 2 ^ LOGN) by lia.
  rewrite Z.mod_small by (change (2 ^ 32) with 4294967296; lia). unfold repP. rewrite !lget_tab by lia. cbn [bind]. rewrite zq_double_ok by (auto; apply Hm; lia). cbn [bind]. rewrite zq_double_ok by (auto; apply Hc; lia). reflexivity.
Qed.

(** ** The program *)
(** The printed error [S] of a stage, when the numbers it is compared with are the low words of the coefficients [y]: at most [d] if they fit into words, and
    far away otherwise *)
Definition stage_report (N : Z) (y : Z -> Z) (Delta d S : R) : Prop :=
  ((forall i, 0 <= i < N -> Z.abs (y i) < 2 ^ 64) -> (Delta * S <= d)%R) /\ ((exists i, 0 <= i < N /\ 2 ^ 64 <= Z.abs (y i)) -> (IZR (2 ^ 64) - d <= Delta * S)%R).

Lemma far_number (a : R) y d : (Rabs (a - IZR y) <= d)%R -> 2 ^ 64 <= Z.abs y -> (IZR (2 ^ 64) - d <= Rabs (a - IZR (low64 y)))%R.
Proof.
  intros H Hy. apply low64_far, IZR_le in Hy. rewrite abs_IZR, minus_IZR in Hy. pose proof (Rabs_triang (a - IZR (low64 y)) (- (a - IZR y))) as T. rewrite Rabs_Ropp in T.
  replace (a - IZR (low64 y) + - (a - IZR y))%R with (IZR y - IZR (low64 y))%R in T by ring. lra.
Qed.

Section Program.
Context (LOGN LOGq LOGQ LD LDc LDs : Z) (G D : nat) (HP : boot_params LOGN LOGq LOGQ LDc LDs G D).
Context (h RM : Z) (rnd : nat -> Z) (Hh : 0 <= h) (Hr : rand_stream RM rnd) (HLD : 0 <= LD <= 60) (HLq : LD + 1 <= LOGq) (Hq7 : 7 <= LOGq).
Local Notation N := (2 ^ LOGN).
Local Notation n := (2 ^ (LOGN - 1)).
Local Notation q := (boot_q LOGq).
Local Notation g := (Z.of_nat G).
Local Notation Q1 := (LOGQ - Z.of_nat D * LDc).
Local Notation Q2 := (LOGQ - Z.of_nat D * LDc - 12 * LOGq).
Local Notation Q3 := (LOGQ - Z.of_nat D * LDc - 12 * LOGq - Z.of_nat D * LDs).
Local Notation rev := (brv (Z.to_nat (LOGN - 1))).
Local Notation Delta := (IZR (2 ^ LD)).

(** the comparison with low words of coefficients, [x] being subtracted from both sides *)
Lemma report_ok (a0 a1 : Z -> R) (x : Z -> R) (y : Z -> Z) (v : Z -> Z -> R) d e S : 
  (forall off j, v off j = ((IZR (low64 (y (rev j + off)%Z)) - x (rev j + off)%Z) / Delta)%R) ->
  (forall j, 0 <= j < n -> (Rabs (q * a0 j + x (rev j) - IZR (y (rev j))) <= d)%R /\ (Rabs (q * a1 j + x (rev j + n)%Z - IZR (y (rev j + n)%Z)) <= d)%R) ->
  (forall j, 0 <= j < n -> (Rabs (q * a0 j - Delta * v 0%Z j) <= Delta * S + q * e)%R /\ (Rabs (q * a1 j - Delta * v n j) <= Delta * S + q * e)%R) ->
  (forall d, (forall j, 0 <= j < n -> (Rabs (q * a0 j - Delta * v 0%Z j) <= d)%R /\ (Rabs (q * a1 j - Delta * v n j) <= d)%R) -> (Delta * S <= d + q * e)%R) ->
  stage_report N y Delta (d + q * e) S.
Proof.
  intros Hv Hd HL HU. pose proof HP as [HLN HG HD Hq Hc' Hs' HQ Hw' Hw1']. pose proof (n_pos LOGN ltac:(lia)) as Hn. pose proof (N2 LOGN ltac:(lia)) as HN2.
  assert (Dp : (0 < Delta)%R) by (apply IZR_lt, Z.pow_pos_nonneg; lia).
  assert (E : forall a off j, (q * a - Delta * v off j = q * a + x (rev j + off)%Z - IZR (low64 (y (rev j + off)%Z)))%R) by (intros a off j; rewrite Hv; field; lra).
  assert (RR : forall j, 0 <= rev j < n) by (intros j; apply (pipe_rev_range _ _ _ _ _ _ _ HP nil)).
  split.
  - intros Hs. apply HU. intros j Hj. specialize (RR j). rewrite !E, Z.add_0_r, !low64_small by (apply Hs; lia). exact (Hd j Hj).
  - intros (i & Hi & Hbig).
    assert (Hinv : forall k, 0 <= k < n -> rev (rev k) = k) by (intros k Hk; apply (brv_L LOGN ltac:(lia) k Hk)).
    destruct (Z.lt_ge_cases i n) as [L|L].
    + pose proof (RR i) as Hj. destruct (HL _ Hj) as [A _]. destruct (Hd _ Hj) as [A2 _]. rewrite E, Z.add_0_r in A. rewrite !Hinv in * by lia. pose proof (far_number _ _ _ A2 Hbig). lra.
    + pose proof (RR (i - n)) as Hj. destruct (HL _ Hj) as [_ A]. destruct (Hd _ Hj) as [_ A2]. rewrite E in A. rewrite !Hinv in * by lia. replace (i - n + n) with i in * by lia. pose proof (far_number _ _ _ A2 Hbig). lra.
Qed.

Theorem C106_end_to_end_test : forall fuel stc sts st st2 pos B,
  cts_static LOGQ LOGN LDc g stc -> stc_static Q2 LOGN LDs g sts -> ifft_static LOGN st -> fft_static LOGN st2 ->
  let rho := boot_rounding N h LOGq LDc G D B (msg_max LOGq LD) in
  let sw := boot_cts_noise N h LOGq LDc D in
  let em := boot_mod_error N h LOGq LDc G D B (msg_max LOGq LD) in
  let err := (q * proposed_error N h LOGq LDc LDs G D B (msg_max LOGq LD) + IZR (1 + h) / 2)%R in
  let program := end_to_end_test LOGq LOGQ LOGN LD LDc LOGq LDs g 24 h RM rnd fuel stc sts st st2 pos in
  66 <= Q3 -> (err + 8 < IZR (2 ^ 64))%R -> (q * (24 + sw + em) + (err + 8) < IZR (2 ^ (Q3 - 1)))%R -> (IZR B + msg_max LOGq LD + rho + / 4 <= 24)%R ->
  keygen fuel N rnd h (fresh N) pos = Diverge /\ program = Diverge \/
  exists s st1 pos1 pt ct c m' ct_m I, boot_start LOGq LOGN LD h RM rnd fuel st pos = Ok (st1, pos1, (carray (K := Rops) n (test_msg LOGN), map Some s, pt, ct)) /\
    (forall m, (forall j, 0 <= j < n -> slot N m j = test_msg LOGN j) -> forall i, 0 <= i < N -> nearest (m i * Delta) (c i)) /\ (forall i, 0 <= i < N -> Z.abs (m' i - c i) <= 8) /\
    mod_raise LOGq LOGQ N ct (sq_new LOGQ N) = Ok ct_m /\ decrypts LOGQ N ct_m (coef s) (fun i => m' i + 2 ^ LOGq * I i) /\ (forall i, 0 <= i < N -> 2 * Z.abs (I i) <= h + 2) /\
    ((forall i, 0 <= i < N -> Z.abs (I i) <= B) ->
     exists stc' sts' st' st2' pos' cts_err evalmod_err evalqI_err stc_err S er ei ct_qI qI,
       program = Ok (stc', sts', st', st2', pos', ((cts_err, evalmod_err, evalqI_err, stc_err), S, (er, ei))) /\
       stage_report N (fun i => m' i + 2 ^ LOGq * I i) Delta (q * (rho + sw)) cts_err /\
       (Delta * evalmod_err <= q * (rho + em) + 8)%R /\
       stage_report N (fun i => m' i + 2 ^ LOGq * I i) Delta (q * (sw + em) + 8) evalqI_err /\
       decrypts Q3 N ct_qI (coef s) qI /\ (forall i, 0 <= i < N -> (Rabs (IZR (qI i) - q * IZR (I i)) <= err)%R) /\
       stage_report N qI Delta (q * (sw + em) + err) stc_err /\
       let w := (fun i => m' i + 2 ^ LOGq * I i - qI i) in let y := slots N Delta w in
       (forall j, 0 <= j < n -> (modulus (y j - test_msg LOGN j)%num <= IZR N * ((err + 17 / 2) / Delta))%R) /\
       largest n (fun j => Rabs (fst (test_msg LOGN j) - fst (y j))) er /\ largest n (fun j => Rabs (snd (test_msg LOGN j) - snd (y j))) ei /\
       largest N (fun i => IZR (Z.abs (c i - w i)) / Delta)%R S /\ (S <= (err + 8) / Delta)%R).
Proof.
  intros fuel stc sts st st2 pos B Hstc Hsts Hst Hst2 rho sw em err program H66 H64 Hsz H24. pose proof HP as [HLN HG HD Hq Hc' Hs' HQ Hw' Hw1'].
  pose proof (n_pos LOGN ltac:(lia)) as Hn. pose proof (N2 LOGN ltac:(lia)) as HN2.
  assert (Dp : (1 <= Delta)%R). { apply (IZR_le 1). assert (0 < 2 ^ LD) by (apply Z.pow_pos_nonneg; lia). lia. }
  destruct (boot_start_ok LOGN LOGq LOGQ LD LDc LDs G D HP h RM rnd Hh Hr HLD HLq Hq7 fuel st pos Hst) as [[E0 E1]|(s & st1 & pos1 & pt & ct & c & m' & ct_m & I & E1 & Hst1 & Hs & Hw & Hpt & Hct & Hnear & Hcm & Emr & Hd & HI)].
  { left. split; [exact E0|]. unfold program, end_to_end_test. cbv zeta. rewrite E1. reflexivity. }
  right. exists s, st1, pos1, pt, ct, c, m', ct_m, I. split; [exact E1|]. split; [exact Hnear|]. split; [intros i Hi; apply (Hcm i Hi)|]. split; [exact Emr|]. split; [exact Hd|]. split; [exact HI|]. intros HB.
  pose proof (pipe_qp _ _ _ _ _ _ _ HP s) as Hqp.
  destruct (front_ok LOGN LOGq LOGQ LDc LDs G D HP RM rnd s Hr Hs B (msg_max LOGq LD) ct_m m' I stc st1 pos1 Hstc Hst1 Hd HB) as (stc' & st' & pos' & r0 & r1 & e0 & e1 & x0 & x1 & EF & Hstc' & Hst' & R0 & R1 & C0 & C1 & Hx).
  { intros i Hi. apply (Hcm i Hi). } { rewrite Hw. exact H24. }
  rewrite Hw in R0, R1, C0, C1, Hx. fold rho sw em in R0, R1, C0, C1, Hx.
  unfold boot_front in EF. cbv zeta in EF. unfold boot_N in EF.
  destruct (CoeffToSlot LOGQ LOGN LDc RM rnd g stc st1 pos1 ct_m (map Some s) (sq_new LOGQ N) (sq_new LOGQ N)) as [[[[[stc'' st''] pos''] c0] c1]| | |] eqn:F1; try discriminate EF. cbn [bind] in EF.
  destruct (RS LOGQ (LOGQ_after_cts LOGQ LOGN LDc g) N c0 (sq_new (LOGQ_after_cts LOGQ LOGN LDc g) N)) as [r0'| | |] eqn:F2; try discriminate EF. cbn [bind] in EF.
  destruct (RS LOGQ (LOGQ_after_cts LOGQ LOGN LDc g) N c1 (sq_new (LOGQ_after_cts LOGQ LOGN LDc g) N)) as [r1'| | |] eqn:F3; try discriminate EF. cbn [bind] in EF.
  match type of EF with context [EvalMod ?a ?b ?cc ?d ?e ?f ?gg r0' ?i ?j] => destruct (EvalMod a b cc d e f gg r0' i j) as [[posa e0']| | |] eqn:F4; try discriminate EF end. cbn [bind] in EF.
  match type of EF with context [EvalMod ?a ?b ?cc ?d ?e ?f ?gg r1' ?i ?j] => destruct (EvalMod a b cc d e f gg r1' i j) as [[posb e1']| | |] eqn:F5; try discriminate EF end. cbn [bind] in EF.
  injection EF as -> -> -> -> -> -> ->.
  assert (A1 : LOGQ_after_cts LOGQ LOGN LDc g = Q1) by (unfold LOGQ_after_cts; rewrite (pipe_Ddiv _ _ _ _ _ _ _ HP s); reflexivity).
  assert (A2 : LOGQ_after_evalmod LOGQ LOGN LDc LOGq g = Q2) by (unfold LOGQ_after_evalmod; rewrite A1; reflexivity).
  assert (A3 : LOGQ_after_stc LOGQ LOGN LDc LOGq LDs g = Q3) by (unfold LOGQ_after_stc; rewrite A2, (pipe_Ddiv _ _ _ _ _ _ _ HP s); reflexivity).
  rewrite A1 in F2, F3. rewrite A1, A2 in F4, F5.
  assert (HDz : 0 <= Z.of_nat D * LDc /\ 0 <= Z.of_nat D * LDs) by lia.
  assert (Q30 : LOGQ <= 2 ^ 30) by (unfold widths in Hw'; change (2 ^ 30) with 1073741824; lia).
  assert (PW : forall Q, Q3 <= Q -> (IZR (2 ^ (Q3 - 1)) <= IZR (2 ^ (Q - 1)))%R) by (intros Q HQ'; apply IZR_le, Z.pow_le_mono_r; lia).
  assert (N2' : N / 2 = n) by (rewrite HN2, Z.mul_comm; apply Z.div_mul; lia).
  assert (CN : forall Q cc f e, carries Q N (coef s) cc q f e -> (0 <= e)%R).
  { intros Q cc f e (u & _ & Hu). rewrite N2' in Hu. eapply Rle_trans; [apply modulus_nonneg|apply (Hu 0 ltac:(lia))]. }
  pose proof (CN _ _ _ _ R0) as Hsw. pose proof (CN _ _ _ _ C0) as Hem.
  assert (Hrho : (0 <= rho)%R) by (eapply Rle_trans; [apply Rabs_pos|apply (Hx 0 ltac:(lia))]).
  assert (RR : forall j, 0 <= rev j < n) by (intros j; apply (pipe_rev_range _ _ _ _ _ _ _ HP s)).
  assert (HIR : forall i, 0 <= i < N -> (Rabs (IZR (I i)) <= IZR B)%R) by (intros i Hi; rewrite <- abs_IZR; apply IZR_le; auto).
  assert (HB0 : (0 <= IZR B)%R) by (eapply Rle_trans; [apply Rabs_pos|apply (HIR 0 ltac:(lia))]).
  assert (HMq : forall i, 0 <= i < N -> (Rabs (IZR (m' i) / q) <= msg_max LOGq LD)%R).
  { intros i Hi. destruct (Hcm i Hi) as (_ & _ & Hm). unfold Rdiv. rewrite Rabs_mult, (Rabs_right (/ q)) by (apply Rle_ge, Rlt_le, Rinv_0_lt_compat; auto).
    apply (Rmult_le_reg_r q); [auto|]. rewrite Rmult_assoc, Rinv_l, Rmult_1_r by lra. lra. }
  assert (Hmm : (0 <= msg_max LOGq LD)%R) by (eapply Rle_trans; [apply Rabs_pos|apply (HMq 0 ltac:(lia))]).
  set (y := fun i => m' i + 2 ^ LOGq * I i) in *.
  assert (Yq : forall i, IZR (y i) = (q * (IZR (I i) + IZR (m' i) / q))%R) by (intros i; unfold y; rewrite plus_IZR, mult_IZR; change (IZR (2 ^ LOGq)) with q; field; lra).
  assert (X1 : forall x i, 0 <= i < N -> (Rabs (x - IZR (I i) - IZR (m' i) / q) <= rho)%R ->
    (Rabs (x - IZR (I i)) <= 24)%R /\ (Rabs x <= 24)%R /\ (Rabs (q * x + 0 - IZR (y i)) <= q * rho)%R /\ (Rabs (q * (x - IZR (I i)) + 0 - IZR (c i)) <= q * rho + 8)%R).
  { intros x i Hi Hxi. specialize (HMq i Hi). specialize (HIR i Hi). destruct (Hcm i Hi) as (Hc8 & _). apply IZR_le in Hc8. rewrite abs_IZR, minus_IZR in Hc8.
    assert (T1 : (Rabs (x - IZR (I i)) <= msg_max LOGq LD + rho)%R). { replace (x - IZR (I i))%R with (IZR (m' i) / q + (x - IZR (I i) - IZR (m' i) / q))%R by ring. eapply Rle_trans; [apply Rabs_triang|]. lra. }
    split; [lra|]. split. { replace x with (IZR (I i) + (x - IZR (I i)))%R by ring. eapply Rle_trans; [apply Rabs_triang|]. lra. }
    assert (T2 : (Rabs (q * (x - IZR (I i) - IZR (m' i) / q)) <= q * rho)%R) by (rewrite Rabs_mult, (Rabs_right q) by lra; apply Rmult_le_compat_l; lra).
    split. { rewrite Yq. replace (q * x + 0 - q * (IZR (I i) + IZR (m' i) / q))%R with (q * (x - IZR (I i) - IZR (m' i) / q))%R by ring. exact T2. }
    replace (q * (x - IZR (I i)) + 0 - IZR (c i))%R with (q * (x - IZR (I i) - IZR (m' i) / q) + (IZR (m' i) - IZR (c i)))%R by (field; lra). eapply Rle_trans; [apply Rabs_triang|]. lra. }
  assert (HQI : forall r e x z, carries Q1 N (coef s) r q (fun j => real (x j)) sw -> carries Q2 N (coef s) e q (fun j => real (x j - z j)) em ->
    exists cc, evalqI LOGQ LOGN LDc LOGq g r e = Ok cc /\ carries Q2 N (coef s) cc q (fun j => real (z j)) (sw + em)).
  { intros r e x z (wr & Dr & Sr) (we & De & Se). unfold evalqI, boot_N. rewrite A1, A2.
    destruct (resize_down Q1 Q2 N r (coef s) wr (sq_new Q2 N)) as (cc & Ec & Dc); [lia|lia|apply objS_new; lia|exact Dr|].
    rewrite Ec. cbn [bind]. destruct (C36_sub Q2 N cc e (coef s) wr we) as (c2 & Ec2 & Dc2); [lia|lia|exact Dc|exact De|].
    exists c2. split; [exact Ec2|]. exists (fun i => wr i - we i)%Z. split; [exact Dc2|]. rewrite N2' in *. intros j Hj. specialize (Sr j Hj). specialize (Se j Hj).
    rewrite slots_sub.
    replace (slots N q wr j - slots N q we j - real (z j))%num with ((slots N q wr j - real (x j)) + - (slots N q we j - real (x j - z j)) : RC)%num by (rewrite <- real_minus; ring).
    pose proof (modulus_add (slots N q wr j - real (x j))%num (- (slots N q we j - real (x j - z j)))%num) as T. rewrite modulus_opp in T. unfold RC in *. lra. }
  destruct (HQI r0 e0 x0 (fun j => IZR (I (rev j))) R0 C0) as (q0 & F7 & K0).
  destruct (HQI r1 e1 x1 (fun j => IZR (I (rev j + n)%Z)) R1 C1) as (q1 & F8 & K1).
  destruct (back_ok LOGN LOGq LOGQ LDc LDs G D HP RM rnd s Hr Hs sts st' pos' q0 q1 (fun i => IZR (I i)) (IZR B + (sw + em)) (sw + em) Hsts Hst' K0 K1)
    as (sts' & st3 & pos3 & ct_qI & qI & F9 & Hsts' & Hst3 & HdI & HqI).
  { intros i Hi. apply Rplus_le_compat_r. auto. }
  rewrite Hw in HqI. assert (HqE : forall i, 0 <= i < N -> (Rabs (IZR (qI i) - q * IZR (I i)) <= err)%R) by (intros i Hi; exact (HqI i Hi)). clear HqI.
  assert (Herr : (0 <= err)%R) by (eapply Rle_trans; [apply Rabs_pos|apply (HqE 0 ltac:(lia))]).
  assert (P0 : (0 <= q * sw)%R /\ (0 <= q * em)%R) by (split; apply Rmult_le_pos; lra). rewrite !Rmult_plus_distr_l in Hsz.
  assert (YB : forall i, 0 <= i < N -> - 2 ^ (LOGQ - 1) <= y i < 2 ^ (LOGQ - 1)).
  { intros i Hi. assert (A : Z.abs (y i) < 2 ^ (LOGQ - 1)); [|lia]. apply lt_IZR. rewrite abs_IZR, Yq, Rabs_mult, (Rabs_right q) by lra. pose proof (PW LOGQ ltac:(lia)) as P. specialize (HMq i Hi). specialize (HIR i Hi).
    pose proof (Rabs_triang (IZR (I i)) (IZR (m' i) / q)) as T. assert (T2 : (q * Rabs (IZR (I i) + IZR (m' i) / q) <= q * 24)%R) by (apply Rmult_le_compat_l; lra).
    assert (0 <= q * (sw + em))%R by (apply Rmult_le_pos; lra). lra. }
  destruct (C35_dec LOGQ N ct_m s y (rq_new LOGQ N) ltac:(lia) ltac:(lia) Hs ltac:(apply objP_object; try lia; apply objP_new) Hd) as (pm & F6 & Hpm). apply holdsP_rep in Hpm; try lia. subst pm.
  destruct Hpt as [Hpt Hcs]. apply holdsP_rep in Hpt; try lia. subst pt.
  assert (C64 : forall i, 0 <= i < N -> Z.abs (c i) < 2 ^ 64).
  { intros i Hi. specialize (Hcs i Hi). assert (2 ^ (LOGq - 1) <= 2 ^ 63) by (apply Z.pow_le_mono_r; lia). change (2 ^ 64) with (2 * 2 ^ 63). lia. }
  assert (QB : forall i, 0 <= i < N -> - 2 ^ (Q3 - 1) <= qI i < 2 ^ (Q3 - 1)).
  { intros i Hi. assert (A : Z.abs (qI i) < 2 ^ (Q3 - 1)); [|lia]. apply lt_IZR. rewrite abs_IZR. specialize (HqE i Hi). specialize (HIR i Hi).
    pose proof (Rabs_triang (IZR (qI i) - q * IZR (I i)) (q * IZR (I i))) as T. replace (IZR (qI i) - q * IZR (I i) + q * IZR (I i))%R with (IZR (qI i)) in T by ring.
    rewrite (Rabs_mult q), (Rabs_right q) in T by lra. assert (T2 : (q * Rabs (IZR (I i)) <= q * 24)%R) by (apply Rmult_le_compat_l; lra). lra. }
  pose proof (PW Q1 ltac:(lia)) as PQ1. pose proof (PW Q2 ltac:(lia)) as PQ2.
  (* after CoeffToSlot *)
  destruct (stage_ok LOGN LD Q1 q ltac:(lia) HLD ltac:(lia) Hqp st2 s r0 r1 (fun off => cts_wanted LOGQ LOGN (2 ^ LD) off (repP LOGQ N y)) x0 x1 (fun off j => IZR (low64 (y (rev j + off)%Z)) / Delta)%R 24%R sw Hst2 Hs R0 R1)
    as (st2a & s1 & T1 & Hst2a & L1 & U1).
  { intros j Hj. destruct (Hx j Hj) as [X2 X3]. specialize (RR j). split; [apply (X1 _ (rev j) ltac:(lia) X2)|apply (X1 _ (rev j + n) ltac:(lia) X3)]. }
  { lra. } { intros off Ho. apply wanted_rep; auto; lia. }
  assert (Z1 : stage_report N y Delta (q * rho + q * sw) s1).
  { apply (report_ok x0 x1 (fun _ => 0%R) y (fun off j => IZR (low64 (y (rev j + off)%Z)) / Delta)%R); auto; [intros; rewrite Rminus_0_r; reflexivity|].
    intros j Hj. destruct (Hx j Hj) as [X2 X3]. specialize (RR j). split; [apply (X1 _ (rev j) ltac:(lia) X2)|apply (X1 _ (rev j + n) ltac:(lia) X3)]. }
  (* after EvalMod *)
  destruct (stage_ok LOGN LD Q2 q ltac:(lia) HLD ltac:(lia) Hqp st2a s e0 e1 (fun off => cts_wanted LOGq LOGN (2 ^ LD) off (repP LOGq N c)) (fun j => (x0 j - IZR (I (rev j)))%R) (fun j => (x1 j - IZR (I (rev j + n)%Z))%R)
      (fun off j => IZR (low64 (c (rev j + off)%Z)) / Delta)%R 24%R em Hst2a Hs C0 C1) as (st2b & s2 & T2 & Hst2b & L2 & U2).
  { intros j Hj. destruct (Hx j Hj) as [X2 X3]. specialize (RR j). split; [apply (X1 _ (rev j) ltac:(lia) X2)|apply (X1 _ (rev j + n) ltac:(lia) X3)]. }
  { lra. } { intros off Ho. apply wanted_rep; auto; lia. }
  assert (Z2 : stage_report N c Delta (q * rho + 8 + q * em) s2).
  { apply (report_ok (fun j => (x0 j - IZR (I (rev j)))%R) (fun j => (x1 j - IZR (I (rev j + n)%Z))%R) (fun _ => 0%R) c (fun off j => IZR (low64 (c (rev j + off)%Z)) / Delta)%R); auto; [intros; rewrite Rminus_0_r; reflexivity|].
    intros j Hj. destruct (Hx j Hj) as [X2 X3]. specialize (RR j). split; [apply (X1 _ (rev j) ltac:(lia) X2)|apply (X1 _ (rev j + n) ltac:(lia) X3)]. }
  (* the multiples of q *)
  destruct (stage_ok LOGN LD Q2 q ltac:(lia) HLD ltac:(lia) Hqp st2b s q0 q1 (evalqI_wanted LOGq LOGQ LOGN LD (repP LOGQ N y) (repP LOGq N c)) (fun j => IZR (I (rev j))) (fun j => IZR (I (rev j + n)%Z))
      (fun off j => (IZR (low64 (y (rev j + off)%Z)) - IZR (low64 (c (rev j + off)%Z))) / Delta)%R 24%R (sw + em)%R Hst2b Hs K0 K1) as (st2c & s3 & T3 & Hst2c & L3 & U3).
  { intros j Hj. specialize (RR j). split; (eapply Rle_trans; [apply HIR; lia|lra]). }
  { lra. } { intros off Ho. apply evalqI_wanted_rep; auto; lia. }
  assert (Z3 : stage_report N y Delta (8 + q * (sw + em)) s3).
  { apply (report_ok (fun j => IZR (I (rev j))) (fun j => IZR (I (rev j + n)%Z)) (fun i => IZR (low64 (c i))) y (fun off j => (IZR (low64 (y (rev j + off)%Z)) - IZR (low64 (c (rev j + off)%Z))) / Delta)%R); auto.
    assert (E8 : forall i, 0 <= i < N -> (Rabs (q * IZR (I i) + IZR (low64 (c i)) - IZR (y i)) <= 8)%R).
    { intros i Hi. rewrite low64_small by auto. destruct (Hcm i Hi) as (Hc8 & _). apply IZR_le in Hc8. rewrite abs_IZR, minus_IZR in Hc8. rewrite Yq.
      replace (q * IZR (I i) + IZR (c i) - q * (IZR (I i) + IZR (m' i) / q))%R with (- (IZR (m' i) - IZR (c i)))%R by (field; lra). rewrite Rabs_Ropp. exact Hc8. }
    intros j Hj. specialize (RR j). split; apply E8; lia. }
  (* after SlotToCoeff *)
  destruct (C35_dec Q3 N ct_qI s qI (rq_new Q3 N) ltac:(lia) ltac:(lia) Hs ltac:(apply objP_object; try lia; apply objP_new) HdI) as (pq & F10 & Hpq). apply holdsP_rep in Hpq; try lia. subst pq.
  destruct (stage_ok LOGN LD Q2 q ltac:(lia) HLD ltac:(lia) Hqp st2c s q0 q1 (fun off => cts_wanted Q3 LOGN (2 ^ LD) off (repP Q3 N qI)) (fun j => IZR (I (rev j))) (fun j => IZR (I (rev j + n)%Z))
      (fun off j => IZR (low64 (qI (rev j + off)%Z)) / Delta)%R 24%R (sw + em)%R Hst2c Hs K0 K1) as (st2d & s4 & T4 & Hst2d & L4 & U4).
  { intros j Hj. specialize (RR j). split; (eapply Rle_trans; [apply HIR; lia|lra]). }
  { lra. } { intros off Ho. apply wanted_rep; auto; lia. }
  assert (Z4 : stage_report N qI Delta (err + q * (sw + em)) s4).
  { apply (report_ok (fun j => IZR (I (rev j))) (fun j => IZR (I (rev j + n)%Z)) (fun _ => 0%R) qI (fun off j => IZR (low64 (qI (rev j + off)%Z)) / Delta)%R); auto; [intros; rewrite Rminus_0_r; reflexivity|].
    intros j Hj. specialize (RR j). rewrite !Rplus_0_r. split; rewrite Rabs_minus_sym; apply HqE; lia. }
  (* the result *)
  destruct (resize_down LOGQ Q3 N ct_m (coef s) y (sq_new Q3 N)) as (cr & F11 & Dr); [lia|lia|apply objS_new; lia|exact Hd|].
  destruct (C36_sub Q3 N cr ct_qI (coef s) y qI) as (cf & F12 & Df); [lia|lia|exact Dr|exact HdI|].
  destruct (boot_finish_ok LOGN LOGq LOGQ LD LDc LDs G D HP HLD Hq7 err_sup_double st2d s (repP LOGq N c) cf c (fun i => y i - qI i) err) as (st2e & yy & er & ei & S & F13 & _ & HY & HY2 & LA & LB & LC & HS); auto.
  { apply sup_either. auto. }
  { split; [apply repP_holds; lia|exact Hcs]. }
  { assert (T : (3 / 4 * Delta + / 2 <= q * 24)%R); [|lra]. assert (L : (2 * Delta <= q)%R); [|lra]. unfold boot_q. rewrite <- mult_IZR. apply IZR_le. change 2 with (2 ^ 1) at 1. rewrite <- Z.pow_add_r by lia. apply Z.pow_le_mono_r; lia. }
  { intros i Hi. apply (Hcm i Hi). }
  { intros i Hi. destruct (Hcm i Hi) as (Hc8 & _). apply IZR_le in Hc8. rewrite abs_IZR, minus_IZR in Hc8. specialize (HqE i Hi). rewrite minus_IZR, Yq.
    replace (q * (IZR (I i) + IZR (m' i) / q) - IZR (qI i) - IZR (c i))%R with (- (IZR (qI i) - q * IZR (I i)) + (IZR (m' i) - IZR (c i)))%R by (field; lra).
    eapply Rle_trans; [apply Rabs_triang|]. rewrite Rabs_Ropp. lra. }
  exists stc', sts', st3, st2e, pos3, s1, s2, s3, s4, S, er, ei, ct_qI, qI. split.
  { unfold program, end_to_end_test. cbv zeta. rewrite E1. cbn [bind]. rewrite Emr. cbn [bind]. rewrite F1. cbn [bind]. rewrite A1, A2, A3. rewrite F2. cbn [bind]. rewrite F3. cbn [bind]. rewrite F6. cbn [bind].
    match goal with |- context [stage_error LOGN LD ?Q st2 ?b ?c ?d] => replace (stage_error LOGN LD Q st2 b c d) with (Ok (st2a, s1)) by (symmetry; exact T1) end. cbn [bind]. rewrite F4. cbn [bind]. rewrite F5. cbn [bind]. match goal with |- context [stage_error LOGN LD ?Q st2a ?b ?c ?d] => replace (stage_error LOGN LD Q st2a b c d) with (Ok (st2b, s2)) by (symmetry; exact T2) end. cbn [bind]. rewrite F7. cbn [bind]. rewrite F8. cbn [bind]. match goal with |- context [stage_error LOGN LD ?Q st2b ?b ?c ?d] => replace (stage_error LOGN LD Q st2b b c d) with (Ok (st2c, s3)) by (symmetry; exact T3) end. cbn [bind]. rewrite F9. cbn [bind]. rewrite F10. cbn [bind].
    match goal with |- context [stage_error LOGN LD ?Q st2c ?b ?c ?d] => replace (stage_error LOGN LD Q st2c b c d) with (Ok (st2d, s4)) by (symmetry; exact T4) end. cbn [bind]. rewrite F11. cbn [bind]. rewrite F12. cbn [bind]. rewrite F13. reflexivity. }
  split. { rewrite Rmult_plus_distr_l. exact Z1. }
  split. { eapply Rle_trans; [apply (proj1 Z2 C64)|]. lra. }
  split. { rewrite Rplus_comm. exact Z3. }
  split; [exact HdI|]. split; [exact HqE|]. split. { rewrite Rplus_comm. exact Z4. }
  cbv zeta. split. { intros j Hj. rewrite <- HY by auto. apply HY2. exact Hj. }
  assert (LE : forall f f' M b, (forall j, 0 <= j < M -> f j = f' j) -> largest M f b -> largest M f' b).
  { intros f f' M b Hf (Z0 & Zb & Zc). split; [exact Z0|]. split; [intros j Hj; rewrite <- Hf by auto; auto|]. destruct Zc as [->|(j & Hj & ->)]; [left; reflexivity|right; exists j; split; auto]. }
  split; [|split; [|split; [exact LC|exact HS]]].
  - eapply LE; [|exact LA]. intros j Hj. cbv beta. rewrite HY by auto. reflexivity.
  - eapply LE; [|exact LB]. intros j Hj. cbv beta. rewrite HY by auto. reflexivity.
Qed.
End Program.

(** ** end_to_end_test<9, 60, LDs, 2> with LDs = 50 and 60 and the constants of rns.h *)
Local Lemma modulus_re (z : CC) : (Rabs (fst z) <= modulus z)%R. Proof. exact (modulus_cre z). Qed.
Local Lemma modulus_im (z : CC) : (Rabs (snd z) <= modulus z)%R.
Proof. exact (modulus_cim z). Qed.
Theorem C106_parameters : forall LDs RM rnd h fuel stc sts st st2 pos, 50 <= LDs <= 60 -> rand_stream RM rnd -> 0 <= h <= 128 ->
  cts_static 1450 9 60 2 stc -> stc_static 490 9 LDs 2 sts -> ifft_static 9 st -> fft_static 9 st2 ->
  let program := end_to_end_test 60 1450 9 50 60 60 LDs 2 24 h RM rnd fuel stc sts st st2 pos in
  keygen fuel 512 rnd h (fresh 512) pos = Diverge /\ program = Diverge \/
  exists s st1 pos1 pt ct m ct_m I, boot_start 60 9 50 h RM rnd fuel st pos = Ok (st1, pos1, (carray (K := Rops) 256 (test_msg 9), map Some s, pt, ct)) /\
    mod_raise 60 1450 512 ct (sq_new 1450 512) = Ok ct_m /\ decrypts 1450 512 ct_m (coef s) (fun i => m i + 2 ^ 60 * I i) /\ (forall i, 0 <= i < 512 -> 2 * Z.abs (I i) <= h + 2) /\
    ((forall i, 0 <= i < 512 -> Z.abs (I i) <= 23) ->
     exists stc' sts' st' st2' pos' cts_err evalmod_err evalqI_err stc_err S er ei,
       program = Ok (stc', sts', st', st2', pos', ((cts_err, evalmod_err, evalqI_err, stc_err), S, (er, ei))) /\
       (evalmod_err <= 12 / 1000000)%R /\ (0 <= S <= / 8000)%R /\ (0 <= er <= / 15)%R /\ (0 <= ei <= / 15)%R /\
       ((forall i, 0 <= i < 512 -> Z.abs (I i) <= 15) -> (cts_err <= 6 / 10000000)%R /\ (evalqI_err <= 12 / 1000000)%R /\ (stc_err <= / 7000)%R) /\
       ((exists i, 0 <= i < 512 /\ 17 <= Z.abs (I i)) -> (16383 <= cts_err)%R /\ (16383 <= evalqI_err)%R /\ (16383 <= stc_err)%R)).
Proof.
  intros LDs RM rnd h fuel stc sts st st2 pos HLDs Hr Hh Hstc Hsts Hst Hst2 program.
  pose proof (proj1 (tb_proposed 60 LDs h (msg_max 60 50) ltac:(lia) ltac:(lia) Hh msg_max_60)) as HE. pose proof (tb_24 60 h (msg_max 60 50) ltac:(lia) Hh msg_max_60) as H24.
  destruct (tb_rounding 60 h (msg_max 60 50) ltac:(lia) Hh msg_max_60) as [[Hr0 _] Hr1]. specialize (Hr1 eq_refl).
  pose proof (tb_cts_noise 60 h ltac:(lia) Hh) as Hsw. pose proof (tb_mod_error 60 h (msg_max 60 50) ltac:(lia) Hh msg_max_60) as Hem.
  set (err := (IZR (2 ^ 60) * proposed_error 512 h 60 60 LDs 2 4 23 (msg_max 60 50) + IZR (1 + h) / 2)%R) in HE.
  set (rho := boot_rounding 512 h 60 60 2 4 23 (msg_max 60 50)) in *. set (sw := boot_cts_noise 512 h 60 60 4) in *. set (em := boot_mod_error 512 h 60 60 2 4 23 (msg_max 60 50)) in *.
  assert (D50 : IZR (2 ^ 50) = 1125899906842624%R) by reflexivity. assert (D37 : IZR (2 ^ 37) = 137438953472%R) by reflexivity. assert (D60 : IZR (2 ^ 60) = 1152921504606846976%R) by reflexivity.
  assert (D64 : IZR (2 ^ 64) = 18446744073709551616%R) by reflexivity. assert (DQ : (IZR (2 ^ 200) <= IZR (2 ^ (490 - 4 * LDs - 1)))%R) by (apply IZR_le, Z.pow_le_mono_r; lia).
  assert (D200 : (32 * IZR (2 ^ 60) <= IZR (2 ^ 200))%R) by (rewrite <- mult_IZR; apply IZR_le; discriminate).
  assert (Hrh : (rho <= 5 / 10000000000)%R) by exact Hr1. assert (Hsw' : (0 <= sw <= 29 / 1000000000000000)%R) by exact Hsw. assert (Hem' : (0 <= em <= 11 / 1000000000)%R) by exact Hem. rewrite D37 in HE.
  destruct (C106_end_to_end_test 9 60 1450 50 60 LDs 2 4 (tb_params 60 LDs ltac:(lia) ltac:(lia)) h RM rnd (proj1 Hh) Hr ltac:(lia) ltac:(lia) ltac:(lia) fuel stc sts st st2 pos 23 Hstc Hsts Hst Hst2)
    as [E|(s & st1 & pos1 & pt & ct & c & m' & ct_m & I & E1 & Hn & Hc8 & E2 & Hd & HI & HB)].
  - change (Z.of_nat 4) with 4. lia.
  - change (err + 8 < IZR (2 ^ 64))%R. rewrite D64. lra.
  - change (IZR (2 ^ 60) * (24 + sw + em) + (err + 8) < IZR (2 ^ (1450 - 4 * 60 - 12 * 60 - 4 * LDs - 1)))%R. replace (1450 - 4 * 60 - 12 * 60 - 4 * LDs - 1) with (490 - 4 * LDs - 1) by lia. rewrite D60 in *. lra.
  - exact H24.
  - left. exact E.
  - right. exists s, st1, pos1, pt, ct, m', ct_m, I. split; [exact E1|]. split; [exact E2|]. split; [exact Hd|]. split; [exact HI|]. intros HI23.
    destruct (HB HI23) as (stc' & sts' & st' & st2' & pos' & s1 & s2 & s3 & s4 & S & er & ei & ct_qI & qI & E3 & R1 & R2 & R3 & HdI & HqI & R4 & Hy & L1 & L2 & L3 & HS). clear HB.
    exists stc', sts', st', st2', pos', s1, s2, s3, s4, S, er, ei. split; [exact E3|].
    change (boot_q 60) with (IZR (2 ^ 60)) in *. change (2 ^ 9) with 512 in *. change (2 ^ (9 - 1)) with 256 in *. fold rho sw em in R1, R2, R3, R4. fold err in R4, HqI, Hy, HS.
    assert (Mb : forall i, 0 <= i < 512 -> (Rabs (IZR (m' i)) <= 1000000000000000)%R).
    { intros i Hi. destruct (some_m 9 ltac:(lia) (test_msg 9)) as [m Hm]. change (2 ^ 9) with 512 in Hm. change (2 ^ (9 - 1)) with 256 in Hm. pose proof (Hn m Hm i Hi) as Nr. unfold nearest in Nr.
      assert (Mm : (Rabs (m i) <= 3 / 4)%R).
      { apply (coef_slots 9 m (3 / 4)%R ltac:(lia)); [|exact Hi]. intros j Hj. change (2 ^ 9) with 512. rewrite (Hm j Hj). unfold test_msg. rewrite circle_modulus. apply sqrt2_bounds. }
      specialize (Hc8 i Hi). apply IZR_le in Hc8. rewrite abs_IZR, minus_IZR in Hc8. rewrite D50 in Nr.
      pose proof (Rabs_triang (IZR (m' i) - IZR (c i)) (IZR (c i) - m i * 1125899906842624)) as T1. pose proof (Rabs_triang (IZR (m' i) - IZR (c i) + (IZR (c i) - m i * 1125899906842624)) (m i * 1125899906842624)) as T2.
      replace (IZR (m' i) - IZR (c i) + (IZR (c i) - m i * 1125899906842624) + m i * 1125899906842624)%R with (IZR (m' i)) in T2 by ring. rewrite (Rabs_mult (m i)), (Rabs_right 1125899906842624) in T2 by lra. lra. }
    assert (small : (forall i, 0 <= i < 512 -> Z.abs (I i) <= 15) -> (forall i, 0 <= i < 512 -> Z.abs (m' i + 2 ^ 60 * I i) < 2 ^ 64) /\ (forall i, 0 <= i < 512 -> Z.abs (qI i) < 2 ^ 64)).
    { intros H15. split; intros i Hi; specialize (H15 i Hi); apply IZR_le in H15; rewrite abs_IZR in H15; apply lt_IZR; rewrite abs_IZR, D64.
      - specialize (Mb i Hi). rewrite plus_IZR, mult_IZR, D60. pose proof (Rabs_triang (IZR (m' i)) (1152921504606846976 * IZR (I i))) as T. rewrite (Rabs_mult 1152921504606846976), (Rabs_right 1152921504606846976) in T by lra. lra.
      - specialize (HqI i Hi). rewrite D60 in HqI. pose proof (Rabs_triang (IZR (qI i) - 1152921504606846976 * IZR (I i)) (1152921504606846976 * IZR (I i))) as T. replace (IZR (qI i) - 1152921504606846976 * IZR (I i) + 1152921504606846976 * IZR (I i))%R with (IZR (qI i)) in T by ring.
        rewrite (Rabs_mult 1152921504606846976), (Rabs_right 1152921504606846976) in T by lra. lra. }
    assert (large : forall i, 0 <= i < 512 -> 17 <= Z.abs (I i) -> 2 ^ 64 <= Z.abs (m' i + 2 ^ 60 * I i) /\ 2 ^ 64 <= Z.abs (qI i)).
    { intros i Hi H17. apply IZR_le in H17; rewrite abs_IZR in H17. split; apply le_IZR; rewrite abs_IZR, D64.
      - specialize (Mb i Hi). rewrite plus_IZR, mult_IZR, D60. pose proof (Rabs_triang (IZR (m' i) + 1152921504606846976 * IZR (I i)) (- IZR (m' i))) as T. rewrite Rabs_Ropp in T. replace (IZR (m' i) + 1152921504606846976 * IZR (I i) + - IZR (m' i))%R with (1152921504606846976 * IZR (I i))%R in T by ring.
        rewrite (Rabs_mult 1152921504606846976), (Rabs_right 1152921504606846976) in T by lra. lra.
      - specialize (HqI i Hi). rewrite D60 in HqI. pose proof (Rabs_triang (IZR (qI i)) (- (IZR (qI i) - 1152921504606846976 * IZR (I i)))) as T. rewrite Rabs_Ropp in T. replace (IZR (qI i) + - (IZR (qI i) - 1152921504606846976 * IZR (I i)))%R with (1152921504606846976 * IZR (I i))%R in T by ring.
        rewrite (Rabs_mult 1152921504606846976), (Rabs_right 1152921504606846976) in T by lra. lra. }
    rewrite D50, D60 in *. split; [lra|]. split; [split; [apply L3|lra]|].
    assert (LB : forall f v, largest 256 f v -> (forall j, 0 <= j < 256 -> (f j <= / 15)%R) -> (0 <= v <= / 15)%R).
    { intros f v (Z0 & _ & [->|(j & Hj & ->)]) Hf; split; auto; lra. }
    assert (YB : forall j, 0 <= j < 256 -> (modulus (slots 512 1125899906842624 (fun i => (m' i + 2 ^ 60 * I i - qI i)%Z) j - test_msg 9 j)%num <= / 15)%R) by (intros j Hj; eapply Rle_trans; [apply (Hy j Hj)|lra]).
    split; [eapply LB; [exact L1|]; intros j Hj; eapply Rle_trans; [|apply (YB j Hj)]; rewrite Rabs_minus_sym; apply (modulus_re (slots 512%Z 1125899906842624%R (fun i => (m' i + 2 ^ 60 * I i - qI i)%Z) j - test_msg 9 j)%num)|].
    split; [eapply LB; [exact L2|]; intros j Hj; eapply Rle_trans; [|apply (YB j Hj)]; rewrite Rabs_minus_sym; apply (modulus_im (slots 512%Z 1125899906842624%R (fun i => (m' i + 2 ^ 60 * I i - qI i)%Z) j - test_msg 9 j)%num)|].
    split.
    + intros H15. destruct (small H15) as [H1 H2]. pose proof (proj1 R1 H1). pose proof (proj1 R3 H1). pose proof (proj1 R4 H2). repeat split; lra.
    + intros (i & Hi & H17). destruct (large i Hi H17) as [H1 H2]. pose proof (proj2 R1 (ex_intro _ i (conj Hi H1))) as P1. pose proof (proj2 R3 (ex_intro _ i (conj Hi H1))) as P2. pose proof (proj2 R4 (ex_intro _ i (conj Hi H2))) as P3. rewrite D64 in *. repeat split; lra.
Qed.
(** Keys with at most 28 nonzero coefficients: all printed errors are small *)
Theorem C106_light_key : forall LDs RM rnd h fuel stc sts st st2 pos, 50 <= LDs <= 60 -> rand_stream RM rnd -> 0 <= h <= 28 ->
  cts_static 1450 9 60 2 stc -> stc_static 490 9 LDs 2 sts -> ifft_static 9 st -> fft_static 9 st2 ->
  keygen fuel 512 rnd h (fresh 512) pos = Diverge \/
  exists stc' sts' st' st2' pos' cts_err evalmod_err evalqI_err stc_err S er ei,
    end_to_end_test 60 1450 9 50 60 60 LDs 2 24 h RM rnd fuel stc sts st st2 pos = Ok (stc', sts', st', st2', pos', ((cts_err, evalmod_err, evalqI_err, stc_err), S, (er, ei))) /\
    (cts_err <= 6 / 10000000)%R /\ (evalmod_err <= 12 / 1000000)%R /\ (evalqI_err <= 12 / 1000000)%R /\ (stc_err <= / 7000)%R /\ (0 <= S <= / 8000)%R /\ (0 <= er <= / 15)%R /\ (0 <= ei <= / 15)%R.
Proof.
  intros LDs RM rnd h fuel stc sts st st2 pos HLDs Hr Hh Hstc Hsts Hst Hst2.
  destruct (C106_parameters LDs RM rnd h fuel stc sts st st2 pos HLDs Hr ltac:(lia) Hstc Hsts Hst Hst2) as [[E _]|(s & a1 & a2 & a3 & a4 & m & a5 & I & _ & _ & _ & HI & HB)]; [left; exact E|right].
  destruct HB as (stc' & sts' & st' & st2' & pos' & s1 & s2 & s3 & s4 & S & er & ei & E & B2 & BS & B3 & B4 & Bs & _). { intros i Hi. specialize (HI i Hi). lia. }
  destruct Bs as (B5 & B6 & B7). { intros i Hi. specialize (HI i Hi). lia. }
  exists stc', sts', st', st2', pos', s1, s2, s3, s4, S, er, ei. auto 10.
Qed.
Example C106_case : exists fuel stc' sts' st' st2' pos' cts_err evalmod_err evalqI_err stc_err S er ei,
  end_to_end_test 60 1450 9 50 60 60 50 2 24 28 (2 ^ 31 - 1) counting fuel None None None None 0 = Ok (stc', sts', st', st2', pos', ((cts_err, evalmod_err, evalqI_err, stc_err), S, (er, ei))) /\
  (cts_err <= 6 / 10000000)%R /\ (evalqI_err <= 12 / 1000000)%R /\ (stc_err <= / 7000)%R.
Proof.
  destruct (C34_keygen_returns (2 ^ 9) counting (2 ^ 31 - 1) 28 (fresh (2 ^ 9)) 0 ltac:(lia) ltac:(lia) counting_stream (repeat_length _ _)) as (F & r & HF).
  { intros j p Hj. exists (Z.to_nat (512 * Z.of_nat p + j)). split; [lia|]. unfold counting. rewrite Z2Nat.id by lia. change (2 ^ 9) with 512 in *. change (2 ^ 31) with (512 * 4194304).
    rewrite Z.rem_mul_r by lia. rewrite (Z.mul_comm 512 (_ mod 4194304)), Z.mod_add by lia. rewrite Z.mod_mod by lia. rewrite Z.add_comm, Z.mul_comm, Z.mod_add, Z.mod_small by lia. reflexivity. }
  exists F. destruct (C106_light_key 50 (2 ^ 31 - 1) counting 28 F None None None None 0 ltac:(lia) counting_stream ltac:(lia) (cts_first _ _ _ _) (stc_first _ _ _ _) (ifft_first 9) (fft_first 9)) as [E|(stc' & sts' & st' & st2' & pos' & s1 & s2 & s3 & s4 & S & er & ei & E & B1 & B2 & B3 & B4 & _)].
  - change (2 ^ 9) with 512 in HF. rewrite (HF F (le_n F)) in E. discriminate.
  - exists stc', sts', st', st2', pos', s1, s2, s3, s4, S, er, ei. auto.
Qed.
