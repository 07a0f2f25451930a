(** C105: what bootstrap_test.cpp, evalqI_test.cpp and proposal.cpp print. *)
From Coq Require Import ZArith List Bool Lia Reals Lra Ring.
From Verif Require Import Base BaseFacts Sums ZQ ZQFacts ZQFacts2 RQ RQFacts Conv Rot Util GSum Core CoreFacts Matrix MatrixFacts MatMulFacts
  DFT DFTTheory DFTFacts FFTFacts SpecZQ SpecPoly SpecPolyFacts SpecScheme ConvFacts SpecMat Properties_Mat Properties_Msg SpecDFT Properties_DFT SpecEnc Properties_Core Properties_Rot Properties_Conv
  GroupFacts SlotFacts Encode EncodeFacts Plain BootFacts Properties_Enc Properties_Plain SpecLin LinTrans LinTransFacts LinSlots GroupSlots SpecBoot BootSlots PlainFacts SpecStat StatFacts Section3 Properties_Stat Properties_MatErr Properties_Serial
  Properties_Lin Properties_Boot Poly EvalMod SpecMod EvalModFacts PiBound EvalModBound Properties_EvalMod SpecPipe Pipeline PipeFacts Properties_Pipe Bootstrap SpecEval EvalFacts Section4 SupFacts MeasFacts Measure UtilFacts Properties_ZQ CtsMeasure CtsProps Messages SupRatio TestProg TestLayers TestLinT.
From Verif Require Import TestBoot.
Import ListNotations.
Open Scope Z_scope.
Add Ring RCtb : HR.

(** the two loops for the sup norm compute the largest coefficient if the coefficients fit into a word *)
Lemma sup_word_ok Q N LD d : 66 <= Q -> 0 <= N -> (forall i, 0 <= i < N -> Z.abs (d i) < 2 ^ 64) ->
  exists S, err_sup_word Q N LD (repP Q N d) = Ok S /\ largest N (fun i => IZR (Z.abs (d i)) / IZR (2 ^ LD))%R S.
Proof.
  intros HQ HN Hd. unfold err_sup_word.
  match goal with |- context [for_ 0 N ?b _] => destruct (for_inv b (fun k p => largest k (fun j => IZR (Z.abs (d j)) / IZR (2 ^ LD))%R p) 0 N 0%R HN (largest_0 _)) as (S & E & H) end.
  - intros i S Hi HS. unfold repP. rewrite lget_tab by auto. cbn [bind]. destruct (low_word Q HQ (d i) (Hd i Hi)) as (val & Ev & Er). rewrite Ev. cbn [bind].
    eexists. split; [|apply (largest_step i (fun j => IZR (Z.abs (d j)) / IZR (2 ^ LD))%R S); [lia|exact HS]].
    destruct (zq_is_big Q val) as [big| | |]; cbn [bind] in Er |- *; try discriminate.
    destruct (if big then zq_negate Q val else Ok val) as [v2| | |]; cbn [bind] in Er |- *; try discriminate. rewrite Er. reflexivity.
  - exists S. auto.
Qed.
Lemma sup_double_ok Q N LD d : 66 <= Q -> 0 <= N -> (forall i, 0 <= i < N -> Z.abs (d i) < 2 ^ 64) ->
  exists S, err_sup_double Q N LD (repP Q N d) = Ok S /\ largest N (fun i => IZR (Z.abs (d i)) / IZR (2 ^ LD))%R S.
Proof.
  intros HQ HN Hd. unfold err_sup_double. assert (P : 2 ^ 64 <= 2 ^ (Q - 1)) by (apply Z.pow_le_mono_r; lia).
  match goal with |- context [for_ 0 N ?b _] => destruct (for_inv b (fun k p => largest k (fun j => IZR (Z.abs (d j)) / IZR (2 ^ LD))%R p) 0 N 0%R HN (largest_0 _)) as (S & E & H) end.
  - intros i S Hi HS. specialize (Hd i Hi). unfold repP. rewrite lget_tab by auto. cbn [bind]. rewrite zq_double_ok by lia. cbn [bind]. rewrite low64_small by auto.
    eexists. split; [|apply (largest_step i (fun j => IZR (Z.abs (d j)) / IZR (2 ^ LD))%R S); [lia|exact HS]]. cbv zeta. rewrite abs_IZR. reflexivity.
  - exists S. auto.
Qed.

Lemma sqrt2_bounds : (7 / 10 <= / sqrt 2 <= 3 / 4)%R.
Proof.
  assert (S : (0 < sqrt 2)%R) by (apply sqrt_lt_R0; lra). assert (Q : (sqrt 2 * sqrt 2 = 2)%R) by (apply sqrt_sqrt; lra). assert (E : (/ sqrt 2 = sqrt 2 / 2)%R) by (rewrite <- Q at 3; field; lra). rewrite E. split; nra.
Qed.

Section Boot.
Context (LOGN LOGq LOGQ LD LDc LDs : Z) (G D : nat) (HP : boot_params LOGN LOGq LOGQ LDc LDs G D).
Context (h RM : Z) (rnd : nat -> Z) (Hh : 0 <= h) (Hr : rand_stream RM rnd) (HLD : 0 <= LD <= 60) (HLq : LD + 1 <= LOGq) (Hq7 : 7 <= LOGq).
Local Notation N := (2 ^ LOGN).
Local Notation n := (2 ^ (LOGN - 1)).
Local Notation q := (boot_q LOGq).
Local Notation g := (Z.of_nat G).
Local Notation Q2 := (LOGQ - Z.of_nat D * LDc - 12 * LOGq).
Local Notation Q3 := (LOGQ - Z.of_nat D * LDc - 12 * LOGq - Z.of_nat D * LDs).

(** the message of set_test_message *)
Definition test_msg (j : Z) : CC := circle (IZR j / IZR n * PI_macro).
(** the largest coefficient of the encrypted polynomial, in units of q *)
Definition msg_max : R := ((3 / 4 * IZR (2 ^ LD) + 17 / 2) / q)%R.

Local Lemma LDp : (1 <= IZR (2 ^ LD))%R. Proof. apply (IZR_le 1). assert (0 < 2 ^ LD) by (apply Z.pow_pos_nonneg; lia). lia. Qed.

(** keygen, encode, enc and mod_raise *)
Lemma boot_start_ok fuel st pos : ifft_static LOGN st ->
  keygen fuel N rnd h (fresh N) pos = Diverge /\ boot_start LOGq LOGN LD h RM rnd fuel st pos = Diverge \/
  exists s st' pos' pt ct c m' ct_m I, boot_start LOGq LOGN LD h RM rnd fuel st pos = Ok (st', pos', (carray (K := Rops) n test_msg, map Some s, pt, ct)) /\ ifft_static LOGN st' /\
    ternary N s /\ norm1 N (coef s) = h /\ signedP LOGq N pt c /\ decrypts LOGq N ct (coef s) m' /\
    (forall m, (forall j, 0 <= j < n -> slot N m j = test_msg j) -> forall i, 0 <= i < N -> nearest (m i * IZR (2 ^ LD)) (c i)) /\
    (forall i, 0 <= i < N -> Z.abs (m' i - c i) <= 8 /\ (Rabs (IZR (c i)) <= 3 / 4 * IZR (2 ^ LD) + / 2)%R /\ (Rabs (IZR (m' i)) <= q * msg_max)%R) /\
    mod_raise LOGq LOGQ N ct (sq_new LOGQ N) = Ok ct_m /\ decrypts LOGQ N ct_m (coef s) (fun i => m' i + 2 ^ LOGq * I i) /\ (forall i, 0 <= i < N -> 2 * Z.abs (I i) <= h + 2).
Proof.
  intros Hst. pose proof HP as [HLN HG HD Hq Hc' Hs' HQ Hw' Hw1']. pose proof (n_pos LOGN ltac:(lia)) as Hn. pose proof (N2 LOGN ltac:(lia)) as HN2. pose proof LDp as PD.
  assert (Eq : Z.quot N 2 = n) by (apply half_quot; lia). unfold boot_start. cbv zeta. rewrite Eq.
  destruct (C34_keygen fuel N rnd RM h (fresh N) pos ltac:(lia) ltac:(lia) Hr (repeat_length _ _)) as [E0|(s & pos1 & E0 & Hs & Hw)]; [left; rewrite E0; split; reflexivity|right].
  rewrite E0. cbn [bind]. rewrite <- norm1_count in Hw by exact Hs.
  rewrite !(C68_new (K := Rops)) by lia. cbn [bind].
  destruct (C95_test_message n (carray (K := Rops) n (fun _ => (0%num : CC))) ltac:(lia) (carray_of_carray _ _)) as [E1 Hz].
  match goal with |- context [set_test_message n ?a] => replace (set_test_message n a) with (Ok (carray (K := Rops) n test_msg)) by (symmetry; exact E1) end. cbn [bind].
  destruct (some_m LOGN ltac:(lia) test_msg) as [m Hm].
  assert (MB : forall i, 0 <= i < N -> (Rabs (m i) * IZR (2 ^ LD) <= 3 / 4 * IZR (2 ^ LD))%R).
  { intros i Hi. apply Rmult_le_compat_r; [lra|]. apply (coef_slots LOGN m (3 / 4)%R ltac:(lia)); auto. intros j Hj. rewrite (Hm j Hj). unfold test_msg. rewrite Hz. apply sqrt2_bounds. }
  assert (L1 : (2 * IZR (2 ^ LD) <= IZR (2 ^ LOGq))%R). { rewrite <- mult_IZR. apply IZR_le. change 2 with (2 ^ 1) at 1. rewrite <- Z.pow_add_r by lia. apply Z.pow_le_mono_r; lia. }
  assert (L2 : (16 * IZR (2 ^ LD) <= IZR (2 ^ 64))%R). { rewrite <- mult_IZR. apply IZR_le. change 16 with (2 ^ 4) at 1. rewrite <- Z.pow_add_r by lia. apply Z.pow_le_mono_r; lia. }
  assert (L3 : (128 <= IZR (2 ^ LOGq))%R). { apply IZR_le. change 128 with (2 ^ 7). apply Z.pow_le_mono_r; lia. }
  assert (L4 : (IZR (2 ^ LOGq) = 2 * IZR (2 ^ (LOGq - 1)))%R). { rewrite <- mult_IZR. f_equal. rewrite (pow2_half LOGq) by lia. lia. }
  destruct (C54_encode LOGq LOGN ltac:(lia) ltac:(lia) (2 ^ LD) st test_msg m (rq_new LOGq N)) as (st' & pt & c & F1 & Hc & Hc2).
  { split; [apply Z.pow_pos_nonneg; lia|apply Z.pow_lt_mono_r; lia]. }
  { exact Hst. } { apply objP_object; try lia. apply objP_new. } { exact Hm. }
  { intros i Hi. specialize (MB i Hi). change (2 ^ 64) with 18446744073709551616 in *. split; lra. }
  match goal with |- context [encode LOGq LOGN st ?x ?y ?u ?v] => replace (encode LOGq LOGN st x y u v) with (Ok (st', pt)) by (symmetry; exact F1) end. cbn [bind].
  destruct (C35_enc_dec LOGq N RM rnd pt c s (sq_new LOGq N) pos1 (rq_new LOGq N)) as (ct & pos' & e0 & pt' & F2 & He0 & _ & _ & Hd); auto; try lia.
  { apply new_object2; lia. } { apply objP_object; try lia. apply objP_new. }
  rewrite F2. cbn [bind].
  assert (CB : forall i, 0 <= i < N -> (Rabs (IZR (c i)) <= 3 / 4 * IZR (2 ^ LD) + / 2)%R).
  { intros i Hi. destruct (Hc2 i Hi) as [Hn1 _]. unfold nearest in Hn1. specialize (MB i Hi). pose proof (Rabs_triang_inv (IZR (c i)) (m i * IZR (2 ^ LD))) as T. rewrite Rabs_mult, (Rabs_right (IZR (2 ^ LD))) in T by lra. lra. }
  assert (QM : (q * msg_max = 3 / 4 * IZR (2 ^ LD) + 17 / 2)%R) by (unfold msg_max, boot_q; field; lra).
  assert (MM : forall i, 0 <= i < N -> (Rabs (IZR (c i + e0 i)) <= q * msg_max)%R).
  { intros i Hi. rewrite QM, plus_IZR. eapply Rle_trans; [apply Rabs_triang|]. rewrite <- (abs_IZR (e0 i)). specialize (CB i Hi). specialize (He0 i Hi). apply IZR_le in He0. lra. }
  assert (SG : forall v, (Rabs (IZR v) <= 3 / 4 * IZR (2 ^ LD) + 17 / 2)%R -> - 2 ^ (LOGq - 1) <= v < 2 ^ (LOGq - 1)).
  { intros v Hv. assert (A : Z.abs v < 2 ^ (LOGq - 1)); [|lia]. apply lt_IZR. rewrite abs_IZR. lra. }
  destruct (C43_mod_raise LOGq LOGQ N ct (sq_new LOGQ N) (coef s) (fun i => c i + e0 i) ltac:(lia) ltac:(lia) ltac:(lia) (new_object2 LOGQ N ltac:(lia) ltac:(lia)) Hd) as (ct_m & I & F3 & Hd3 & HI).
  { intros i Hi. split; [|exists 0; lia]. apply SG. rewrite <- QM. apply MM. exact Hi. }
  exists s, st', pos', pt, ct, c, (fun i => c i + e0 i), ct_m, I. split; [reflexivity|]. split; [eapply encode_static; eauto|]. split; [exact Hs|]. split; [exact Hw|].
  split. { split; [exact Hc|]. intros i Hi. apply SG. specialize (CB i Hi). lra. }
  split; [exact Hd|]. split.
  { intros p Hp i Hi. replace (p i) with (m i); [apply (Hc2 i Hi)|]. symmetry. apply Rminus_diag_uniq. assert (Z0 : (Rabs (p i - m i) <= 0)%R). { apply (coef_slots LOGN (fun i => p i - m i)%R 0%R); auto; try lia. intros k Hk. rewrite slot_sub, (Hp k Hk), (Hm k Hk). replace (test_msg k - test_msg k)%num with (0%num : CC) by ring. rewrite modulus_0. lra. } pose proof (Rabs_pos (p i - m i)). destruct (Req_dec (p i - m i) 0) as [->|Hne]; [reflexivity|]. apply Rabs_pos_lt in Hne. lra. }
  split. { intros i Hi. split; [specialize (He0 i Hi); lia|]. split; [apply CB; exact Hi|apply MM; exact Hi]. }
  split; [exact F3|]. split; [exact Hd3|]. intros i Hi. specialize (HI i Hi). rewrite Hw in HI. exact HI.
Qed.

Definition sup_measure (sup : Z -> Z -> Z -> poly -> res R) : Prop := forall Q N LD d, 66 <= Q -> 0 <= N -> (forall i, 0 <= i < N -> Z.abs (d i) < 2 ^ 64) ->
  exists S, sup Q N LD (repP Q N d) = Ok S /\ largest N (fun i => IZR (Z.abs (d i)) / IZR (2 ^ LD))%R S.

(** dec, decode_log and the measurements *)
Lemma boot_finish_ok sup st2 s pt ct c w err : sup_measure sup -> fft_static LOGN st2 -> ternary N s -> signedP LOGq N pt c -> decrypts Q3 N ct (coef s) w ->
  66 <= Q3 -> (err + 8 < IZR (2 ^ 64))%R -> (3 / 4 * IZR (2 ^ LD) + / 2 + (err + 8) < IZR (2 ^ (Q3 - 1)))%R ->
  (forall m, (forall j, 0 <= j < n -> slot N m j = test_msg j) -> forall i, 0 <= i < N -> nearest (m i * IZR (2 ^ LD)) (c i)) ->
  (forall i, 0 <= i < N -> (Rabs (IZR (c i)) <= 3 / 4 * IZR (2 ^ LD) + / 2)%R) -> (forall i, 0 <= i < N -> (Rabs (IZR (w i) - IZR (c i)) <= err + 8)%R) ->
  exists st2' y er ei S, boot_finish LOGq LOGQ LOGN LD LDc LOGq LDs g sup st2 (carray (K := Rops) n test_msg) (map Some s) pt ct = Ok (st2', (carray (K := Rops) n y, (er, ei), S)) /\ fft_static LOGN st2' /\
    (forall j, 0 <= j < n -> y j = slots N (IZR (2 ^ LD)) w j) /\ (forall j, 0 <= j < n -> (modulus (y j - test_msg j)%num <= IZR N * ((err + 17 / 2) / IZR (2 ^ LD)))%R) /\
    largest n (fun j => Rabs (fst (test_msg j) - fst (y j))) er /\ largest n (fun j => Rabs (snd (test_msg j) - snd (y j))) ei /\
    largest N (fun i => IZR (Z.abs (c i - w i)) / IZR (2 ^ LD))%R S /\ (S <= (err + 8) / IZR (2 ^ LD))%R.
Proof.
  intros Hsup Hst2 Hs Hpt Hct H66 H64 Hsz Hn1 Hcb Hw. pose proof HP as [HLN HG HD Hq Hc' Hs' HQ Hw' Hw1']. pose proof (n_pos LOGN ltac:(lia)) as Hn. pose proof (N2 LOGN ltac:(lia)) as HN2. pose proof LDp as PD.
  assert (Eq : Z.quot N 2 = n) by (apply half_quot; lia). unfold boot_finish. cbv zeta. rewrite Eq.
  assert (EQ : LOGQ_after_stc LOGQ LOGN LDc LOGq LDs g = Q3) by (unfold LOGQ_after_stc, LOGQ_after_evalmod, LOGQ_after_cts; rewrite (pipe_Ddiv _ _ _ _ _ _ _ HP s); reflexivity). rewrite EQ.
  set (Q := Q3) in *. rewrite !(C68_new (K := Rops)) by lia. cbn [bind].
  assert (WB : forall i, 0 <= i < N -> - 2 ^ (Q - 1) <= w i < 2 ^ (Q - 1)).
  { intros i Hi. assert (A : Z.abs (w i) < 2 ^ (Q - 1)); [|lia]. apply lt_IZR. rewrite abs_IZR. specialize (Hcb i Hi). specialize (Hw i Hi). pose proof (Rabs_triang_inv (IZR (w i)) (IZR (c i))). lra. }
  destruct (C35_dec Q N ct s w (rq_new Q N) ltac:(lia) ltac:(lia) Hs ltac:(apply objP_object; try lia; apply objP_new) Hct) as (po & E1 & H1). rewrite E1. cbn [bind].
  destruct (carray_of_carray n (fun _ => 0%num)) as [Ca Cb]. assert (Q30 : Q <= 2 ^ 30). { unfold Q. unfold widths in Hw'. change (2 ^ 30) with 1073741824. nia. }
  destruct (C56_decode_log Q LOGN ltac:(lia) ltac:(lia) LD st2 po w _ _ Q30 ltac:(change (2 ^ 30) with 1073741824; lia) Hst2 Ca Cb (conj H1 WB)) as [st2' E2].
  pose proof (decode_log_static _ _ _ _ _ _ _ _ _ Hst2 E2) as Hst2'.
  set (y := slots N (powerRZ 2 LD) w) in *. assert (EY : forall j, y j = slots N (IZR (2 ^ LD)) w j) by (intros j; unfold y; rewrite powerRZ_2 by lia; reflexivity).
  match goal with |- context [decode_log Q LOGN st2 ?a ?b ?cc ?d] => replace (decode_log Q LOGN st2 a b cc d) with (Ok (st2', carray (K := Rops) n y)) by (symmetry; exact E2) end. cbn [bind].
  destruct (C94_max_error n test_msg y ltac:(lia)) as (er & ei & E3 & L1 & L2). 
  match goal with |- context [max_error n ?a ?b] => replace (max_error n a b) with (Ok (er, ei)) by (symmetry; exact E3) end. cbn [bind].
  destruct Hpt as [Hpt Hcs]. apply holdsP_rep in H1, Hpt; try lia. subst po pt.
  rewrite rq_resize_rep by (auto using objP_new; lia). cbn [bind]. rewrite rq_sub_rep by lia. cbn [bind].
  assert (AB : forall i, 0 <= i < N -> (IZR (Z.abs (c i - w i)) <= err + 8)%R).
  { intros i Hi. rewrite abs_IZR, minus_IZR, Rabs_minus_sym. apply Hw. exact Hi. }
  destruct (Hsup Q N LD (fun i => c i - w i) H66 ltac:(lia)) as (S & E4 & L3).
  { intros i Hi. apply lt_IZR. specialize (AB i Hi). lra. }
  replace (repP Q N (fun i => cent LOGq (c i) - w i)) with (repP Q N (fun i => c i - w i)).
  2:{ apply repP_ext. intros i Hi. rewrite cent_small by (try lia; apply Hcs; exact Hi). reflexivity. }
  rewrite E4. cbn [bind]. exists st2', y, er, ei, S. split; [reflexivity|]. split; [exact Hst2'|]. split; [intros; apply EY|]. split.
  { intros j Hj. destruct (some_m LOGN ltac:(lia) test_msg) as [m Hm]. rewrite EY. rewrite <- (Hm j Hj). unfold slots. rewrite <- slot_sub. apply modulus_slot; [lia|]. intros i Hi.
    replace (IZR (w i) / IZR (2 ^ LD) - m i)%R with (((IZR (w i) - IZR (c i)) + (IZR (c i) - m i * IZR (2 ^ LD))) * / IZR (2 ^ LD))%R by (field; lra).
    rewrite Rabs_mult, (Rabs_right (/ IZR (2 ^ LD))) by (apply Rle_ge, Rlt_le, Rinv_0_lt_compat; lra). apply Rmult_le_compat_r; [apply Rlt_le, Rinv_0_lt_compat; lra|].
    eapply Rle_trans; [apply Rabs_triang|]. specialize (Hw i Hi). pose proof (Hn1 m Hm i Hi) as Nr. unfold nearest in Nr. lra. }
  split; [exact L1|]. split; [exact L2|]. split; [exact L3|]. 
  assert (E0 : (0 <= err + 8)%R) by (eapply Rle_trans; [|apply (AB 0 ltac:(lia))]; apply IZR_le; lia). assert (IP : (0 < / IZR (2 ^ LD))%R) by (apply Rinv_0_lt_compat; lra).
  destruct L3 as (_ & _ & [->|(i & Hi & ->)]); [apply Rmult_le_pos; lra|]. apply Rmult_le_compat_r; [lra|]. apply AB. exact Hi.
Qed.

(** The programs print z and a z_out that is close to it, if the multiples of q that mod_raise adds to the coefficients are at most B *)
Lemma program_ok boot sup err fuel stc sts st st2 pos B : sup_measure sup -> cts_static LOGQ LOGN LDc g stc -> stc_static Q2 LOGN LDs g sts -> ifft_static LOGN st -> fft_static LOGN st2 ->
  66 <= Q3 -> (err + 8 < IZR (2 ^ 64))%R -> (3 / 4 * IZR (2 ^ LD) + / 2 + (err + 8) < IZR (2 ^ (Q3 - 1)))%R ->
  (forall s ct ct_m m I st pos, ternary N s -> norm1 N (coef s) = h -> ifft_static LOGN st -> mod_raise LOGq LOGQ N ct (sq_new LOGQ N) = Ok ct_m -> decrypts LOGQ N ct_m (coef s) (fun i => m i + 2 ^ LOGq * I i) ->
    (forall i, 0 <= i < N -> Z.abs (I i) <= B) -> (forall i, 0 <= i < N -> (Rabs (IZR (m i)) <= q * msg_max)%R) ->
    exists stc' sts' st' pos' ct' w, boot stc sts st pos ct (map Some s) = Ok (stc', sts', st', pos', ct') /\
      cts_static LOGQ LOGN LDc g stc' /\ stc_static Q2 LOGN LDs g sts' /\ ifft_static LOGN st' /\ decrypts Q3 N ct' (coef s) w /\
      forall i, 0 <= i < N -> (Rabs (IZR (w i) - IZR (m i)) <= err)%R) ->
  keygen fuel N rnd h (fresh N) pos = Diverge /\ boot_program LOGq LOGQ LOGN LD LDc LOGq LDs g h RM rnd boot sup fuel stc sts st st2 pos = Diverge \/
  exists s st1 pos1 pt ct c m' ct_m I, boot_start LOGq LOGN LD h RM rnd fuel st pos = Ok (st1, pos1, (carray (K := Rops) n test_msg, map Some s, pt, ct)) /\
    (forall m, (forall j, 0 <= j < n -> slot N m j = test_msg j) -> forall i, 0 <= i < N -> nearest (m i * IZR (2 ^ LD)) (c i)) /\ (forall i, 0 <= i < N -> Z.abs (m' i - c i) <= 8) /\
    mod_raise LOGq LOGQ N ct (sq_new LOGQ N) = Ok ct_m /\ decrypts LOGQ N ct_m (coef s) (fun i => m' i + 2 ^ LOGq * I i) /\ (forall i, 0 <= i < N -> 2 * Z.abs (I i) <= h + 2) /\
    ((forall i, 0 <= i < N -> Z.abs (I i) <= B) ->
     exists stc' sts' st' st2' pos' w y er ei S, boot_program LOGq LOGQ LOGN LD LDc LOGq LDs g h RM rnd boot sup fuel stc sts st st2 pos =
         Ok (stc', sts', st', st2', pos', (carray (K := Rops) n test_msg, carray (K := Rops) n y, (er, ei), S)) /\
       (forall j, 0 <= j < n -> y j = slots N (IZR (2 ^ LD)) w j) /\ (forall j, 0 <= j < n -> (modulus (y j - test_msg j)%num <= IZR N * ((err + 17 / 2) / IZR (2 ^ LD)))%R) /\
       largest n (fun j => Rabs (fst (test_msg j) - fst (y j))) er /\ largest n (fun j => Rabs (snd (test_msg j) - snd (y j))) ei /\
       largest N (fun i => IZR (Z.abs (c i - w i)) / IZR (2 ^ LD))%R S /\ (S <= (err + 8) / IZR (2 ^ LD))%R).
Proof.
  intros Hsup Hstc Hsts Hst Hst2 H66 H64 Hsz Hb.
  destruct (boot_start_ok fuel st pos Hst) as [[E0 E1]|(s & st1 & pos1 & pt & ct & c & m' & ct_m & I & E1 & Hst1 & Hs & Hw & Hpt & Hct & Hnear & Hcm & Emr & Hd & HI)].
  { left. split; [exact E0|]. unfold boot_program. rewrite E1. reflexivity. }
  right. exists s, st1, pos1, pt, ct, c, m', ct_m, I. split; [exact E1|]. split; [exact Hnear|]. split; [intros i Hi; apply (Hcm i Hi)|]. split; [exact Emr|]. split; [exact Hd|]. split; [exact HI|]. intros HB.
  destruct (Hb s ct ct_m m' I st1 pos1 Hs Hw Hst1 Emr Hd HB) as (stc' & sts' & st' & pos' & ct' & w & E2 & _ & _ & _ & Hd' & Hw'). { intros i Hi. apply (Hcm i Hi). }
  destruct (boot_finish_ok sup st2 s pt ct' c w err Hsup Hst2 Hs Hpt Hd' H66 H64 Hsz Hnear) as (st2' & y & er & ei & S & E3 & _ & Hres).
  { intros i Hi. apply (Hcm i Hi). }
  { intros i Hi. destruct (Hcm i Hi) as [A _]. specialize (Hw' i Hi). apply IZR_le in A. rewrite abs_IZR, minus_IZR in A. replace (IZR (w i) - IZR (c i))%R with ((IZR (w i) - IZR (m' i)) + (IZR (m' i) - IZR (c i)))%R by ring. eapply Rle_trans; [apply Rabs_triang|]. lra. }
  exists stc', sts', st', st2', pos', w, y, er, ei, S. split; [|exact Hres]. unfold boot_program. rewrite E1. cbn [bind]. rewrite E2. cbn [bind]. rewrite E3. reflexivity.
Qed.

Lemma sup_either sup : sup = err_sup_word \/ sup = err_sup_double -> sup_measure sup.
Proof. intros [->| ->] Q M L d; [apply sup_word_ok|apply sup_double_ok]. Qed.

(** bootstrap_test and conventional_bootstrap_test *)
Theorem C105_conventional : forall sup fuel stc sts st st2 pos B, sup = err_sup_word \/ sup = err_sup_double ->
  cts_static LOGQ LOGN LDc g stc -> stc_static Q2 LOGN LDs g sts -> ifft_static LOGN st -> fft_static LOGN st2 ->
  let err := (q * conventional_error N h LOGq LDc LDs G D B msg_max + IZR (1 + h) / 2)%R in
  let program := boot_program LOGq LOGQ LOGN LD LDc LOGq LDs g h RM rnd (conventional_boot LOGq LOGQ LOGN LDc LOGq LDs g 24 RM rnd) sup fuel stc sts st st2 pos in
  66 <= Q3 -> (err + 8 < IZR (2 ^ 64))%R -> (3 / 4 * IZR (2 ^ LD) + / 2 + (err + 8) < IZR (2 ^ (Q3 - 1)))%R -> (IZR B + msg_max + boot_rounding N h LOGq LDc G D B msg_max + / 4 <= 24)%R ->
  keygen fuel N rnd h (fresh N) pos = Diverge /\ program = Diverge \/
  exists s st1 pos1 pt ct c m' ct_m I, boot_start LOGq LOGN LD h RM rnd fuel st pos = Ok (st1, pos1, (carray (K := Rops) n test_msg, map Some s, pt, ct)) /\
    (forall m, (forall j, 0 <= j < n -> slot N m j = test_msg j) -> forall i, 0 <= i < N -> nearest (m i * IZR (2 ^ LD)) (c i)) /\ (forall i, 0 <= i < N -> Z.abs (m' i - c i) <= 8) /\
    mod_raise LOGq LOGQ N ct (sq_new LOGQ N) = Ok ct_m /\ decrypts LOGQ N ct_m (coef s) (fun i => m' i + 2 ^ LOGq * I i) /\ (forall i, 0 <= i < N -> 2 * Z.abs (I i) <= h + 2) /\
    ((forall i, 0 <= i < N -> Z.abs (I i) <= B) ->
     exists stc' sts' st' st2' pos' w y er ei S, program = Ok (stc', sts', st', st2', pos', (carray (K := Rops) n test_msg, carray (K := Rops) n y, (er, ei), S)) /\
       (forall j, 0 <= j < n -> y j = slots N (IZR (2 ^ LD)) w j) /\ (forall j, 0 <= j < n -> (modulus (y j - test_msg j)%num <= IZR N * ((err + 17 / 2) / IZR (2 ^ LD)))%R) /\
       largest n (fun j => Rabs (fst (test_msg j) - fst (y j))) er /\ largest n (fun j => Rabs (snd (test_msg j) - snd (y j))) ei /\
       largest N (fun i => IZR (Z.abs (c i - w i)) / IZR (2 ^ LD))%R S /\ (S <= (err + 8) / IZR (2 ^ LD))%R).
Proof.
  intros sup fuel stc sts st st2 pos B Hsup Hstc Hsts Hst Hst2 err program H66 H64 Hsz H24. apply program_ok; auto using sup_either.
  intros s ct ct_m m I st' pos' Hs Hw Hst' Emr Hd HI Hm.
  destruct (C74_conventional LOGN LOGq LOGQ LDc LDs G D HP RM rnd s Hr Hs B msg_max ct ct_m m I stc sts st' pos' Hstc Hsts Hst' Emr Hd HI Hm) as (a1 & a2 & a3 & a4 & a5 & w & X); [rewrite Hw; exact H24|].
  rewrite Hw in X. exists a1, a2, a3, a4, a5, w. exact X.
Qed.

(** evalqI_test and proposed_bootstrap_test *)
Theorem C105_proposed : forall sup fuel stc sts st st2 pos B, sup = err_sup_word \/ sup = err_sup_double ->
  cts_static LOGQ LOGN LDc g stc -> stc_static Q2 LOGN LDs g sts -> ifft_static LOGN st -> fft_static LOGN st2 ->
  let err := (q * proposed_error N h LOGq LDc LDs G D B msg_max + IZR (1 + h) / 2)%R in
  let program := boot_program LOGq LOGQ LOGN LD LDc LOGq LDs g h RM rnd (proposed_boot LOGq LOGQ LOGN LDc LOGq LDs g 24 RM rnd) sup fuel stc sts st st2 pos in
  66 <= Q3 -> (err + 8 < IZR (2 ^ 64))%R -> (3 / 4 * IZR (2 ^ LD) + / 2 + (err + 8) < IZR (2 ^ (Q3 - 1)))%R -> (IZR B + msg_max + boot_rounding N h LOGq LDc G D B msg_max + / 4 <= 24)%R ->
  keygen fuel N rnd h (fresh N) pos = Diverge /\ program = Diverge \/
  exists s st1 pos1 pt ct c m' ct_m I, boot_start LOGq LOGN LD h RM rnd fuel st pos = Ok (st1, pos1, (carray (K := Rops) n test_msg, map Some s, pt, ct)) /\
    (forall m, (forall j, 0 <= j < n -> slot N m j = test_msg j) -> forall i, 0 <= i < N -> nearest (m i * IZR (2 ^ LD)) (c i)) /\ (forall i, 0 <= i < N -> Z.abs (m' i - c i) <= 8) /\
    mod_raise LOGq LOGQ N ct (sq_new LOGQ N) = Ok ct_m /\ decrypts LOGQ N ct_m (coef s) (fun i => m' i + 2 ^ LOGq * I i) /\ (forall i, 0 <= i < N -> 2 * Z.abs (I i) <= h + 2) /\
    ((forall i, 0 <= i < N -> Z.abs (I i) <= B) ->
     exists stc' sts' st' st2' pos' w y er ei S, program = Ok (stc', sts', st', st2', pos', (carray (K := Rops) n test_msg, carray (K := Rops) n y, (er, ei), S)) /\
       (forall j, 0 <= j < n -> y j = slots N (IZR (2 ^ LD)) w j) /\ (forall j, 0 <= j < n -> (modulus (y j - test_msg j)%num <= IZR N * ((err + 17 / 2) / IZR (2 ^ LD)))%R) /\
       largest n (fun j => Rabs (fst (test_msg j) - fst (y j))) er /\ largest n (fun j => Rabs (snd (test_msg j) - snd (y j))) ei /\
       largest N (fun i => IZR (Z.abs (c i - w i)) / IZR (2 ^ LD))%R S /\ (S <= (err + 8) / IZR (2 ^ LD))%R).
Proof.
  intros sup fuel stc sts st st2 pos B Hsup Hstc Hsts Hst Hst2 err program H66 H64 Hsz H24. apply program_ok; auto using sup_either.
  intros s ct ct_m m I st' pos' Hs Hw Hst' Emr Hd HI Hm.
  destruct (C75_proposed LOGN LOGq LOGQ LDc LDs G D HP RM rnd s Hr Hs B msg_max ct ct_m m I stc sts st' pos' Hstc Hsts Hst' Emr Hd HI Hm) as (a1 & a2 & a3 & a4 & a5 & w & X); [rewrite Hw; exact H24|].
  rewrite Hw in X. exists a1, a2, a3, a4, a5, w. exact X.
Qed.
End Boot.

(** ** Numbers: dimension 512, q = 2^60, groups of two matrices; keys with up to 128 nonzero coefficients, messages up to q/1024 *)
Section Numbers.
Context (LDc LDs h : Z) (dmax : R) (HLDc : 40 <= LDc <= 60) (HLDs : 50 <= LDs <= 60) (Hh : 0 <= h <= 128) (Hdm : (0 <= dmax <= / 1024)%R).
Local Notation E := (boot_noise 512 h).
Local Lemma tb_Q60 : (0 < IZR (2 ^ 60))%R. Proof. apply IZR_lt. reflexivity. Qed.
Local Lemma tb_pow L P d : 40 <= L -> 0 <= P -> P <= 40 * Z.of_nat d -> (IZR (2 ^ P) <= IZR (2 ^ L) ^ d)%R.
Proof. intros HL H0 HP. rewrite pow_IZR, <- Z.pow_mul_r by lia. apply IZR_le, Z.pow_le_mono_r; nia. Qed.
Lemma tb_k L d : 40 <= L -> (0 <= switch_noise 512 (2 ^ L) E (IZR (2 ^ 60)) d <= 2 / IZR (10 ^ 12))%R.
Proof.
  intros HL. pose proof (switch_noise_mono 512 (2 ^ L) E 8321 (IZR (2 ^ 60)) d 1%R) as H. destruct H as [H1 H2]; try lra; try lia.
  - unfold boot_noise. lia.
  - apply (tb_pow L 0 d); lia.
Qed.
Lemma tb_rounding : (0 <= boot_rounding 512 h 60 LDc 2 4 23 dmax <= 2 / IZR (10 ^ 4))%R /\ (LDc = 60 -> (boot_rounding 512 h 60 LDc 2 4 23 dmax <= 5 / IZR (10 ^ 10))%R).
Proof.
  unfold boot_rounding, cts_rounding.
  assert (Ha : forall d : nat, (0 <= Rpower 2 (- / INR 4) <= 1)%R).
  { intros _. split; [apply Rlt_le; unfold Rpower; apply exp_pos|]. rewrite <- (Rpower_O 2) by lra. apply Rle_Rpower; [lra|]. change (INR 4) with (1 + 1 + 1 + 1)%R. lra. }
  assert (Hz : (0 <= IZR 512 * (IZR 23 + dmax) <= 11777)%R) by lra.
  assert (HB : forall P r, 40 <= P <= LDc -> (2 * error_after (fun _ => 1) (9 * (512 / (2 * IZR (2 ^ P)))) 11777 (fun _ => 2 / IZR (10 ^ 12)) 4 <= r)%R ->
    (0 <= 2 * error_after (fun _ => Rpower 2 (- / INR 4)) (row_rounding 512 (2 ^ LDc) 2) (IZR 512 * (IZR 23 + dmax)) (switch_noise 512 (2 ^ LDc) E (boot_q 60)) 4 <= r)%R).
  { intros P r HP Hr. assert (Hd : (0 <= row_rounding 512 (2 ^ LDc) 2 <= 9 * (512 / (2 * IZR (2 ^ P))))%R).
    { unfold row_rounding. change (3 ^ Z.of_nat 2) with 9. assert (H1 : (0 < IZR (2 ^ P) <= IZR (2 ^ LDc))%R) by (split; [apply IZR_lt, Z.pow_pos_nonneg; lia|apply IZR_le, Z.pow_le_mono_r; lia]).
      assert (Hi : (0 < / (2 * IZR (2 ^ LDc)) <= / (2 * IZR (2 ^ P)))%R) by (split; [apply Rinv_0_lt_compat; lra|apply Rinv_le_contravar; lra]). unfold Rdiv. lra. }
    destruct (size_error_mono _ (fun _ => 1%R) _ _ _ _ _ (fun _ => 2 / IZR (10 ^ 12))%R 4 Ha Hd Hz (fun d => tb_k LDc d (proj1 HLDc))) as [_ [H1 H2]]. change (boot_q 60) with (IZR (2 ^ 60)). lra. }
  split.
  - apply (HB 40); [lia|]. cbn [error_after size_after]. change (10 ^ 12) with 1000000000000. change (10 ^ 4) with 10000. change (2 ^ 40) with 1099511627776. lra.
  - intros ->. apply (HB 60); [lia|]. cbn [error_after size_after]. change (10 ^ 12) with 1000000000000. change (10 ^ 10) with 10000000000. change (2 ^ 60) with 1152921504606846976. lra.
Qed.
Lemma tb_cts_noise : (0 <= boot_cts_noise 512 h 60 LDc 4 <= 29 / IZR (10 ^ 15))%R.
Proof.
  unfold boot_cts_noise, rescale_noise, boot_q.
  pose proof (switch_noise_mono 512 (2 ^ LDc) E 8321 (IZR (2 ^ 60)) 4 (IZR (2 ^ 40))) as H. destruct H as [H1 H2]; try lia.
  - unfold boot_noise. lia.
  - apply IZR_lt. reflexivity.
  - apply tb_pow; lia.
  - exact tb_Q60.
  - assert (Hi : (0 <= IZR (1 + h) <= 129)%R) by (split; apply IZR_le; lia). revert H1 H2. generalize (switch_noise 512 (2 ^ LDc) E (IZR (2 ^ 60)) 4). intros x H1 H2.
    change (10 ^ 15) with 1000000000000000. change (2 ^ 60) with 1152921504606846976 in *. change (2 ^ 40) with 1099511627776 in *. lra.
Qed.
Lemma tb_mod_error : (0 <= boot_mod_error 512 h 60 LDc 2 4 23 dmax <= 11 / IZR (10 ^ 9))%R.
Proof.
  unfold boot_mod_error. pose proof tb_cts_noise as Hc. destruct tb_rounding as [Hr _]. set (e := boot_cts_noise 512 h 60 LDc 4) in *. set (rho := boot_rounding 512 h 60 LDc 2 4 23 dmax) in *.
  assert (Hi : (0 <= IZR (1 + h) <= 129)%R) by (split; apply IZR_le; lia).
  pose proof (evalmod_error_bound 512 h (boot_q 60) 24 e (30 / IZR (10 ^ 15))%R ltac:(lia) ltac:(lia) tb_Q60 ltac:(lia) (proj1 Hc)) as H1.
  assert (H2 : (evalmod_error 512 h (boot_q 60) 24 e <= 340000 * (30 / IZR (10 ^ 15)) + 2 / IZR (10 ^ 12))%R).
  { apply H1.
    - unfold em_arg_error, rescale_noise, mul_noise, boot_q. replace (8 * 512 + 1 + h) with (4096 + (1 + h)) by lia. rewrite (plus_IZR 4096). change (10 ^ 15) with 1000000000000000 in *. change (2 ^ 60) with 1152921504606846976. lra.
    - change (10 ^ 15) with 1000000000000000. change (10 ^ 8) with 100000000. lra. }
  assert (H0 : (0 <= evalmod_error 512 h (boot_q 60) 24 e)%R) by (apply evalmod_error_nonneg; [lia|lia|exact tb_Q60|lia|apply Hc]).
  assert (P : (0 <= 6 / 5 * PI ^ 4 <= 117)%R).
  { destruct PI_bounds as [P1 P2]. pose proof PI_RGT_0. assert (PI <= 3.1416)%R by lra. assert (PI * PI <= 9.86966)%R by nra. assert (0 <= PI * PI)%R by nra. split; [|nra].
    apply Rmult_le_pos; [lra|apply pow_le; lra]. }
  assert (X : (0 <= (dmax + rho) ^ 5 <= (/ 800) ^ 5)%R).
  { assert (Hx : (0 <= dmax + rho <= / 800)%R) by (revert Hr; change (10 ^ 4) with 10000; lra). split; [apply pow_le; lra|apply pow_incr; lra]. }
  assert (Y : (0 <= 6 / 5 * PI ^ 4 * (dmax + rho) ^ 5 <= 117 * (/ 800) ^ 5)%R) by (split; [apply Rmult_le_pos; lra|apply Rmult_le_compat; lra]).
  change (10 ^ 15) with 1000000000000000 in *. change (10 ^ 12) with 1000000000000 in *. change (10 ^ 9) with 1000000000. cbn [pow] in Y |- *. lra.
Qed.
Lemma tb_stc P z z' r : 50 <= P <= LDs -> (0 <= z <= z')%R -> (2 * error_after (fun _ => 4) (9 * (512 / (2 * IZR (2 ^ P)))) z' (fun _ => 2 / IZR (10 ^ 12)) 4 <= r)%R ->
  (stc_error 512 (2 ^ LDs) E 2 4 z (boot_q 60) <= r)%R.
Proof.
  intros HP Hz Hr. unfold stc_error. assert (Hd : (0 <= row_rounding 512 (2 ^ LDs) 2 <= 9 * (512 / (2 * IZR (2 ^ P))))%R).
  { unfold row_rounding. change (3 ^ Z.of_nat 2) with 9. assert (H1 : (0 < IZR (2 ^ P) <= IZR (2 ^ LDs))%R) by (split; [apply IZR_lt, Z.pow_pos_nonneg; lia|apply IZR_le, Z.pow_le_mono_r; lia]).
    assert (Hi : (0 < / (2 * IZR (2 ^ LDs)) <= / (2 * IZR (2 ^ P)))%R) by (split; [apply Rinv_0_lt_compat; lra|apply Rinv_le_contravar; lra]). unfold Rdiv. lra. }
  assert (Ha : forall d : nat, (0 <= 2 ^ 2 <= 4)%R) by (intros _; lra).
  destruct (size_error_mono _ (fun _ => 4%R) _ _ _ _ _ (fun _ => 2 / IZR (10 ^ 12))%R 4 Ha Hd Hz (fun d => tb_k LDs d ltac:(lia))) as [_ [H1 H2]]. change (boot_q 60) with (IZR (2 ^ 60)). lra.
Qed.
Lemma tb_proposed : (IZR (2 ^ 60) * proposed_error 512 h 60 LDc LDs 2 4 23 dmax + IZR (1 + h) / 2 <= IZR (2 ^ 37))%R /\
  (LDs = 60 -> (IZR (2 ^ 60) * proposed_error 512 h 60 LDc LDs 2 4 23 dmax + IZR (1 + h) / 2 <= IZR (2 ^ 35))%R).
Proof.
  assert (Hi : (0 <= IZR (1 + h) <= 129)%R) by (split; apply IZR_le; lia).
  unfold proposed_error. pose proof tb_cts_noise as Hc. pose proof tb_mod_error as Hm. set (e := boot_cts_noise 512 h 60 LDc 4) in *. set (em := boot_mod_error 512 h 60 LDc 2 4 23 dmax) in *.
  change (10 ^ 15) with 1000000000000000 in *. change (10 ^ 9) with 1000000000 in *.
  assert (B : forall P r, 50 <= P <= LDs -> (2 * error_after (fun _ => 4) (9 * (512 / (2 * IZR (2 ^ P)))) 24 (fun _ => 2 / IZR (10 ^ 12)) 4 <= r)%R -> (stc_error 512 (2 ^ LDs) E 2 4 (IZR 23 + (e + em)) (boot_q 60) <= r)%R).
  { intros P r HP Hr'. apply (tb_stc P _ 24%R r HP); [lra|exact Hr']. }
  split.
  - assert (H' : (stc_error 512 (2 ^ LDs) E 2 4 (IZR 23 + (e + em)) (boot_q 60) <= 45 / 1000000000)%R).
    { apply (B 50); [lia|]. cbn [error_after size_after]. change (10 ^ 12) with 1000000000000. change (2 ^ 50) with 1125899906842624. lra. }
    change (2 ^ 60) with 1152921504606846976. change (2 ^ 37) with 137438953472. lra.
  - intros HL. assert (H' : (stc_error 512 (2 ^ LDs) E 2 4 (IZR 23 + (e + em)) (boot_q 60) <= 3 / 1000000000)%R).
    { apply (B 60); [lia|]. cbn [error_after size_after]. change (10 ^ 12) with 1000000000000. change (2 ^ 60) with 1152921504606846976. lra. }
    change (2 ^ 60) with 1152921504606846976. change (2 ^ 35) with 34359738368. lra.
Qed.
Lemma tb_conventional : LDc = 60 -> (IZR (2 ^ 60) * conventional_error 512 h 60 LDc LDs 2 4 23 dmax + IZR (1 + h) / 2 <= IZR (2 ^ 35))%R.
Proof.
  intros HL. assert (Hi : (0 <= IZR (1 + h) <= 129)%R) by (split; apply IZR_le; lia).
  unfold conventional_error. destruct tb_rounding as [[Hr0 _] Hr]. specialize (Hr HL). pose proof tb_mod_error as Hm. set (rho := boot_rounding 512 h 60 LDc 2 4 23 dmax) in *. set (em := boot_mod_error 512 h 60 LDc 2 4 23 dmax) in *.
  change (10 ^ 10) with 10000000000 in *. change (10 ^ 9) with 1000000000 in *.
  assert (H' : (stc_error 512 (2 ^ LDs) E 2 4 (dmax + rho + em) (boot_q 60) <= 3 / 1000000000)%R).
  { apply (tb_stc 50 _ (/ 1000)); [lia|lra|]. cbn [error_after size_after]. change (10 ^ 12) with 1000000000000. change (2 ^ 50) with 1125899906842624. lra. }
  change (2 ^ 60) with 1152921504606846976. change (2 ^ 35) with 34359738368. lra.
Qed.
Lemma tb_24 : (IZR 23 + dmax + boot_rounding 512 h 60 LDc 2 4 23 dmax + / 4 <= 24)%R.
Proof. destruct tb_rounding as [Hr _]. revert Hr. change (10 ^ 4) with 10000. lra. Qed.
End Numbers.

Lemma msg_max_60 : (0 <= msg_max 60 50 <= / 1024)%R.
Proof. unfold msg_max, boot_q. change (2 ^ 50) with 1125899906842624. change (2 ^ 60) with 1152921504606846976. lra. Qed.
Lemma tb_params LDc LDs : 40 <= LDc <= 60 -> 50 <= LDs <= 60 -> boot_params 9 60 1450 LDc LDs 2 4.
Proof. intros H1 H2. constructor; try lia; unfold widths; intros; lia. Qed.

(** bootstrap_test.cpp with the parameters of test.h.  For keys with at most 44 nonzero coefficients the second part of the alternative always applies with |I| <= 23. *)
Theorem C105_bootstrap_test : forall RM rnd h fuel stc sts st st2 pos, rand_stream RM rnd -> 0 <= h <= 128 ->
  cts_static 1450 9 60 2 stc -> stc_static 490 9 50 2 sts -> ifft_static 9 st -> fft_static 9 st2 ->
  let program := boot_program 60 1450 9 50 60 60 50 2 h RM rnd (conventional_boot 60 1450 9 60 60 50 2 24 RM rnd) err_sup_word fuel stc sts st st2 pos in
  keygen fuel 512 rnd h (fresh 512) pos = Diverge /\ program = Diverge \/
  exists s st1 pos1 pt ct m ct_m I, boot_start 60 9 50 h RM rnd fuel st pos = Ok (st1, pos1, (carray (K := Rops) 256 (test_msg 9), map Some s, pt, ct)) /\
    mod_raise 60 1450 512 ct (sq_new 1450 512) = Ok ct_m /\ decrypts 1450 512 ct_m (coef s) (fun i => m i + 2 ^ 60 * I i) /\ (forall i, 0 <= i < 512 -> 2 * Z.abs (I i) <= h + 2) /\
    ((forall i, 0 <= i < 512 -> Z.abs (I i) <= 23) ->
     exists stc' sts' st' st2' pos' y er ei S, program = Ok (stc', sts', st', st2', pos', (carray (K := Rops) 256 (test_msg 9), carray (K := Rops) 256 y, (er, ei), S)) /\
       (forall j, 0 <= j < 256 -> (modulus (y j - test_msg 9 j)%num <= / 60)%R) /\
       largest 256 (fun j => Rabs (fst (test_msg 9 j) - fst (y j))) er /\ largest 256 (fun j => Rabs (snd (test_msg 9 j) - snd (y j))) ei /\ (0 <= S <= / 32000)%R).
Proof.
  intros RM rnd h fuel stc sts st st2 pos Hr Hh Hstc Hsts Hst Hst2 program.
  pose proof (tb_conventional 60 50 h (msg_max 60 50) ltac:(lia) ltac:(lia) Hh msg_max_60 eq_refl) as HE. pose proof (tb_24 60 h (msg_max 60 50) ltac:(lia) Hh msg_max_60) as H24.
  assert (D50 : IZR (2 ^ 50) = 1125899906842624%R) by reflexivity. assert (D35 : IZR (2 ^ 35) = 34359738368%R) by reflexivity.
  set (err := (IZR (2 ^ 60) * conventional_error 512 h 60 60 50 2 4 23 (msg_max 60 50) + IZR (1 + h) / 2)%R) in HE. rewrite D35 in HE.
  assert (D64 : IZR (2 ^ 64) = 18446744073709551616%R) by reflexivity. assert (DQ : (IZR (2 ^ 64) <= IZR (2 ^ 289))%R) by (apply IZR_le; discriminate).
  destruct (C105_conventional 9 60 1450 50 60 50 2 4 (tb_params 60 50 ltac:(lia) ltac:(lia)) h RM rnd (proj1 Hh) Hr ltac:(lia) ltac:(lia) ltac:(lia) err_sup_word fuel stc sts st st2 pos 23 (or_introl eq_refl) Hstc Hsts Hst Hst2)
    as [E|(s & st1 & pos1 & pt & ct & c & m' & ct_m & I & E1 & _ & _ & E2 & Hd & HI & HB)].
  - cbn. lia.
  - change (err + 8 < IZR (2 ^ 64))%R. rewrite D64. lra.
  - change (3 / 4 * IZR (2 ^ 50) + / 2 + (err + 8) < IZR (2 ^ 289))%R. rewrite D50. lra.
  - exact H24.
  - left. exact E.
  - right. exists s, st1, pos1, pt, ct, m', ct_m, I. split; [exact E1|]. split; [exact E2|]. split; [exact Hd|]. split; [exact HI|]. intros HI23.
    destruct (HB HI23) as (stc' & sts' & st' & st2' & pos' & w & y & er & ei & S & E3 & _ & Hy & L1 & L2 & L3 & HS). exists stc', sts', st', st2', pos', y, er, ei, S. split; [exact E3|].
    change (boot_q 60) with (IZR (2 ^ 60)) in Hy, HS. change (2 ^ 9) with 512 in Hy, HS. fold err in Hy, HS. rewrite D50 in Hy, HS.
    split; [|split; [exact L1|split; [exact L2|]]].
    + intros j Hj. eapply Rle_trans; [apply (Hy j Hj)|]. lra.
    + split; [apply L3|]. eapply Rle_trans; [exact HS|]. lra.
Qed.
(** evalqI_test.cpp with the parameters of test.h *)
Theorem C105_evalqI_test : forall RM rnd h fuel stc sts st st2 pos, rand_stream RM rnd -> 0 <= h <= 128 ->
  cts_static 1450 9 60 2 stc -> stc_static 490 9 60 2 sts -> ifft_static 9 st -> fft_static 9 st2 ->
  let program := boot_program 60 1450 9 50 60 60 60 2 h RM rnd (proposed_boot 60 1450 9 60 60 60 2 24 RM rnd) err_sup_word fuel stc sts st st2 pos in
  keygen fuel 512 rnd h (fresh 512) pos = Diverge /\ program = Diverge \/
  exists s st1 pos1 pt ct m ct_m I, boot_start 60 9 50 h RM rnd fuel st pos = Ok (st1, pos1, (carray (K := Rops) 256 (test_msg 9), map Some s, pt, ct)) /\
    mod_raise 60 1450 512 ct (sq_new 1450 512) = Ok ct_m /\ decrypts 1450 512 ct_m (coef s) (fun i => m i + 2 ^ 60 * I i) /\ (forall i, 0 <= i < 512 -> 2 * Z.abs (I i) <= h + 2) /\
    ((forall i, 0 <= i < 512 -> Z.abs (I i) <= 23) ->
     exists stc' sts' st' st2' pos' y er ei S, program = Ok (stc', sts', st', st2', pos', (carray (K := Rops) 256 (test_msg 9), carray (K := Rops) 256 y, (er, ei), S)) /\
       (forall j, 0 <= j < 256 -> (modulus (y j - test_msg 9 j)%num <= / 60)%R) /\
       largest 256 (fun j => Rabs (fst (test_msg 9 j) - fst (y j))) er /\ largest 256 (fun j => Rabs (snd (test_msg 9 j) - snd (y j))) ei /\ (0 <= S <= / 32000)%R).
Proof.
  intros RM rnd h fuel stc sts st st2 pos Hr Hh Hstc Hsts Hst Hst2 program.
  pose proof (proj2 (tb_proposed 60 60 h (msg_max 60 50) ltac:(lia) ltac:(lia) Hh msg_max_60) eq_refl) as HE. pose proof (tb_24 60 h (msg_max 60 50) ltac:(lia) Hh msg_max_60) as H24.
  assert (D50 : IZR (2 ^ 50) = 1125899906842624%R) by reflexivity. assert (D35 : IZR (2 ^ 35) = 34359738368%R) by reflexivity.
  set (err := (IZR (2 ^ 60) * proposed_error 512 h 60 60 60 2 4 23 (msg_max 60 50) + IZR (1 + h) / 2)%R) in HE. rewrite D35 in HE.
  assert (D64 : IZR (2 ^ 64) = 18446744073709551616%R) by reflexivity. assert (DQ : (IZR (2 ^ 64) <= IZR (2 ^ 249))%R) by (apply IZR_le; discriminate).
  destruct (C105_proposed 9 60 1450 50 60 60 2 4 (tb_params 60 60 ltac:(lia) ltac:(lia)) h RM rnd (proj1 Hh) Hr ltac:(lia) ltac:(lia) ltac:(lia) err_sup_word fuel stc sts st st2 pos 23 (or_introl eq_refl) Hstc Hsts Hst Hst2)
    as [E|(s & st1 & pos1 & pt & ct & c & m' & ct_m & I & E1 & _ & _ & E2 & Hd & HI & HB)].
  - cbn. lia.
  - change (err + 8 < IZR (2 ^ 64))%R. rewrite D64. lra.
  - change (3 / 4 * IZR (2 ^ 50) + / 2 + (err + 8) < IZR (2 ^ 249))%R. rewrite D50. lra.
  - exact H24.
  - left. exact E.
  - right. exists s, st1, pos1, pt, ct, m', ct_m, I. split; [exact E1|]. split; [exact E2|]. split; [exact Hd|]. split; [exact HI|]. intros HI23.
    destruct (HB HI23) as (stc' & sts' & st' & st2' & pos' & w & y & er & ei & S & E3 & _ & Hy & L1 & L2 & L3 & HS). exists stc', sts', st', st2', pos', y, er, ei, S. split; [exact E3|].
    change (boot_q 60) with (IZR (2 ^ 60)) in Hy, HS. change (2 ^ 9) with 512 in Hy, HS. fold err in Hy, HS. rewrite D50 in Hy, HS.
    split; [|split; [exact L1|split; [exact L2|]]].
    + intros j Hj. eapply Rle_trans; [apply (Hy j Hj)|]. lra.
    + split; [apply L3|]. eapply Rle_trans; [exact HS|]. lra.
Qed.
(** Keys with at most 44 nonzero coefficients: nothing more has to be assumed *)
Theorem C105_light_key : forall RM rnd h fuel stc sts sts60 st st2 pos, rand_stream RM rnd -> 0 <= h <= 44 ->
  cts_static 1450 9 60 2 stc -> stc_static 490 9 50 2 sts -> stc_static 490 9 60 2 sts60 -> ifft_static 9 st -> fft_static 9 st2 ->
  keygen fuel 512 rnd h (fresh 512) pos = Diverge \/
  (exists stc' sts' st' st2' pos' y er ei S, boot_program 60 1450 9 50 60 60 50 2 h RM rnd (conventional_boot 60 1450 9 60 60 50 2 24 RM rnd) err_sup_word fuel stc sts st st2 pos =
       Ok (stc', sts', st', st2', pos', (carray (K := Rops) 256 (test_msg 9), carray (K := Rops) 256 y, (er, ei), S)) /\
     (forall j, 0 <= j < 256 -> (modulus (y j - test_msg 9 j)%num <= / 60)%R) /\ (0 <= S <= / 32000)%R) /\
  (exists stc' sts' st' st2' pos' y er ei S, boot_program 60 1450 9 50 60 60 60 2 h RM rnd (proposed_boot 60 1450 9 60 60 60 2 24 RM rnd) err_sup_word fuel stc sts60 st st2 pos =
       Ok (stc', sts', st', st2', pos', (carray (K := Rops) 256 (test_msg 9), carray (K := Rops) 256 y, (er, ei), S)) /\
     (forall j, 0 <= j < 256 -> (modulus (y j - test_msg 9 j)%num <= / 60)%R) /\ (0 <= S <= / 32000)%R).
Proof.
  intros RM rnd h fuel stc sts sts60 st st2 pos Hr Hh Hstc Hsts Hsts6 Hst Hst2.
  destruct (C105_bootstrap_test RM rnd h fuel stc sts st st2 pos Hr ltac:(lia) Hstc Hsts Hst Hst2) as [[E _]|(s & a1 & a2 & a3 & a4 & m & a5 & I & _ & _ & _ & HI & HB)]; [left; exact E|].
  destruct (C105_evalqI_test RM rnd h fuel stc sts60 st st2 pos Hr ltac:(lia) Hstc Hsts6 Hst Hst2) as [[E _]|(s6 & b1 & b2 & b3 & b4 & m6 & b5 & I6 & _ & _ & _ & HI6 & HB6)]; [left; exact E|].
  right. split.
  - destruct HB as (stc' & sts' & st' & st2' & pos' & y & er & ei & S & E & Hy & _ & _ & HS). { intros i Hi. specialize (HI i Hi). lia. } exists stc', sts', st', st2', pos', y, er, ei, S. auto.
  - destruct HB6 as (stc' & sts' & st' & st2' & pos' & y & er & ei & S & E & Hy & _ & _ & HS). { intros i Hi. specialize (HI6 i Hi). lia. } exists stc', sts', st', st2', pos', y, er, ei, S. auto.
Qed.
Example C105_case : exists fuel stc' sts' st' st2' pos' y er ei S,
  boot_program 60 1450 9 50 60 60 50 2 44 (2 ^ 31 - 1) counting (conventional_boot 60 1450 9 60 60 50 2 24 (2 ^ 31 - 1) counting) err_sup_word fuel None None None None 0 =
    Ok (stc', sts', st', st2', pos', (carray (K := Rops) 256 (test_msg 9), carray (K := Rops) 256 y, (er, ei), S)) /\
  (forall j, 0 <= j < 256 -> (modulus (y j - test_msg 9 j)%num <= / 60)%R).
Proof.
  destruct (C34_keygen_returns (2 ^ 9) counting (2 ^ 31 - 1) 44 (fresh (2 ^ 9)) 0 ltac:(lia) ltac:(lia) counting_stream (repeat_length _ _)) as (F & r & HF).
  { intros j p Hj. exists (Z.to_nat (512 * Z.of_nat p + j)). split; [lia|]. unfold counting. rewrite Z2Nat.id by lia. change (2 ^ 9) with 512 in *. change (2 ^ 31) with (512 * 4194304).
    rewrite Z.rem_mul_r by lia. rewrite (Z.mul_comm 512 (_ mod 4194304)), Z.mod_add by lia. rewrite Z.mod_mod by lia. rewrite Z.add_comm, Z.mul_comm, Z.mod_add, Z.mod_small by lia. reflexivity. }
  exists F. destruct (C105_light_key (2 ^ 31 - 1) counting 44 F None None None None None 0 counting_stream ltac:(lia) (cts_first _ _ _ _) (stc_first _ _ _ _) (stc_first _ _ _ _) (ifft_first 9) (fft_first 9)) as [E|[(stc' & sts' & st' & st2' & pos' & y & er & ei & S & E & Hy & _) _]].
  - change (2 ^ 9) with 512 in HF. rewrite (HF F (le_n F)) in E. discriminate.
  - exists stc', sts', st', st2', pos', y, er, ei, S. auto.
Qed.
