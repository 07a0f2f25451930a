(** C64: CoeffToSlot and SlotToCoeff. *)
From Coq Require Import ZArith List Bool Lia Reals Lra Ring.
From Verif Require Import Base BaseFacts Sums ZQ ZQFacts RQ RQFacts Conv Rot Core CoreFacts Util UtilFacts GSum Matrix MatrixFacts MatMulFacts DFT DFTTheory DFTFacts FFTFacts
  SpecZQ SpecPoly SpecPolyFacts SpecScheme SpecMat Properties_Mat SpecDFT Properties_DFT SpecEnc SlotFacts
  Encode EncodeFacts Properties_Conv Properties_Core Properties_Rot Properties_Enc Properties_Plain SpecLin LinTrans LinTransFacts LinSlots Properties_Lin GroupFacts GroupSlots Bootstrap BootFacts SpecBoot BootSlots.
Import ListNotations.
Open Scope Z_scope.
Add Ring RCpb : HR.

Lemma pow2_small k x : k < x -> 0 <= k -> (IZR (2 ^ k) < IZR (2 ^ x) - / 2)%R.
Proof.
  intros H Hk. assert (2 ^ k + 1 <= 2 ^ x).
  { assert (2 ^ k < 2 ^ x) by (apply Z.pow_lt_mono_r; lia). lia. }
  apply IZR_le in H0. rewrite plus_IZR in H0. lra.
Qed.

Lemma modulus_sub (x y : CC) : (modulus (x - y)%num <= modulus x + modulus y)%R.
Proof. pose proof (modulus_add x (- y)%num) as H. rewrite modulus_opp in H. replace (x - y)%num with (x + - y : RC)%num by ring. exact H. Qed.

Lemma rprod_shift k f : (rprod (S k) f = rprod k (fun i => f (S i)) * f 0%nat)%R.
Proof. induction k; [cbn; ring|]. cbn [rprod] in *. rewrite IHk. ring. Qed.
Lemma group_entries_same G a d : (1 <= G)%nat -> group_rows G a d = group_entries G a a d.
Proof.
  intros HG. unfold group_rows, group_entries. destruct G as [|k]; [lia|]. rewrite rprod_shift. replace (S k - 1)%nat with k by lia. f_equal. rewrite Nat.add_0_r. reflexivity.
Qed.

Section Boot.
Context (LOGQ LOGN LOGDELTA RM : Z) (rnd : nat -> Z) (s : list Z).
Context (HQ : widths LOGQ) (HQ2 : widths (2 * LOGQ)) (HL : 2 <= LOGN <= 17) (HD : 0 <= LOGDELTA < 64) (Hr : rand_stream RM rnd).
Let N := 2 ^ LOGN.
Let n := 2 ^ (LOGN - 1).
Context (Hs : ternary N s).
Let Delta := 2 ^ LOGDELTA.
Let E := noise N (coef s).
Context (G D : nat) (HG : (1 <= G <= 4)%nat) (HGD : LOGN - 1 = Z.of_nat (G * D)).

Let L27 : 2 <= LOGN <= 27. Proof. lia. Qed.
Let LQ : 1 <= LOGQ. Proof. unfold widths in HQ. lia. Qed.
Let Nn : N = 2 * n.
Proof. unfold N, n. replace LOGN with (Z.succ (LOGN - 1)) at 1 by lia. rewrite Z.pow_succ_r by lia. reflexivity. Qed.
Let Np : 0 < n. Proof. apply Z.pow_pos_nonneg; lia. Qed.
Let Dp : (0 < IZR Delta)%R. Proof. apply IZR_lt. apply Z.pow_pos_nonneg; lia. Qed.
Let D1 : (1 <= D)%nat. Proof. nia. Qed.

(** Up to the noise of one key switch the results are real; they differ from the coefficients by the other errors. *)
Theorem C64_CoeffToSlot_real z0 D0 ct m stc st pos ct0 ct1 : LOGDELTA < LOGQ -> (0 < D0)%R ->
  cts_static LOGQ LOGN LOGDELTA (Z.of_nat G) stc -> ifft_static LOGN st -> decrypts LOGQ N ct (coef s) m -> object2 LOGQ N ct0 -> object2 LOGQ N ct1 ->
  (forall j, 0 <= j < n -> (modulus (slots N D0 m j) <= z0)%R) ->
  exists stc' st' pos' ct0' ct1' w0 w1,
    CoeffToSlot LOGQ LOGN LOGDELTA RM rnd (Z.of_nat G) stc st pos ct (map Some s) ct0 ct1 = Ok (stc', st', pos', ct0', ct1') /\
    cts_static LOGQ LOGN LOGDELTA (Z.of_nat G) stc' /\ ifft_static LOGN st' /\ decrypts LOGQ N ct0' (coef s) w0 /\ decrypts LOGQ N ct1' (coef s) w1 /\
    exists x0 x1 : Z -> R, forall j r, 0 <= j < n -> reverses (LOGN - 1) j r ->
      (modulus (slots N (IZR Delta ^ D * D0) w0 j - real (x0 j))%num <= switch_noise N Delta E D0 D)%R /\
      (modulus (slots N (IZR Delta ^ D * D0) w1 j - real (x1 j))%num <= switch_noise N Delta E D0 D)%R /\
      (Rabs (x0 j - IZR (m r) / D0) <= cts_rounding N Delta E G D z0 D0)%R /\ (Rabs (x1 j - IZR (m (r + n)%Z) / D0) <= cts_rounding N Delta E G D z0 D0)%R.
Proof.
  intros HDQ HD0 Hstc Hst Hct H0 H1 Hz.
  pose proof (cts_good LOGN L27) as HA. fold n in HA. rewrite HGD in HA at 1 2.
  pose proof (cts_row LOGN G D L27 HGD) as Hrow. pose proof (cts_row_le D D1) as Hrle.
  destruct (grouped_good LOGQ LOGN LOGDELTA RM rnd s HQ HQ2 HL HD Hr Hs G D 3 _ _ _ _ _ z0 D0 ct m st pos (sq_new LOGQ N) HG ltac:(lia) HA) as (st' & pos' & U & w & E1 & Hst' & Hw & Hsl); auto.
  { intros d Hd. replace (group_entries G _ _ d) with (Rpower 2 (- / INR D)). 2:{ rewrite <- Hrow. rewrite <- (group_entries_same G (fun _ => 2 * cts_factor LOGN)%R d) by lia. unfold group_rows. symmetry. apply rprod_const. } pose proof (pow2_small LOGDELTA 64 ltac:(lia) ltac:(lia)). pose proof (pow2_small LOGDELTA LOGQ HDQ ltac:(lia)).
    assert (Rpower 2 (- / INR D) * IZR Delta <= 1 * IZR Delta)%R by (apply Rmult_le_compat_r; lra). unfold Delta in *. split; lra. }
  { apply new_object2; [auto|lia]. }
  destruct (C42_conj_ct LOGN LOGQ RM rnd s (fresh N) (sq_new (2 * LOGQ) N) pos' U w (sq_new LOGQ N) ltac:(lia) LQ HQ2 Hr Hs) as (s' & ckey & pos2 & U' & w' & e & E2 & E3 & E4 & Hsub & Hw' & He); auto.
  { unfold fresh. rewrite repeat_length. reflexivity. }
  { apply new_object2; lia. }
  { apply new_object2; lia. }
  destruct (C36_add LOGQ N U U' (coef s) _ _ LQ ltac:(lia) Hw Hw') as (ct0' & E5 & Hw0).
  destruct (C36_sub LOGQ N U U' (coef s) _ _ LQ ltac:(lia) Hw Hw') as (ct1a & E6 & Hw1a).
  destruct (C36_mul_plain LOGN LOGQ ct1a (coef s) _ (repP LOGQ N (mhalf N)) (mhalf N) ltac:(lia) HQ Hw1a ltac:(apply repP_holds; fold N; lia)) as (ct1' & E7 & Hw1). fold N in E1, E2, E3, E4, Hsub, Hw0, Hw1a, E7, Hw1, He, Hsl. fold Delta in Hsl.
  assert (ER : CoeffToSlot LOGQ LOGN LOGDELTA RM rnd (Z.of_nat G) stc st pos ct (map Some s) ct0 ct1 = Ok (Some (cts_tabs LOGN), st', pos2, ct0', ct1')).
  { unfold CoeffToSlot. fold N. rewrite (cts_static_is LOGQ LOGN LOGDELTA (Z.of_nat G)) by auto. cbn [bind]. rewrite (surjective_pairing (cts_tabs LOGN)) at 1.
    replace (LOGN - 1) with (Z.of_nat (G * D)) at 1 by auto. rewrite E1. cbn [bind]. rewrite E2. cbn [bind]. rewrite E3. cbn [bind]. rewrite E4. cbn [bind].
    rewrite cts_pti_ok by lia. cbn [bind]. rewrite (copy_decrypts LOGQ N ct0 U (coef s) w) by (auto; lia). cbn [bind]. rewrite E5. cbn [bind].
    rewrite (copy_decrypts LOGQ N ct1 U (coef s) w) by (auto; lia). cbn [bind]. rewrite E6. cbn [bind]. rewrite E7. cbn [bind].
    rewrite <- surjective_pairing. reflexivity. }
  exists (Some (cts_tabs LOGN)), st', pos2, ct0', ct1'. eexists _, _. split; [exact ER|]. split; [eapply cts_next; [exact Hstc|exact ER]|]. split; [exact Hst'|].
  split; [exact Hw0|]. split; [exact Hw1|].
  exists (fun j => 2 * fst (slots N (IZR Delta ^ D * D0) w j))%R, (fun j => 2 * snd (slots N (IZR Delta ^ D * D0) w j))%R.
  intros j r Hj Hrev. apply reverses_brv in Hrev; [|lia]. destruct (Hsl j Hj) as [_ Herr].
  assert (EL : (G * D)%nat = Z.to_nat (LOGN - 1)) by lia. rewrite EL in Herr.
  set (SC := (IZR Delta ^ D * D0)%R) in *. assert (HSC : (0 < SC)%R) by (apply Rmult_lt_0_compat; auto; apply pow_lt; auto).
  match type of Herr with (modulus (_ - ?x)%num <= _)%R => replace x with (mk Rops (IZR (m r) / D0 / 2)%R (IZR (m (r + n)%Z) / D0 / 2)%R : CC) in Herr
    by (rewrite Hrev; symmetry; exact (cts_exact LOGN L27 (fun i => IZR (m i) / D0)%R j Hj)) end.
  fold E in He.
  assert (Hks : (modulus (slots N SC e j) <= switch_noise N Delta E D0 D)%R) by (apply slots_small; auto; lia).
  match type of Herr with (_ <= ?x)%R => set (X := x) in * end.
  assert (EX : cts_rounding N Delta E G D z0 D0 = (2 * X)%R).
  { unfold cts_rounding, X, row_rounding. f_equal. symmetry. apply rows_ext'. intros d. unfold group_rows. rewrite rprod_const. exact Hrow. }
  rewrite EX. clearbody X. clear EX. set (K := switch_noise N Delta E D0 D) in *. clearbody K.
  pose proof (slots_conj LOGN SC w w' j L27 ltac:(lia) Hsub) as Hcj. fold N in Hcj.
  set (z := slots N SC w j) in *. set (y := mk Rops (IZR (m r) / D0 / 2)%R (IZR (m (r + n)%Z) / D0 / 2)%R : CC) in *.
  assert (Hmod : forall x y : R, (Rabs x <= modulus (mk Rops x y) /\ Rabs y <= modulus (mk Rops x y))%R).
  { intros x1 x2. unfold modulus, cre, cim. cbn. split; rewrite <- sqrt_Rsqr_abs; apply sqrt_le_1_alt; unfold Rsqr; nra. }
  assert (Hzy : (z - y)%num = mk Rops (fst z - IZR (m r) / D0 / 2)%R (snd z - IZR (m (r + n)%Z) / D0 / 2)%R) by (unfold y; destruct z as [z1 z2]; apply RC_eq; cbn; ring).
  rewrite Hzy in Herr. pose proof (Hmod (fst z - IZR (m r) / D0 / 2)%R (snd z - IZR (m (r + n)%Z) / D0 / 2)%R) as [Hm1 Hm2].
  split; [|split; [|split]].
  - rewrite !slots_add, Hcj. fold z.
    replace (z + (conjugate z + slots N SC e j) - real (2 * fst z))%num with (slots N SC e j : CC); [exact Hks|].
    destruct z as [z1 z2]. set (q := slots N SC e j). clearbody q. destruct q as [q1 q2]. apply RC_eq; unfold conjugate, real, cre, cim; cbn; change (car Rops) with R in *; [idtac|idtac]; field.
  - pose proof (slots_mhalf LOGN SC (fun i => w i - (w' i + e i)) j ltac:(lia) ltac:(lia)) as Hm. fold N in Hm. unfold RC in *. rewrite Hm. rewrite slots_sub, slots_add, Hcj. fold z.
    match goal with |- (modulus ?x <= _)%R => replace x with ((slots N SC e j * (mk Rops 0%R 1%R : CC))%num : CC) end.
    2:{ destruct z as [z1 z2]. set (q := slots N SC e j). clearbody q. destruct q as [q1 q2]. apply RC_eq; unfold conjugate, real, cre, cim; cbn; change (car Rops) with R in *; [idtac|idtac]; field. }
    rewrite modulus_mul. replace (modulus (mk Rops 0%R 1%R)) with 1%R.
    2:{ unfold modulus, cre, cim. cbn. replace (0 * 0 + 1 * 1)%R with 1%R by ring. symmetry. apply sqrt_1. }
    rewrite Rmult_1_r. exact Hks.
  - replace (2 * fst z - IZR (m r) / D0)%R with (2 * (fst z - IZR (m r) / D0 / 2))%R by (field; lra). rewrite Rabs_mult, (Rabs_right 2) by lra. lra.
  - replace (2 * snd z - IZR (m (r + n)%Z) / D0)%R with (2 * (snd z - IZR (m (r + n)%Z) / D0 / 2))%R by (field; lra). rewrite Rabs_mult, (Rabs_right 2) by lra. lra.
Qed.
Theorem C64_CoeffToSlot z0 D0 ct m stc st pos ct0 ct1 : LOGDELTA < LOGQ -> (0 < D0)%R ->
  cts_static LOGQ LOGN LOGDELTA (Z.of_nat G) stc -> ifft_static LOGN st -> decrypts LOGQ N ct (coef s) m -> object2 LOGQ N ct0 -> object2 LOGQ N ct1 ->
  (forall j, 0 <= j < n -> (modulus (slots N D0 m j) <= z0)%R) ->
  exists stc' st' pos' ct0' ct1' w0 w1,
    CoeffToSlot LOGQ LOGN LOGDELTA RM rnd (Z.of_nat G) stc st pos ct (map Some s) ct0 ct1 = Ok (stc', st', pos', ct0', ct1') /\
    cts_static LOGQ LOGN LOGDELTA (Z.of_nat G) stc' /\ ifft_static LOGN st' /\ decrypts LOGQ N ct0' (coef s) w0 /\ decrypts LOGQ N ct1' (coef s) w1 /\
    forall j r, 0 <= j < n -> reverses (LOGN - 1) j r ->
      (modulus (slots N (IZR Delta ^ D * D0) w0 j - real (IZR (m r) / D0))%num <= cts_error N Delta E G D z0 D0)%R /\
      (modulus (slots N (IZR Delta ^ D * D0) w1 j - real (IZR (m (r + n)%Z) / D0))%num <= cts_error N Delta E G D z0 D0)%R.
Proof.
  intros HDQ HD0 Hstc Hst Hct H0 H1 Hz.
  destruct (C64_CoeffToSlot_real z0 D0 ct m stc st pos ct0 ct1 HDQ HD0 Hstc Hst Hct H0 H1 Hz) as (stc' & st' & pos' & ct0' & ct1' & w0 & w1 & E1 & Hstc' & Hst' & Hw0 & Hw1 & x0 & x1 & Hx).
  exists stc', st', pos', ct0', ct1', w0, w1. split; [exact E1|]. split; [exact Hstc'|]. split; [exact Hst'|]. split; [exact Hw0|]. split; [exact Hw1|].
  intros j r Hj Hrev. destruct (Hx j r Hj Hrev) as (A0 & A1 & B0 & B1). unfold cts_error.
  assert (HT : forall (z : CC) x y a b, (modulus (z - real x)%num <= a)%R -> (Rabs (x - y) <= b)%R -> (modulus (z - real y)%num <= b + a)%R).
  { intros z x y a b A B. replace (z - real y)%num with ((z - real x) + real (x - y) : RC)%num.
    - pose proof (modulus_add (z - real x)%num (real (x - y))) as T. rewrite modulus_real in T. unfold RC in *. lra.
    - destruct z as [z1 z2]. apply RC_eq; unfold real; cbn; ring. }
  split; eapply HT; eauto.
Qed.

Theorem C64_SlotToCoeff z0 D0 e0 e1 (p : Z -> R) ct0 ct1 w0 w1 sts st pos ct_ : LOGDELTA + Z.of_nat G - 1 < 64 -> LOGDELTA + Z.of_nat G - 1 < LOGQ -> (0 < D0)%R ->
  stc_static LOGQ LOGN LOGDELTA (Z.of_nat G) sts -> ifft_static LOGN st -> decrypts LOGQ N ct0 (coef s) w0 -> decrypts LOGQ N ct1 (coef s) w1 -> object2 LOGQ N ct_ ->
  (forall j, 0 <= j < n -> (modulus (slots N D0 w0 j) <= z0 /\ modulus (slots N D0 w1 j) <= z0)%R) ->
  (forall j r, 0 <= j < n -> reverses (LOGN - 1) j r ->
    (modulus (slots N D0 w0 j - real (p r))%num <= e0)%R /\ (modulus (slots N D0 w1 j - real (p (r + n)%Z))%num <= e1)%R) ->
  exists sts' st' pos' ct' w,
    SlotToCoeff LOGQ LOGN LOGDELTA RM rnd (Z.of_nat G) sts st pos ct0 ct1 (map Some s) ct_ = Ok (sts', st', pos', ct') /\
    stc_static LOGQ LOGN LOGDELTA (Z.of_nat G) sts' /\ ifft_static LOGN st' /\ decrypts LOGQ N ct' (coef s) w /\
    forall i, 0 <= i < N -> (Rabs (IZR (w i) / (IZR Delta ^ D * D0) - p i) <= stc_error N Delta E G D z0 D0 + e0 + e1)%R.
Proof.
  intros HG1 HG2 HD0 Hsts Hst Hct0 Hct1 Hob Hz Hp.
  pose proof (stc_good LOGN) as HA. fold n in HA. rewrite HGD in HA at 1 2.
  pose proof (istc_good LOGN) as HB. fold n in HB. rewrite HGD in HB at 1 2.
  assert (Hbs : forall d, (d < D)%nat -> bound_small LOGQ LOGDELTA (group_entries G (fun _ => 2%R) (fun _ => 1%R) d)).
  { intros d Hd. unfold group_entries. rewrite rprod_const, Rmult_1_r.
    assert (Hpw : (2 ^ (G - 1) * IZR (2 ^ LOGDELTA) = IZR (2 ^ (LOGDELTA + Z.of_nat (G - 1))))%R).
    { rewrite Z.pow_add_r, mult_IZR by lia. rewrite <- pow_IZR. ring. }
    unfold bound_small. rewrite Hpw. split; apply pow2_small; lia. }
  destruct (grouped_good LOGQ LOGN LOGDELTA RM rnd s HQ HQ2 HL HD Hr Hs G D 3 _ _ _ _ _ z0 D0 ct0 w0 st pos ct_ HG ltac:(lia) HA) as (st1 & pos1 & A & wa & E1 & Hst1 & Hwa & Hsa); auto.
  { intros j Hj. apply Hz. auto. }
  destruct (grouped_good LOGQ LOGN LOGDELTA RM rnd s HQ HQ2 HL HD Hr Hs G D 3 _ _ _ _ _ z0 D0 ct1 w1 st1 pos1 (sq_new LOGQ N) HG ltac:(lia) HB) as (st2 & pos2 & B & wb & E2 & Hst2 & Hwb & Hsb); auto.
  { apply new_object2; lia. }
  { intros j Hj. apply Hz. auto. }
  destruct (C36_add LOGQ N A B (coef s) _ _ LQ ltac:(lia) Hwa Hwb) as (ct' & E3 & Hw).
  fold N in E1, E2, Hwa, Hwb, Hsa, Hsb. fold n Delta in Hsa, Hsb.
  assert (ER : SlotToCoeff LOGQ LOGN LOGDELTA RM rnd (Z.of_nat G) sts st pos ct0 ct1 (map Some s) ct_ = Ok (Some (stc_tabs LOGN), st2, pos2, ct')).
  { unfold SlotToCoeff. fold N. rewrite (stc_static_is LOGQ LOGN LOGDELTA (Z.of_nat G)) by auto. cbn [bind].
    destruct (stc_tabs LOGN) as [[[U V] U'] V']. cbn [fst snd] in E1, E2.
    rewrite HGD at 1. rewrite E1. cbn [bind]. rewrite HGD. rewrite E2. cbn [bind]. rewrite E3. reflexivity. }
  exists (Some (stc_tabs LOGN)), st2, pos2, ct'. eexists. split; [exact ER|]. split; [eapply stc_next; [exact Hsts|exact ER]|]. split; [exact Hst2|]. split; [exact Hw|].
  set (SC := (IZR Delta ^ D * D0)%R) in *. assert (HSC : (0 < SC)%R) by (apply Rmult_lt_0_compat; auto; apply pow_lt; auto).
  set (L := Z.to_nat (LOGN - 1)). assert (EL : (G * D)%nat = L) by (unfold L; lia). rewrite EL in Hsa, Hsb.
  assert (EL2 : 2 ^ Z.of_nat L = n) by (unfold L, n; rewrite Z2Nat.id by lia; reflexivity).
  set (y0 := slots N D0 w0) in *. set (y1 := slots N D0 w1) in *.
  pose (q := fun i => if i <? n then (fst (y0 (brv L i)) - snd (y1 (brv L i)))%R else (snd (y0 (brv L (i - n))) + fst (y1 (brv L (i - n))))%R).
  assert (Hbr : forall t, 0 <= brv L t < n) by (intros t; rewrite <- EL2; apply brv_range).
  assert (HS : forall j, 0 <= j < n -> (chain n (fun d => stcM LOGN (Z.of_nat d)) L y0 j + chain n (fun d => istcM LOGN (Z.of_nat d)) L y1 j)%num = slot N q j).
  { intros j Hj. apply (stc_exact LOGN L27 q y0 y1 j); auto; fold L; fold n; intros t Ht; pose proof (Hbr t); unfold q.
    - destruct (Z.ltb_spec (brv L t) n); [|lia]. rewrite brv_involutive by (rewrite EL2; auto). reflexivity.
    - destruct (Z.ltb_spec (brv L t + n) n); [lia|]. replace (brv L t + n - n) with (brv L t) by lia. rewrite brv_involutive by (rewrite EL2; auto). reflexivity. }
  assert (HX : forall j, 0 <= j < n -> (modulus (slot N (fun i => IZR (wa i + wb i) / SC - q i)%R j) <= stc_error N Delta E G D z0 D0)%R).
  { intros j Hj. rewrite slot_sub, <- HS by auto. fold (slots N SC (fun i => wa i + wb i) j). rewrite slots_add.
    destruct (Hsa j Hj) as [_ H1]. destruct (Hsb j Hj) as [_ H2].
    match type of H1 with (modulus (?x - ?y)%num <= ?b)%R => set (xa := x) in *; set (ya := y) in *; set (X := b) in * end.
    match type of H2 with (modulus (?x - ?y)%num <= ?b)%R => set (xb := x) in *; set (yb := y) in *; change b with X in H2 end.
    assert (EX : stc_error N Delta E G D z0 D0 = (2 * X)%R).
    { unfold stc_error, X, row_rounding. f_equal. symmetry. apply rows_ext'. intros d. unfold group_rows. apply rprod_const. }
    rewrite EX. clearbody X xa xb ya yb.
    replace (xa + xb - (ya + yb))%num with ((xa - ya) + (xb - yb) : RC)%num by ring. pose proof (modulus_add (xa - ya)%num (xb - yb)%num). lra. }
  intros i Hi. pose proof (coef_slots LOGN _ _ L27 HX i Hi) as HC. cbv beta in HC |- *.
  assert (Hq : (Rabs (q i - p i) <= e0 + e1)%R).
  { assert (Hmod : forall x y : R, (Rabs x <= modulus (mk Rops x y) /\ Rabs y <= modulus (mk Rops x y))%R).
    { intros x y. unfold modulus, cre, cim. cbn. split; rewrite <- sqrt_Rsqr_abs; apply sqrt_le_1_alt; unfold Rsqr; nra. }
    assert (Hsub : forall (z : CC) (x : R), (z - real x)%num = mk Rops (fst z - x)%R (snd z)) by (intros [? ?] x; apply RC_eq; cbn; ring).
    unfold q. destruct (Z.ltb_spec i n) as [Hin|Hin].
    - destruct (Hp (brv L i) i (Hbr i)) as [P0 P1].
      { apply reverses_brv; [lia|]. fold L. rewrite brv_involutive; [reflexivity|]. rewrite EL2. lia. }
      rewrite Hsub in P0, P1. destruct (Hmod (fst (y0 (brv L i)) - p i)%R (snd (y0 (brv L i)))) as [M1 _].
      destruct (Hmod (fst (y1 (brv L i)) - p (i + n)%Z)%R (snd (y1 (brv L i)))) as [_ M2].
      replace (fst (y0 (brv L i)) - snd (y1 (brv L i)) - p i)%R with ((fst (y0 (brv L i)) - p i) + - snd (y1 (brv L i)))%R by ring.
      eapply Rle_trans; [apply Rabs_triang|]. rewrite Rabs_Ropp. fold y0 in P0. fold y1 in P1. lra.
    - destruct (Hp (brv L (i - n)) (i - n) (Hbr _)) as [P0 P1].
      { apply reverses_brv; [lia|]. fold L. rewrite brv_involutive; [reflexivity|]. rewrite EL2. lia. }
      rewrite Hsub in P0, P1. replace (i - n + n) with i in P1 by lia.
      destruct (Hmod (fst (y0 (brv L (i - n))) - p (i - n)%Z)%R (snd (y0 (brv L (i - n))))) as [_ M1].
      destruct (Hmod (fst (y1 (brv L (i - n))) - p i)%R (snd (y1 (brv L (i - n))))) as [M2 _].
      replace (snd (y0 (brv L (i - n))) + fst (y1 (brv L (i - n))) - p i)%R with (snd (y0 (brv L (i - n))) + (fst (y1 (brv L (i - n))) - p i))%R by ring.
      eapply Rle_trans; [apply Rabs_triang|]. fold y0 in P0. fold y1 in P1. lra. }
  replace (IZR (wa i + wb i) / SC - p i)%R with ((IZR (wa i + wb i) / SC - q i) + (q i - p i))%R by ring.
  eapply Rle_trans; [apply Rabs_triang|]. lra.
Qed.

(** SlotToCoeff after CoeffToSlot gives back the polynomial. *)
Theorem C64_round_trip z0 D0 ct m stc sts st pos ct0 ct1 ct_ : LOGDELTA + Z.of_nat G - 1 < 64 -> LOGDELTA + Z.of_nat G - 1 < LOGQ -> (0 < D0)%R ->
  cts_static LOGQ LOGN LOGDELTA (Z.of_nat G) stc -> stc_static LOGQ LOGN LOGDELTA (Z.of_nat G) sts -> ifft_static LOGN st ->
  decrypts LOGQ N ct (coef s) m -> object2 LOGQ N ct0 -> object2 LOGQ N ct1 -> object2 LOGQ N ct_ ->
  (forall j, 0 <= j < n -> (modulus (slots N D0 m j) <= z0)%R) ->
  let e := cts_error N Delta E G D z0 D0 in
  exists stc' st' pos' ct0' ct1' sts' st'' pos'' ct' w,
    CoeffToSlot LOGQ LOGN LOGDELTA RM rnd (Z.of_nat G) stc st pos ct (map Some s) ct0 ct1 = Ok (stc', st', pos', ct0', ct1') /\
    SlotToCoeff LOGQ LOGN LOGDELTA RM rnd (Z.of_nat G) sts st' pos' ct0' ct1' (map Some s) ct_ = Ok (sts', st'', pos'', ct') /\
    decrypts LOGQ N ct' (coef s) w /\
    forall i, 0 <= i < N -> (Rabs (IZR (w i) / (IZR Delta ^ D * (IZR Delta ^ D * D0)) - IZR (m i) / D0) <= stc_error N Delta E G D (z0 + e) (IZR Delta ^ D * D0) + e + e)%R.
Proof.
  intros HG1 HG2 HD0 Hstc Hsts Hst Hct H0 H1 H2 Hz e.
  destruct (C64_CoeffToSlot z0 D0 ct m stc st pos ct0 ct1) as (stc' & st' & pos' & ct0' & ct1' & w0 & w1 & E1 & _ & Hst' & Hw0 & Hw1 & Hsl); auto; try lia.
  assert (HSC : (0 < IZR Delta ^ D * D0)%R) by (apply Rmult_lt_0_compat; auto; apply pow_lt; auto).
  destruct (C64_SlotToCoeff (z0 + e) (IZR Delta ^ D * D0) e e (fun i => IZR (m i) / D0)%R ct0' ct1' w0 w1 sts st' pos' ct_ HG1 HG2 HSC Hsts Hst' Hw0 Hw1 H2) as (sts' & st'' & pos'' & ct' & w & E2 & _ & _ & Hw & Hb); auto.
  - intros j Hj. set (L := Z.to_nat (LOGN - 1)).
    assert (Hrv : reverses (LOGN - 1) j (brv L j)) by (apply reverses_brv; [lia|reflexivity]).
    destruct (Hsl j _ Hj Hrv) as [B0 B1]. destruct Hrv as [Hrv _]. fold n in Hrv.
    pose proof (coef_slots LOGN (fun i => IZR (m i) / D0)%R z0 L27 Hz) as HC. cbv beta in HC. fold N in HC.
    pose proof (HC (brv L j) ltac:(lia)) as C0. pose proof (HC (brv L j + n) ltac:(lia)) as C1.
    assert (HT : forall (z : CC) x, (modulus (z - real x)%num <= e)%R -> (Rabs x <= z0)%R -> (modulus z <= z0 + e)%R).
    { intros z x B C. replace z with ((z - real x) + real x : RC)%num by ring. pose proof (modulus_add (z - real x)%num (real x)) as T. rewrite modulus_real in T. lra. }
    split; eapply HT; eauto.
  - exists stc', st', pos', ct0', ct1', sts', st'', pos'', ct', w. auto.
Qed.

(** Products of G consecutive matrices act like the matrices one after the other. *)
Theorem C64_grouped K S (A : Z -> Z -> Z -> CC) (o : Z -> Z -> Z) (zr zi : Z -> Z -> bool) (a : nat -> R) z0 D0 ct m st pos Act :
  0 <= S ->
  (forall d, 0 <= d < Z.of_nat (G * K) -> flags_right (K := Rops) n S (fun t j => cre Rops (A d t j)) (fun t j => cim Rops (A d t j)) (o d) (o d) (zr d) (zi d)) ->
  (forall d j, (d < G * K)%nat -> 0 <= j < n -> (gsum (K := Rops) S (fun t => modulus (A (Z.of_nat d) t j)) <= a d)%R) ->
  (forall d, (d < K)%nat -> bound_small LOGQ LOGDELTA (group_rows G a d)) -> (0 < D0)%R ->
  ifft_static LOGN st -> decrypts LOGQ N ct (coef s) m -> object2 LOGQ N Act ->
  (forall j, 0 <= j < n -> (modulus (slots N D0 m j) <= z0)%R) ->
  let M d := matrix_of n S (A (Z.of_nat d)) (o (Z.of_nat d)) in
  let dl := (IZR (S ^ Z.of_nat G) * (IZR N / (2 * IZR Delta)))%R in
  exists st' pos' Act' w, grouped_lt LOGQ LOGN LOGDELTA RM rnd S (Z.of_nat (G * K)) (Z.of_nat G) st pos
      (map (fun d => diagonals n S (fun t j => cre Rops (A d t j)) (o d) (zr d)) (range (Z.of_nat (G * K))))
      (map (fun d => diagonals n S (fun t j => cim Rops (A d t j)) (o d) (zi d)) (range (Z.of_nat (G * K)))) ct (map Some s) Act = Ok (st', pos', Act') /\
    ifft_static LOGN st' /\ decrypts LOGQ N Act' (coef s) w /\
    forall j, 0 <= j < n ->
      (modulus (slots N (IZR Delta ^ K * D0) w j - chain n M (G * K) (slots N D0 m) j)%num <= error_after (group_rows G a) dl z0 (switch_noise N Delta E D0) K)%R.
Proof.
  clear D1 Np L27 Nn HGD D. intros HS HF Hrow Hb HD0 Hst Hct Hob Hz M dl.
  set (X := map _ _). set (Y := map _ _).
  assert (HA : good n S (Z.of_nat (G * K)) (Z.of_nat (G * K)) X Y (fun d => matrix_of n S (A d) (o d)) (fun d => a (Z.to_nat d)) (fun d => a (Z.to_nat d))).
  { unfold X, Y. rewrite !map_range. do 2 eexists. split; [reflexivity|]. split; [reflexivity|]. cbv beta. intros d Hd. destruct (Z.ltb_spec d (Z.of_nat (G * K))); [|lia]. apply mrep_rows; [split; [apply Z.pow_pos_nonneg; lia|apply Z.pow_le_mono_r; lia]|auto|apply HF; auto|].
    intros i Hi. specialize (Hrow (Z.to_nat d) i ltac:(lia) Hi). rewrite Z2Nat.id in Hrow by lia. exact Hrow. }
  assert (Ea : forall d, group_rows G (fun k => a (Z.to_nat (Z.of_nat k))) d = group_rows G a d).
  { intros d. unfold group_rows. generalize (G * d)%nat as g. intros g. clear. induction G; cbn [rprod]; [reflexivity|]. rewrite Nat2Z.id. f_equal. exact IHn. }
  destruct (grouped_good LOGQ LOGN LOGDELTA RM rnd s HQ HQ2 HL HD Hr Hs G K S X Y _ _ _ z0 D0 ct m st pos Act HG HS HA) as (st' & pos' & Act' & w & E1 & Hst' & Hw & Hsl); auto.
  { intros d Hd. rewrite <- group_entries_same by lia. rewrite Ea. auto. }
  exists st', pos', Act', w. split; [exact E1|]. split; [exact Hst'|]. split; [exact Hw|]. intros j Hj. destruct (Hsl j Hj) as [_ B].
  eapply Rle_trans; [exact B|]. apply Req_le. apply rows_ext'. exact Ea.
Qed.
End Boot.

(** The number of matrices must be a multiple of the size of the groups, and that size at most 4. *)
Theorem C64_group_assert LOGQ LOGN LOGDELTA RM rnd S D G st pos Ar Ai ct s Act :
  G < 1 \/ 4 < G \/ D mod G <> 0 -> grouped_lt LOGQ LOGN LOGDELTA RM rnd S D G st pos Ar Ai ct s Act = Abort.
Proof.
  intros H. unfold grouped_lt, group2, group3, group4.
  destruct (Z.eqb_spec G 1) as [->|]; [rewrite Z.mod_1_r in H; lia|].
  destruct (Z.eqb_spec G 2) as [->|]; [destruct (Z.eqb_spec (D mod 2) 0); [lia|reflexivity]|].
  destruct (Z.eqb_spec G 3) as [->|]; [destruct (Z.eqb_spec (D mod 3) 0); [lia|reflexivity]|].
  destruct (Z.eqb_spec G 4) as [->|]; [destruct (Z.eqb_spec (D mod 4) 0); [lia|reflexivity]|].
  reflexivity.
Qed.

(** ** Exact arithmetic: what the tables are *)
Theorem C64_CoeffToSlot_matrices LOGN : 2 <= LOGN <= 27 ->
  let n := 2 ^ (LOGN - 1) in
  exists (A : Z -> Z -> Z -> CC) (o : Z -> Z -> Z) (zr zi : Z -> Z -> bool),
    cts_tables LOGN = Ok (map (fun d => diagonals n 3 (fun t j => cre Rops (A d t j)) (o d) (zr d)) (range (LOGN - 1)),
                          map (fun d => diagonals n 3 (fun t j => cim Rops (A d t j)) (o d) (zi d)) (range (LOGN - 1))) /\
    (forall d, 0 <= d < LOGN - 1 -> flags_right (K := Rops) n 3 (fun t j => cre Rops (A d t j)) (fun t j => cim Rops (A d t j)) (o d) (o d) (zr d) (zi d)) /\
    forall (m : Z -> R) j r, 0 <= j < n -> reverses (LOGN - 1) j r ->
      chain n (fun d => matrix_of n 3 (A (Z.of_nat d)) (o (Z.of_nat d))) (Z.to_nat (LOGN - 1)) (slot (2 ^ LOGN) m) j = mk Rops (m r / 2)%R (m (r + n)%Z / 2)%R.
Proof.
  intros HL n. exists (fun d => ctsA LOGN d), (fun d => tr_off n (o3 n (Md LOGN d))), (fun d => zR (2 ^ d)), (fun _ => zI). split; [|split].
  - rewrite cts_tables_ok by auto. unfold cts_tabs. rewrite !map_range. do 2 f_equal; apply tab_ext; intros d Hd; rewrite diagonals_sdi; reflexivity.
  - intros d Hd. pose proof (Md_pos LOGN d Hd) as HM. pose proof (n_Md LOGN d Hd) as HnM. assert (Hp : 0 < 2 ^ d) by (apply Z.pow_pos_nonneg; lia).
    exact (bA_flags n (Md LOGN d) (2 ^ d) HM Hp HnM (csd LOGN d) (snd_ LOGN d) (cts_factor LOGN)).
  - intros m j r Hj Hrev. apply reverses_brv in Hrev; [|lia]. rewrite Hrev. exact (cts_exact LOGN HL m j Hj).
Qed.
Theorem C64_SlotToCoeff_matrices LOGN : 2 <= LOGN <= 27 ->
  let n := 2 ^ (LOGN - 1) in
  exists (A B : Z -> Z -> Z -> CC) (o : Z -> Z -> Z) (zr zi yr yi : Z -> Z -> bool),
    stc_tables LOGN = Ok (map (fun d => diagonals n 3 (fun t j => cre Rops (A d t j)) (o d) (zr d)) (range (LOGN - 1)),
                          map (fun d => diagonals n 3 (fun t j => cim Rops (A d t j)) (o d) (zi d)) (range (LOGN - 1)),
                          map (fun d => diagonals n 3 (fun t j => cre Rops (B d t j)) (o d) (yr d)) (range (LOGN - 1)),
                          map (fun d => diagonals n 3 (fun t j => cim Rops (B d t j)) (o d) (yi d)) (range (LOGN - 1))) /\
    (forall d, 0 <= d < LOGN - 1 -> flags_right (K := Rops) n 3 (fun t j => cre Rops (A d t j)) (fun t j => cim Rops (A d t j)) (o d) (o d) (zr d) (zi d) /\
                                   flags_right (K := Rops) n 3 (fun t j => cre Rops (B d t j)) (fun t j => cim Rops (B d t j)) (o d) (o d) (yr d) (yi d)) /\
    forall (m : Z -> R) (y0 y1 : Z -> CC) j, 
      (forall p r, 0 <= p < n -> reverses (LOGN - 1) p r -> y0 p = real (m r) /\ y1 p = real (m (r + n)%Z)) -> 0 <= j < n ->
      (chain n (fun d => matrix_of n 3 (A (Z.of_nat d)) (o (Z.of_nat d))) (Z.to_nat (LOGN - 1)) y0 j +
       chain n (fun d => matrix_of n 3 (B (Z.of_nat d)) (o (Z.of_nat d))) (Z.to_nat (LOGN - 1)) y1 j)%num = slot (2 ^ LOGN) m j.
Proof.
  intros HL n. exists (fun d => stcA LOGN d), (fun d => istcA LOGN d), (fun d => o3 n (Md LOGN (rv LOGN d))), (fun d => zR (2 ^ rv LOGN d)), (fun _ => zI),
    (fun d => if d =? 0 then zI else zR (2 ^ rv LOGN d)), (fun d => if d =? 0 then zR (2 ^ rv LOGN d) else zI). split; [|split].
  - rewrite stc_tables_ok by auto. unfold stc_tabs. rewrite !map_range. apply f_equal. apply f_equal2; [apply f_equal2; [apply f_equal2|]|]; apply tab_ext; intros d Hd; rewrite diagonals_sdi; unfold istcA; try destruct (d =? 0); reflexivity.
  - intros d Hd. assert (Hr : 0 <= rv LOGN d < LOGN - 1) by (unfold rv; lia). pose proof (Md_pos LOGN _ Hr) as HM. pose proof (n_Md LOGN _ Hr) as HnM. fold n in HnM.
    assert (Hp : 0 < 2 ^ rv LOGN d) by (apply Z.pow_pos_nonneg; lia).
    pose proof (fA_flags n (Md LOGN (rv LOGN d)) (2 ^ rv LOGN d) HM Hp HnM (csd LOGN (rv LOGN d)) (snd_ LOGN (rv LOGN d))) as F. split; [exact F|].
    unfold istcA. destruct (d =? 0); [|exact F]. intros t Ht. specialize (F t Ht). rewrite andb_comm. destruct (zR (2 ^ rv LOGN d) t && zI t); [|exact F].
    intros j Hj. destruct (F j Hj) as [F1 F2]. unfold fA, cre, cim in F1, F2. cbn in F1, F2. unfold cre, cim. cbn. rewrite F1, F2. split; ring.
  - intros m y0 y1 j H Hj.
    apply (stc_exact LOGN HL m y0 y1 j); auto; intros p Hp; (destruct (H p (brv (Z.to_nat (LOGN - 1)) p) Hp) as [-> ->]; [apply reverses_brv; [lia|reflexivity]|]); unfold real, mk; cbn [fst snd]; [symmetry; apply Rminus_0_r|symmetry; apply Rplus_0_l].
Qed.


(** ** A concrete case: N = 8, two matrices in one group, scale 2^30 *)
Lemma ex_half : Rpower 2 (- / INR 1) = (/ 2)%R.
Proof. cbn [INR]. rewrite Rinv_1, Rpower_Ropp, Rpower_1 by lra. reflexivity. Qed.
Lemma ex_cts_error : (0 <= cts_error 8 (2 ^ 30) 132 2 1 64 (IZR (2 ^ 20)) <= / 100)%R.
Proof.
  unfold cts_error, cts_rounding, row_rounding, switch_noise. cbn [error_after size_after pow]. rewrite ex_half. change (Z.of_nat 2) with 2. change (3 ^ 2) with 9. change (2 ^ 30) with 1073741824. change (2 ^ 20) with 1048576. lra.
Qed.
Example C64_CoeffToSlot_case rnd RM b : rand_stream RM rnd ->
  exists stc' st' pos' ct0 ct1 w0 w1,
    CoeffToSlot 120 3 30 RM rnd 2 None None 0%nat (repP 120 8 (fun i => ex_m i - negconv 8 (coef s4) b i), repP 120 8 b) (map Some s4) (sq_new 120 8) (sq_new 120 8) = Ok (stc', st', pos', ct0, ct1) /\
    decrypts 120 8 ct0 (coef s4) w0 /\ decrypts 120 8 ct1 (coef s4) w1 /\
    (modulus (slots 8 (IZR (2 ^ 30) ^ 1 * IZR (2 ^ 20)) w0 1 - real (IZR (ex_m 2) / IZR (2 ^ 20)))%num <= / 100)%R /\
    (modulus (slots 8 (IZR (2 ^ 30) ^ 1 * IZR (2 ^ 20)) w1 1 - real (IZR (ex_m 6) / IZR (2 ^ 20)))%num <= / 100)%R.
Proof.
  intros Hr. assert (HQ : widths 120) by (right; lia). assert (HQ2 : widths (2 * 120)) by (right; lia).
  destruct (C64_CoeffToSlot 120 3 30 RM rnd s4 HQ HQ2 ltac:(lia) ltac:(lia) Hr s4_ternary 2 1 ltac:(lia) ltac:(reflexivity) 64%R (IZR (2 ^ 20))
    (repP 120 8 (fun i => ex_m i - negconv 8 (coef s4) b i), repP 120 8 b) ex_m None None 0%nat (sq_new 120 8) (sq_new 120 8)) as (stc' & st' & pos' & ct0 & ct1 & w0 & w1 & E1 & _ & _ & H0 & H1 & H).
  - lia.
  - apply IZR_lt. lia.
  - apply cts_first.
  - apply ifft_first.
  - apply some_ct; lia.
  - apply new_object2; lia.
  - apply new_object2; lia.
  - apply ex_slots.
  - exists stc', st', pos', ct0, ct1, w0, w1. split; [exact E1|]. split; [exact H0|]. split; [exact H1|].
    assert (Hrv : reverses (3 - 1) 1 2). { apply reverses_brv; [lia|reflexivity]. }
    destruct (H 1 2 ltac:(lia) Hrv) as [B0 B1]. pose proof ex_cts_error as X. change (noise (2 ^ 3) (coef s4)) with 132 in *. change (2 ^ 3) with 8 in *. change (2 + 2 ^ (3 - 1)) with 6 in B1.
    split; [eapply Rle_trans; [exact B0|lra]|eapply Rle_trans; [exact B1|lra]].
Qed.
Example C64_round_trip_case rnd RM b : rand_stream RM rnd ->
  exists stc' st' pos' ct0 ct1 sts' st'' pos'' ct w,
    CoeffToSlot 120 3 30 RM rnd 2 None None 0%nat (repP 120 8 (fun i => ex_m i - negconv 8 (coef s4) b i), repP 120 8 b) (map Some s4) (sq_new 120 8) (sq_new 120 8) = Ok (stc', st', pos', ct0, ct1) /\
    SlotToCoeff 120 3 30 RM rnd 2 None st' pos' ct0 ct1 (map Some s4) (sq_new 120 8) = Ok (sts', st'', pos'', ct) /\
    decrypts 120 8 ct (coef s4) w /\
    forall i, 0 <= i < 8 -> (Rabs (IZR (w i) / (IZR (2 ^ 30) ^ 1 * (IZR (2 ^ 30) ^ 1 * IZR (2 ^ 20))) - IZR (ex_m i) / IZR (2 ^ 20)) <= / 20)%R.
Proof.
  intros Hr. assert (HQ : widths 120) by (right; lia). assert (HQ2 : widths (2 * 120)) by (right; lia).
  destruct (C64_round_trip 120 3 30 RM rnd s4 HQ HQ2 ltac:(lia) ltac:(lia) Hr s4_ternary 2 1 ltac:(lia) ltac:(reflexivity) 64%R (IZR (2 ^ 20))
    (repP 120 8 (fun i => ex_m i - negconv 8 (coef s4) b i), repP 120 8 b) ex_m None None None 0%nat (sq_new 120 8) (sq_new 120 8) (sq_new 120 8)) as (stc' & st' & pos' & ct0 & ct1 & sts' & st'' & pos'' & ct & w & E1 & E2 & H0 & H).
  - lia.
  - lia.
  - apply IZR_lt. lia.
  - apply cts_first.
  - apply stc_first.
  - apply ifft_first.
  - apply some_ct; lia.
  - apply new_object2; lia.
  - apply new_object2; lia.
  - apply new_object2; lia.
  - apply ex_slots.
  - exists stc', st', pos', ct0, ct1, sts', st'', pos'', ct, w. split; [exact E1|]. split; [exact E2|]. split; [exact H0|]. intros i Hi. specialize (H i Hi).
    pose proof ex_cts_error as X. change (noise (2 ^ 3) (coef s4)) with 132 in *. change (2 ^ 3) with 8 in *. eapply Rle_trans; [exact H|].
    set (e := cts_error _ _ _ _ _ _ _) in *. clearbody e. unfold stc_error, row_rounding, switch_noise. cbn [error_after size_after pow].
    change (Z.of_nat 2) with 2. change (3 ^ 2) with 9. change (2 ^ 30) with 1073741824. change (2 ^ 20) with 1048576. lra.
Qed.
Example C64_grouped_case rnd RM b : rand_stream RM rnd ->
  exists st' pos' Act' w,
    grouped_lt 120 3 30 RM rnd 2 2 2 None 0%nat
      (map (fun d => diagonals 4 2 (fun t j => cre Rops (ex_A t j)) (fun t => t) (fun _ => false)) (range 2)) (map (fun d => diagonals 4 2 (fun t j => cim Rops (ex_A t j)) (fun t => t) (fun _ => false)) (range 2))
      (repP 120 8 (fun i => ex_m i - negconv 8 (coef s4) b i), repP 120 8 b) (map Some s4) (sq_new 120 8) = Ok (st', pos', Act') /\
    decrypts 120 8 Act' (coef s4) w /\
    forall j, 0 <= j < 4 -> (modulus (slots 8 (IZR (2 ^ 30) ^ 1 * IZR (2 ^ 20)) w j - chain 4 (fun _ => matrix_of 4 2 ex_A (fun t => t)) 2 (slots 8 (IZR (2 ^ 20)) ex_m) j)%num <= / 50)%R.
Proof.
  intros Hr. assert (HQ : widths 120) by (right; lia). assert (HQ2 : widths (2 * 120)) by (right; lia).
  destruct (C64_grouped 120 3 30 RM rnd s4 HQ HQ2 ltac:(lia) ltac:(lia) Hr s4_ternary 2 ltac:(lia) 1 2 (fun _ => ex_A) (fun _ t => t) (fun _ _ => false) (fun _ _ => false) (fun _ => 2%R) 64%R (IZR (2 ^ 20))
    (repP 120 8 (fun i => ex_m i - negconv 8 (coef s4) b i), repP 120 8 b) ex_m None 0%nat (sq_new 120 8) ltac:(lia)) as (st' & pos' & Act' & w & E1 & _ & H0 & H).
  - intros d Hd t Ht. cbn. lia.
  - intros d j _ _. replace 2 with (0 + 1 + 1) at 1 by lia. rewrite !gsum_S, gsum_0 by lia. unfold ex_A. rewrite !modulus_real, Rabs_R1. cbn. lra.
  - intros d Hd. unfold group_rows. cbn [rprod]. split; [change (2 ^ 64) with 18446744073709551616|change (2 ^ 120) with 1329227995784915872903807060280344576]; change (2 ^ 30) with 1073741824; lra.
  - apply IZR_lt. lia.
  - apply ifft_first.
  - apply some_ct; lia.
  - apply new_object2; lia.
  - apply ex_slots.
  - exists st', pos', Act', w. split; [exact E1|]. split; [exact H0|]. intros j Hj. specialize (H j Hj).
    change (noise (2 ^ 3) (coef s4)) with 132 in *. change (2 ^ 3) with 8 in *. eapply Rle_trans; [exact H|].
    unfold switch_noise, group_rows. cbn [error_after size_after pow rprod].
    change (Z.of_nat 2) with 2. change (2 ^ 2) with 4. change (2 ^ 30) with 1073741824. change (2 ^ 20) with 1048576. lra.
Qed.
Print Assumptions C64_CoeffToSlot_real.
Print Assumptions C64_CoeffToSlot.
Print Assumptions C64_SlotToCoeff.
Print Assumptions C64_round_trip.
Print Assumptions C64_grouped.
Print Assumptions C64_CoeffToSlot_matrices.
Print Assumptions C64_SlotToCoeff_matrices.
