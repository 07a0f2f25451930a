(** C100: what theorem_cts_error.cpp and example_sup_norm.cpp measure about CoeffToSlot. *)
From Coq Require Import ZArith List Bool Lia Reals Lra Ring.
From Verif Require Import Base BaseFacts Sums ZQ ZQFacts ZQFacts2 RQ RQFacts Util UtilFacts GSum Rot Conv Core SpecZQ SpecZQFacts SpecPoly SpecPolyFacts SpecScheme ConvFacts Matrix MatrixFacts MatMulFacts DFT DFTTheory DFTFacts FFTFacts SpecMat SpecDFT SpecEnc SlotFacts Encode EncodeFacts
  Properties_ZQ Properties_Conv Properties_Core Properties_Rot Properties_DFT Properties_Mat Properties_Msg Properties_Enc Properties_Plain Plain PlainFacts SpecLin LinTrans LinTransFacts LinSlots Properties_Lin Bootstrap SpecBoot BootSlots Properties_Boot SpecPipe Pipeline PipeFacts Properties_Pipe
  StatFacts Section3 Properties_Stat Properties_MatErr Properties_Serial Section4 SupFacts Messages MeasFacts Measure.
From Verif Require Import CtsMeasure.
Import ListNotations.
Open Scope Z_scope.
Add Ring RCctm : HR.

(** The number that [(double) x] gives for a coefficient x: the low 64 bits of its absolute value, with its sign *)
Definition low64 (x : Z) : Z := Z.sgn x * (Z.abs x mod 2 ^ 64).

Lemma zq_double_ok LOGQ v : 1 <= LOGQ -> - 2 ^ (LOGQ - 1) <= v < 2 ^ (LOGQ - 1) -> zq_double LOGQ (rep LOGQ v) = Ok (IZR (low64 v)).
Proof.
  intros HQ Hv. unfold zq_double. rewrite zq_to_double_rep by auto. cbn [bind]. rewrite cent_small by auto. do 2 f_equal. unfold low64. change (2 ^ 64) with W.
  destruct (Z.ltb_spec v 0).
  - rewrite Z.sgn_neg, Z.abs_neq by lia. lia.
  - destruct (Z.eq_dec v 0) as [->|]; [reflexivity|]. rewrite Z.sgn_pos, Z.abs_eq by lia. lia.
Qed.


(** decrypts to coefficients in the signed range *)
Definition signed_decrypts (LOGQ N : Z) (ct : sq) (key m : Z -> Z) : Prop := decrypts LOGQ N ct key m /\ forall i, 0 <= i < N -> - 2 ^ (LOGQ - 1) <= m i < 2 ^ (LOGQ - 1).
(** Slots of [w] at scale 2^[scale] minus the low words of the coefficients of [mm] in bit-reversed order *)
Definition e_slots (N scale LOGDELTA : Z) (w mm : Z -> Z) (rev : Z -> Z) (off j : Z) : CC :=
  (slots N (powerRZ 2 scale) w j - real (IZR (low64 (mm (rev j + off)%Z)) / IZR (2 ^ LOGDELTA)))%num.


Lemma low64_small x : Z.abs x < 2 ^ 64 -> low64 x = x.
Proof. intros H. unfold low64. rewrite Z.mod_small by (pose proof (Z.abs_nonneg x); lia). lia. Qed.
Lemma low64_far x : 2 ^ 64 <= Z.abs x -> 2 ^ 64 <= Z.abs (x - low64 x).
Proof.
  intros H. unfold low64. pose proof (Z.div_mod (Z.abs x) (2 ^ 64) ltac:(discriminate)) as E. pose proof (Z.mod_pos_bound (Z.abs x) (2 ^ 64) ltac:(reflexivity)) as B.
  assert (1 <= Z.abs x / 2 ^ 64) by (apply Z.div_le_lower_bound; [reflexivity|lia]).
  set (q := Z.abs x / 2 ^ 64) in *. set (r := Z.abs x mod 2 ^ 64) in *. change (2 ^ 64) with 18446744073709551616 in *.
  destruct (Z.lt_total x 0) as [L|[L|L]]; [rewrite Z.sgn_neg by lia|subst x; cbn in H; lia|rewrite Z.sgn_pos by lia]; lia.
Qed.
(** What a measured difference says about the error x - y/Delta of CoeffToSlot: the same if the coefficient y fits into a word, and far from it otherwise *)
Lemma word_error (x : CC) y Delta e : (0 < Delta)%R -> (modulus (x - real (IZR y / Delta))%num <= e)%R ->
  (Z.abs y < 2 ^ 64 -> (modulus (x - real (IZR (low64 y) / Delta))%num <= e)%R) /\
  (2 ^ 64 <= Z.abs y -> (IZR (2 ^ 64) / Delta - e <= modulus (x - real (IZR (low64 y) / Delta))%num)%R).
Proof.
  intros HD H. split; intros Hy; [rewrite low64_small by auto; exact H|]. apply low64_far, IZR_le in Hy. rewrite abs_IZR, minus_IZR in Hy.
  assert (T : (modulus (real ((IZR y - IZR (low64 y)) / Delta)) <= modulus (x - real (IZR (low64 y) / Delta))%num + modulus (x - real (IZR y / Delta))%num)%R).
  { replace (real ((IZR y - IZR (low64 y)) / Delta)) with ((x - real (IZR (low64 y) / Delta)) - (x - real (IZR y / Delta)))%num; [apply modulus_sub|].
    destruct x as [x1 x2]. apply RC_eq; unfold real; cbn; field; lra. }
  rewrite modulus_real in T. unfold Rdiv in T at 1. rewrite Rabs_mult, (Rabs_right (/ Delta)) in T by (apply Rle_ge, Rlt_le, Rinv_0_lt_compat; auto).
  assert (K : (IZR (2 ^ 64) * / Delta <= Rabs (IZR y - IZR (low64 y)) * / Delta)%R) by (apply Rmult_le_compat_r; [apply Rlt_le, Rinv_0_lt_compat; auto|exact Hy]). unfold Rdiv at 1. lra.
Qed.

Section Meas.
Context (LOGQ LOGN LOGDELTA LDt RM : Z) (rnd : nat -> Z) (s : list Z).
Context (HQ : widths LOGQ) (HQ2 : widths (2 * LOGQ)) (HL : 2 <= LOGN <= 17) (HD0 : 0 <= LOGDELTA < 64) (HD : 0 <= LDt < 64) (HDQ : LDt < LOGQ) (Hr : rand_stream RM rnd).
Local Notation N := (2 ^ LOGN).
Local Notation n := (2 ^ (LOGN - 1)).
Context (Hs : ternary N s).
Context (G D : nat) (HG : (1 <= G <= 4)%nat) (HGD : LOGN - 1 = Z.of_nat (G * D)).
Local Notation err z0 := (cts_error N (2 ^ LDt) (noise N (coef s)) G D z0 (IZR (2 ^ LOGDELTA))).
Local Notation scale := (LOGDELTA + Z.of_nat D * LDt).

Lemma wanted_ok (off : Z) (mm : Z -> Z) (g : Z -> R) rev : off = 0 \/ off = n -> (forall i, 0 <= i < N -> - 2 ^ (LOGQ - 1) <= mm i < 2 ^ (LOGQ - 1)) ->
  (forall j, 0 <= j < n -> reverses (LOGN - 1) j (rev j)) ->
  cts_wanted LOGQ LOGN (2 ^ LOGDELTA) off (repP LOGQ N mm) (gtab n g) = Ok (gtab n (fun j => IZR (low64 (mm (rev j + off)%Z)) / IZR (2 ^ LOGDELTA))%R).
Proof.
  intros Hoff Hm Hrev. pose proof (N2 LOGN ltac:(lia)) as HN2. pose proof (n_pos LOGN ltac:(lia)) as Hn. assert (1 <= LOGQ) by (unfold widths in HQ; lia).
  assert (Eq : Z.quot N 2 = n) by (rewrite HN2, Z.mul_comm; apply Z.quot_mul; lia). unfold cts_wanted. rewrite Eq.
  apply (fill_gtab n _ (fun i => Some (g i))); [lia|]. intros i h Hi. specialize (Hrev i Hi).
  destruct (brv_L LOGN ltac:(lia) i Hi) as (E1 & E2 & _). rewrite E1. cbn [bind]. pose proof (proj1 (reverses_brv (LOGN - 1) i (rev i) ltac:(lia)) Hrev) as E3. rewrite <- E3 in *.
  assert (B : n <= 2 ^ 16) by (apply Z.pow_le_mono_r; lia). change (2 ^ 16) with 65536 in B.
  assert (E4 : 0 <= rev i + off < N) by lia. assert (N <= 131072) by lia.
  rewrite Z.mod_small by (change (2 ^ 32) with 4294967296; lia). unfold repP. rewrite lget_tab by lia. cbn [bind]. rewrite zq_double_ok by (auto; apply Hm; lia). reflexivity.
Qed.

(** The measurement for any ciphertext: z_amb are the slots of what it decrypts to; e[0] and e[1] are the differences of the slots after CoeffToSlot and the
    low words of the coefficients.  If the coefficients fit into words the differences are bounded by the error bound for CoeffToSlot. *)
Theorem C100_cts_errors ct mm stc st st2 pos rev z0 : cts_static LOGQ LOGN LDt (Z.of_nat G) stc -> ifft_static LOGN st -> fft_static LOGN st2 ->
  signed_decrypts LOGQ N ct (coef s) mm -> (forall j, 0 <= j < n -> reverses (LOGN - 1) j (rev j)) ->
  (forall j, 0 <= j < n -> (modulus (slots N (IZR (2 ^ LOGDELTA)) mm j) <= z0)%R) -> (IZR (2 ^ scale) * (z0 + err z0) < IZR (2 ^ (LOGQ - 1)))%R ->
  exists stc' st' st2' pos' ct0 ct1 w0 w1,
    CoeffToSlot LOGQ LOGN LDt RM rnd (Z.of_nat G) stc st pos ct (map Some s) (sq_new LOGQ N) (sq_new LOGQ N) = Ok (stc', st', pos', ct0, ct1) /\
    signed_decrypts LOGQ N ct0 (coef s) w0 /\ signed_decrypts LOGQ N ct1 (coef s) w1 /\
    cts_errors LOGQ LOGN LOGDELTA LDt (Z.of_nat G) RM rnd stc st st2 pos ct (map Some s) =
      Ok (stc', st', st2', pos', (carray (K := Rops) n (slots N (IZR (2 ^ LOGDELTA)) mm),
        carray (K := Rops) n (e_slots N scale LOGDELTA w0 mm rev 0), carray (K := Rops) n (e_slots N scale LOGDELTA w1 mm rev n))) /\
    forall j, 0 <= j < n ->
      (modulus (slots N (powerRZ 2 scale) w0 j - real (IZR (mm (rev j)) / IZR (2 ^ LOGDELTA)))%num <= err z0)%R /\
      (modulus (slots N (powerRZ 2 scale) w1 j - real (IZR (mm (rev j + n)%Z) / IZR (2 ^ LOGDELTA)))%num <= err z0)%R.
Proof.
  intros Hstc Hst Hst2 [Hct Hmm] Hrev Hz Hsz. pose proof (N2 LOGN ltac:(lia)) as HN2. pose proof (n_pos LOGN ltac:(lia)) as Hn.
  assert (LQ : 1 <= LOGQ) by (unfold widths in HQ; lia). assert (Eq : Z.quot N 2 = n) by (rewrite HN2, Z.mul_comm; apply Z.quot_mul; lia).
  assert (Dp : (0 < IZR (2 ^ LOGDELTA))%R) by (apply IZR_lt, Z.pow_pos_nonneg; lia).
  assert (D1 : (1 <= D)%nat) by nia. assert (D16 : Z.of_nat D <= 16) by nia.
  assert (S30 : 0 <= scale <= 2 ^ 30) by (change (2 ^ 30) with 1073741824; nia).
  assert (Q30 : LOGQ <= 2 ^ 30) by (unfold widths in HQ; change (2 ^ 30) with 1073741824; lia).
  destruct (C64_CoeffToSlot LOGQ LOGN LDt RM rnd s HQ HQ2 HL HD Hr Hs G D HG HGD z0 (IZR (2 ^ LOGDELTA)) ct mm stc st pos (sq_new LOGQ N) (sq_new LOGQ N)) as (stc' & st' & pos' & ct0 & ct1 & w0 & w1 & E1 & Hstc' & Hst' & Hw0 & Hw1 & Hcs); auto.
  { apply new_object2; lia. } { apply new_object2; lia. }
  assert (ES : (IZR (2 ^ LDt) ^ D * IZR (2 ^ LOGDELTA))%R = IZR (2 ^ scale)).
  { rewrite pow_IZR, <- mult_IZR. f_equal. rewrite <- Z.pow_mul_r, <- Z.pow_add_r by lia. f_equal. lia. }
  rewrite ES in Hcs. assert (PS : powerRZ 2 scale = IZR (2 ^ scale)) by (apply powerRZ_2; lia).
  assert (Sp : (0 < IZR (2 ^ scale))%R) by (apply IZR_lt, Z.pow_pos_nonneg; lia).
  assert (Hrn : forall j, 0 <= j < n -> 0 <= rev j < n) by (intros j Hj; apply (Hrev j Hj)).
  assert (Hco : forall i, 0 <= i < N -> (Rabs (IZR (mm i) / IZR (2 ^ LOGDELTA)) <= z0)%R) by (apply (coef_slots LOGN); [lia|exact Hz]).
  assert (B0 : forall j, 0 <= j < n -> (modulus (slots N (IZR (2 ^ scale)) w0 j) <= z0 + err z0)%R).
  { intros j Hj. destruct (Hcs j (rev j) Hj (Hrev j Hj)) as [A _]. eapply Rle_trans; [apply modulus_near with (y := real (IZR (mm (rev j)) / IZR (2 ^ LOGDELTA)))|].
    apply Rplus_le_compat; [rewrite modulus_real; apply Hco; specialize (Hrn j Hj); lia|exact A]. }
  assert (B1 : forall j, 0 <= j < n -> (modulus (slots N (IZR (2 ^ scale)) w1 j) <= z0 + err z0)%R).
  { intros j Hj. destruct (Hcs j (rev j) Hj (Hrev j Hj)) as [_ A]. eapply Rle_trans; [apply modulus_near with (y := real (IZR (mm (rev j + n)%Z) / IZR (2 ^ LOGDELTA)))|].
    apply Rplus_le_compat; [rewrite modulus_real; apply Hco; specialize (Hrn j Hj); lia|exact A]. }
  pose proof (signed_slots LOGQ LOGN w0 _ _ ltac:(lia) LQ Sp B0 Hsz) as S0. pose proof (signed_slots LOGQ LOGN w1 _ _ ltac:(lia) LQ Sp B1 Hsz) as S1.
  assert (ON : objectP LOGQ N (rq_new LOGQ N)) by (apply objP_object; try lia; apply objP_new).
  destruct (C35_dec LOGQ N ct s mm (rq_new LOGQ N) LQ ltac:(lia) Hs ON Hct) as (pt & F1 & P1).
  destruct (C35_dec LOGQ N ct0 s w0 (rq_new LOGQ N) LQ ltac:(lia) Hs ON Hw0) as (pt0 & F2 & P2).
  destruct (C35_dec LOGQ N ct1 s w1 (rq_new LOGQ N) LQ ltac:(lia) Hs ON Hw1) as (pt1 & F3 & P3).
  destruct (carray_of_carray n (fun _ => 0%num)) as [Ca Cb].
  destruct (C55_decode LOGQ LOGN LQ ltac:(lia) (2 ^ LOGDELTA) st2 pt mm _ _ ltac:(split; [apply Z.pow_pos_nonneg; lia|apply Z.pow_lt_mono_r; lia]) Hst2 Ca Cb (conj P1 Hmm)) as [st2a G1].
  assert (Hst2a : fft_static LOGN st2a).
  { unfold decode in G1. match type of G1 with bind ?x _ = _ => destruct x as [q| | |]; try discriminate G1 end. cbn [bind] in G1. eapply fft_next; eauto. }
  destruct (C56_decode_log LOGQ LOGN LQ ltac:(lia) scale st2a pt0 w0 _ _ Q30 ltac:(lia) Hst2a Ca Cb (conj P2 S0)) as [st2b G2]. pose proof (decode_log_static _ _ _ _ _ _ _ _ _ Hst2a G2) as Hst2b.
  destruct (C56_decode_log LOGQ LOGN LQ ltac:(lia) scale st2b pt1 w1 _ _ Q30 ltac:(lia) Hst2b Ca Cb (conj P3 S1)) as [st2c G3].
  exists stc', st', st2c, pos', ct0, ct1, w0, w1. split; [exact E1|]. split; [split; auto|]. split; [split; auto|]. split.
  - unfold cts_errors. rewrite Eq. rewrite F1. cbn [bind]. rewrite !(C68_new (K := Rops)) by lia. cbn [bind].
    match goal with |- context [decode LOGQ LOGN st2 ?a ?b ?c ?d] => replace (decode LOGQ LOGN st2 a b c d) with (Ok (st2a, carray (K := Rops) n (slots N (IZR (2 ^ LOGDELTA)) mm))) by (symmetry; exact G1) end. cbn [bind].
    rewrite E1. cbn [bind]. destruct (Z.eqb_spec (Z.of_nat G) 0) as [|HG0]; [lia|]. cbn [negb guard bind].
    assert (Ed : Z.quot (LOGN - 1) (Z.of_nat G) = Z.of_nat D) by (rewrite HGD, Nat2Z.inj_mul, Z.mul_comm; apply Z.quot_mul; lia). rewrite Ed.
    rewrite int_in by (change (2 ^ 30) with 1073741824 in S30; lia). cbn [bind]. rewrite F2. cbn [bind].
    match goal with |- context [decode_log LOGQ LOGN st2a ?a ?b ?c ?d] => replace (decode_log LOGQ LOGN st2a a b c d) with (Ok (st2b, carray (K := Rops) n (slots N (powerRZ 2 scale) w0))) by (symmetry; exact G2) end. cbn [bind]. rewrite F3. cbn [bind].
    match goal with |- context [decode_log LOGQ LOGN st2b ?a ?b ?c ?d] => replace (decode_log LOGQ LOGN st2b a b c d) with (Ok (st2c, carray (K := Rops) n (slots N (powerRZ 2 scale) w1))) by (symmetry; exact G3) end. cbn [bind].
    apply holdsP_rep in P1; try lia. subst pt.
    assert (Zr : fst (carray (K := Rops) n (fun _ => (0%num : CC))) = gtab n (fun _ => 0%R)) by (rewrite carray_cvtab; reflexivity).
    assert (Zi : snd (carray (K := Rops) n (fun _ => (0%num : CC))) = gtab n (fun _ => 0%R)) by (rewrite carray_cvtab; reflexivity).
    assert (W0 : cts_wanted LOGQ LOGN (2 ^ LOGDELTA) 0 (repP LOGQ N mm) (fst (carray (K := Rops) n (fun _ => (0%num : CC)))) = Ok (gtab n (fun j => IZR (low64 (mm (rev j + 0)%Z)) / IZR (2 ^ LOGDELTA))%R)) by (rewrite Zr; apply wanted_ok; auto).
    assert (W1 : cts_wanted LOGQ LOGN (2 ^ LOGDELTA) n (repP LOGQ N mm) (fst (carray (K := Rops) n (fun _ => (0%num : CC)))) = Ok (gtab n (fun j => IZR (low64 (mm (rev j + n)%Z)) / IZR (2 ^ LOGDELTA))%R)) by (rewrite Zr; apply wanted_ok; auto).
    rewrite W0. cbn [bind]. rewrite W1. cbn [bind].
    assert (XX : forall off, (gtab n (fun j => IZR (low64 (mm (rev j + off)%Z)) / IZR (2 ^ LOGDELTA))%R, snd (carray (K := Rops) n (fun _ => (0%num : CC)))) = carray (K := Rops) n (fun j => real (IZR (low64 (mm (rev j + off)%Z)) / IZR (2 ^ LOGDELTA)))) by (intros off; rewrite Zi, carray_cvtab; reflexivity).
    rewrite !XX. rewrite !(C68_sub (K := Rops)) by (try lia; apply carray_of_carray). cbn [bind]. reflexivity.
  - intros j Hj. rewrite PS. apply (Hcs j (rev j) Hj (Hrev j Hj)).
Qed.
End Meas.
