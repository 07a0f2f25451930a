(** Facts for measure_b_evalmod and EvalMod_test: coefficients of a polynomial from the mean of its slots, encoding and encryption, the messages. *)
From Coq Require Import ZArith List Bool Lia Reals Lra Ring.
From Verif Require Import Base BaseFacts Sums ZQ RQ Util GSum Rot Conv Core SpecZQ SpecPoly SpecScheme ZQFacts RQFacts ConvFacts Matrix MatrixFacts MatMulFacts DFT DFTTheory DFTFacts FFTFacts SpecMat SpecDFT SpecEnc SlotFacts Encode
  SpecEval EvalFacts EvalMod Plain PlainFacts StatFacts Properties_Conv Properties_Core Properties_Rot Properties_DFT Properties_Mat Properties_Msg Properties_Enc Properties_Plain SpecLin LinTrans LinTransFacts LinSlots BootSlots Properties_Stat Properties_MatErr.
From Verif Require Import Section4 Messages.
Import ListNotations.
Open Scope Z_scope.
Add Ring RCmeas : HR.

Lemma modulus_rsum n (f : Z -> CC) (b : Z -> R) : 0 <= n -> (forall k, 0 <= k < n -> (modulus (f k) <= b k)%R) -> (modulus (gsum n f) <= rsum n b)%R.
Proof.
  intros Hn. apply (GSum.gsum_ind n (fun n => (forall k, 0 <= k < n -> (modulus (f k) <= b k)%R) -> (modulus (gsum n f) <= rsum n b)%R)); auto.
  - intros _. rewrite !gsum_0 by lia. unfold modulus, cre, cim. cbn. rewrite Rmult_0_l, Rplus_0_l, sqrt_0. lra.
  - intros k Hk IH H. rewrite !gsum_S by lia. eapply Rle_trans; [apply modulus_add|]. apply Rplus_le_compat; [apply IH; intros; apply H; lia|apply H; lia].
Qed.
(** a coefficient is at most the mean of the moduli of the slots *)
Lemma coef_slots_mean LOGN m (b : Z -> R) : 2 <= LOGN <= 27 -> (forall j, 0 <= j < 2 ^ (LOGN - 1) -> (modulus (slot (2 ^ LOGN) m j) <= b j)%R) ->
  forall i, 0 <= i < 2 ^ LOGN -> (IZR (2 ^ (LOGN - 1)) * Rabs (m i) <= rsum (2 ^ (LOGN - 1)) b)%R.
Proof.
  intros HL H i Hi. pose proof (n_pos LOGN HL) as Hn. set (n := 2 ^ (LOGN - 1)) in *.
  assert (G : forall k, 0 <= k < n -> (modulus (mk Rops (IZR n * fst (fold_c LOGN m k))%R (IZR n * snd (fold_c LOGN m k))%R) <= rsum n b)%R).
  { intros k Hk. pose proof (inv1 LOGN HL (fold_c LOGN m) k Hk) as I1. fold n in I1. unfold RC in *. rewrite <- I1. apply (modulus_rsum n); [lia|]. intros j Hj.
    pose proof (fold_slot LOGN HL m j ltac:(lia)) as E. fold n in E.
    rewrite modulus_mul, modulus_conj, modulus_eN, Rmult_1_l. eapply Rle_trans; [|apply (H j Hj)]. apply Req_le, f_equal. symmetry. exact E. }
  assert (HR' : (0 < IZR n)%R) by (apply IZR_lt; lia).
  assert (F : forall x, (Rabs (IZR n * x) <= rsum n b -> IZR n * Rabs x <= rsum n b)%R).
  { intros x Hx. rewrite Rabs_mult, (Rabs_right (IZR n)) in Hx by lra. exact Hx. }
  assert (HN : 2 ^ LOGN = 2 * n) by (apply N2; auto).
  destruct (Z.lt_ge_cases i n).
  - apply F. eapply Rle_trans; [|apply (G i); lia]. match goal with |- (_ <= modulus ?z)%R => apply (modulus_cre z) end.
  - apply F. assert (Em : m i = snd (fold_c LOGN m (i - n))) by (unfold fold_c, mk; cbn [snd]; fold n; f_equal; lia). rewrite Em.
    eapply Rle_trans; [|apply (G (i - n)); lia]. match goal with |- (_ <= modulus ?z)%R => apply (modulus_cim z) end.
Qed.

Lemma norm1_count N s : ternary N s -> norm1 N (coef s) = count N (fun k => negb (coef s k =? 0)).
Proof.
  intros Hs. unfold norm1, count. apply zsum_ext. intros i Hi.
  assert (T : coef s i = -1 \/ coef s i = 0 \/ coef s i = 1).
  { destruct Hs as [Hl Hf]. rewrite Forall_forall in Hf. apply Hf. unfold coef. apply nth_In. lia. }
  destruct T as [->|[->| ->]]; reflexivity.
Qed.

Section Enc.
Context (LOGN Q LDe LD : Z) (HL : 2 <= LOGN <= 17) (HQ : 66 <= Q) (HLDe : 0 <= LDe <= 63) (HLD : 0 <= LD).
Context (RM : Z) (rnd : nat -> Z) (Hrnd : rand_stream RM rnd) (s : list Z) (Hs : ternary (2 ^ LOGN) s).
Local Notation N := (2 ^ LOGN).
Local Notation n := (2 ^ (LOGN - 1)).
(** Encoding at scale 2^LDe and encrypting gives a ciphertext that carries z at scale 2^LDe, and z*2^LDe/2^LD at scale 2^LD *)
Lemma enc_carries st pos (z : Z -> CC) (b : Z -> R) : ifft_static LOGN st -> (forall j, 0 <= j < n -> (modulus (z j) <= b j)%R) ->
  (rsum n b * IZR (2 ^ LDe) <= IZR n * (IZR (2 ^ 64) - 1))%R ->
  exists st' pt ct pos', encode Q LOGN st (fst (carray n z)) (snd (carray n z)) (2 ^ LDe) (rq_new Q N) = Ok (st', pt) /\ 
    enc Q N RM rnd pt (map Some s) (sq_new Q N) pos = Ok (ct, pos') /\
    carries Q N (coef s) ct (IZR (2 ^ LD)) (fun j => real (IZR (2 ^ LDe) / IZR (2 ^ LD)) * z j)%num (IZR N * (17 / 2) / IZR (2 ^ LD)).
Proof.
  intros Hst Hb Hsum. destruct (some_m LOGN ltac:(lia) z) as [m Hm].
  assert (HN : 1 <= N) by (pose proof (pow2_pos LOGN ltac:(lia)); lia). pose proof (n_pos LOGN ltac:(lia)) as Hn.
  assert (PD : (0 < IZR (2 ^ LDe))%R) by (apply IZR_lt, Z.pow_pos_nonneg; lia).
  assert (PL : (0 < IZR (2 ^ LD))%R) by (apply IZR_lt, Z.pow_pos_nonneg; lia).
  assert (Hn' : (0 < IZR n)%R) by (apply IZR_lt; lia).
  assert (MB : forall i, 0 <= i < N -> (Rabs (m i) * IZR (2 ^ LDe) <= IZR (2 ^ 64) - 1)%R).
  { intros i Hi. pose proof (coef_slots_mean LOGN m b ltac:(lia)) as C. specialize (C ltac:(intros j Hj; rewrite Hm by auto; auto) i Hi).
    apply Rmult_le_reg_l with (IZR n); auto. rewrite <- Rmult_assoc. eapply Rle_trans; [|exact Hsum]. apply Rmult_le_compat_r; [lra|exact C]. }
  assert (W64 : (IZR (2 ^ 64) <= IZR (2 ^ Q))%R) by (apply IZR_le, Z.pow_le_mono_r; lia).
  destruct (C54_encode Q LOGN ltac:(lia) ltac:(lia) (2 ^ LDe) st z m (rq_new Q N)) as (st' & pt & c & E1 & Hc & Hc2).
  { split; [apply Z.pow_pos_nonneg; lia|apply Z.pow_lt_mono_r; lia]. }
  { exact Hst. } { apply objP_object; try lia. apply objP_new. } { exact Hm. }
  { intros i Hi. specialize (MB i Hi). split; lra. }
  destruct (C35_enc_dec Q N RM rnd pt c s (sq_new Q N) pos (rq_new Q N)) as (ct & pos' & e0 & pt' & E2 & He0 & _ & _ & Hd); auto; try lia.
  { apply new_object2; lia. } { apply objP_object; try lia. apply objP_new. }
  exists st', pt, ct, pos'. split; [exact E1|]. split; [exact E2|]. exists (fun i => c i + e0 i). split; [exact Hd|].
  intros j Hj. assert (Hj' : 0 <= j < n). { rewrite (N2 LOGN ltac:(lia)) in Hj. replace (2 * n) with (n * 2) in Hj by lia. rewrite Z.div_mul in Hj by lia. exact Hj. }
  rewrite <- (Hm j Hj'). unfold slots. rewrite <- slot_scale, <- slot_sub.
  unfold Rdiv at 3. rewrite Rmult_assoc. apply modulus_slot; [lia|]. intros i Hi. destruct (Hc2 i Hi) as [Hr _]. unfold nearest in Hr. specialize (He0 i Hi).
  rewrite plus_IZR. replace ((IZR (c i) + IZR (e0 i)) / IZR (2 ^ LD) - IZR (2 ^ LDe) / IZR (2 ^ LD) * m i)%R with ((IZR (c i) - m i * IZR (2 ^ LDe) + IZR (e0 i)) * / IZR (2 ^ LD))%R by (unfold Rdiv; ring).
  rewrite Rabs_mult, (Rabs_right (/ IZR (2 ^ LD))) by (apply Rle_ge, Rlt_le, Rinv_0_lt_compat; auto). apply Rmult_le_compat_r; [apply Rlt_le, Rinv_0_lt_compat; auto|].
  eapply Rle_trans; [apply Rabs_triang|]. rewrite <- (abs_IZR (e0 i)). apply IZR_le in He0. lra.
Qed.
End Enc.

(** ** The messages of measure_b_evalmod *)
(** With e = eps_num and c = 2e+1 the entry p is (p/c - 24)*1024 + (p mod c - e)/e, and 0 for p >= 49c *)
Definition mb_I (e p : Z) : Z := if p <? 49 * (2 * e + 1) then p / (2 * e + 1) - 24 else 0.
Definition mb_d (e p : Z) : R := if p <? 49 * (2 * e + 1) then (IZR (p mod (2 * e + 1) - e) / IZR e)%R else 0%R.
Definition mb_z (e p : Z) : R := (IZR (mb_I e p) * 1024 + mb_d e p)%R.

Lemma mb_messages LOGN e : 2 <= LOGN <= 30 -> eps_num (2 ^ LOGN) = e -> 1 <= e ->
  evalmod_messages (2 ^ LOGN) = Ok (carray (2 ^ (LOGN - 1)) (fun p => real (mb_z e p)), carray (2 ^ (LOGN - 1)) (fun p => real (mb_d e p))) /\ 49 * (2 * e + 1) <= 2 ^ (LOGN - 1).
Proof.
  intros HL He1 He. set (n := 2 ^ (LOGN - 1)). assert (HN : 2 ^ LOGN = n * 2) by (unfold n; rewrite Z.mul_comm, <- Z.pow_succ_r by lia; f_equal; lia).
  assert (Hn : 2 <= n) by (unfold n; change 2 with (2 ^ 1) at 1; apply Z.pow_le_mono_r; lia).
  assert (Hn31 : n < 2 ^ 31) by (unfold n; apply Z.pow_lt_mono_r; lia).
  assert (Eq : Z.quot (2 ^ LOGN) 2 = n) by (rewrite HN; apply Z.quot_mul; lia).
  set (c := 2 * e + 1). assert (Hc : 49 * c <= n).
  { unfold eps_num in He1. rewrite Eq in He1. rewrite (Z.quot_div_nonneg n 49) in He1 by lia. pose proof (Z.div_mod n 49 ltac:(lia)). pose proof (Z.mod_pos_bound n 49 ltac:(lia)).
    assert (0 <= n / 49 - 1). { destruct (Z_le_gt_dec 0 (n / 49 - 1)); auto. assert (n / 49 - 1 = -1) by (pose proof (Z.div_pos n 49); lia). rewrite H1 in He1. cbn in He1. lia. }
    rewrite Z.quot_div_nonneg in He1 by lia. pose proof (Z.div_mod (n / 49 - 1) 2 ltac:(lia)). pose proof (Z.mod_pos_bound (n / 49 - 1) 2 ltac:(lia)). unfold c. lia. }
  split; [|exact Hc]. unfold evalmod_messages. cbv zeta. rewrite Eq, He1. rewrite !(C68_new (K := Rops)) by lia. cbn [bind].
  set (S := fun k => (gtab n (fun p => if p <? k then mb_z e p else 0%R), gtab n (fun p => if p <? k then mb_d e p else 0%R), k)).
  assert (Z0 : fst (carray (K := Rops) n (fun _ => (0%R, 0%R) : CC)) = gtab n (fun _ => 0%R)) by (rewrite carray_cvtab; reflexivity).
  assert (Z1 : snd (carray (K := Rops) n (fun _ => (0%R, 0%R) : CC)) = gtab n (fun _ => 0%R)) by (rewrite carray_cvtab; reflexivity).
  change (0%num : Cops Rops) with ((0%R, 0%R) : CC). rewrite Z0, Z1.
  rewrite (for_closed _ (fun i => S ((i + 24) * c)) _ _ _ (S (49 * c))).
  - unfold S. cbn [bind]. rewrite !carray_cvtab. unfold cvtab, real, mk, cre, cim. cbn [fst snd]. apply f_equal. apply f_equal2; apply f_equal2; try reflexivity; apply gtab_ext; intros p Hp.
    + unfold mb_z, mb_I, mb_d. fold c. destruct (p <? 49 * c); [reflexivity|]. ring.
    + unfold mb_d. fold c. destruct (p <? 49 * c); reflexivity.
  - lia.
  - unfold S. f_equal. f_equal; apply gtab_ext; intros p Hp; destruct (Z.ltb_spec p ((-24 + 24) * c)); try lia; reflexivity.
  - reflexivity.
  - intros i Hi. apply (for_closed _ (fun j => S ((i + 24) * c + (j + e)))); [lia|f_equal; lia|f_equal; unfold c; lia|].
    intros j Hj. assert (Hidx : 0 <= (i + 24) * c + (j + e) < 49 * c) by (unfold c in *; nia).
    unfold S at 1. cbn iota beta. destruct (Z.eqb_spec e 0); [lia|]. cbn [negb guard bind]. rewrite gwr_gtab by lia. cbn [bind]. rewrite gwr_gtab by lia. cbn [bind]. rewrite int_in by lia. cbn [bind].
    apply f_equal. unfold S. set (k := (i + 24) * c + (j + e)) in *.
    assert (Ek1 : k / c = i + 24) by (symmetry; apply (Z.div_unique k c (i + 24) (j + e)); unfold k, c in *; lia).
    assert (Ek2 : k mod c = j + e) by (symmetry; apply (Z.mod_unique k c (i + 24) (j + e)); unfold k, c in *; lia).
    assert (Ed : mb_d e k = (IZR j / IZR e)%R) by (unfold mb_d; fold c; destruct (Z.ltb_spec k (49 * c)); [|lia]; rewrite Ek2; f_equal; f_equal; lia).
    assert (Ei : mb_I e k = i) by (unfold mb_I; fold c; destruct (Z.ltb_spec k (49 * c)); [|lia]; rewrite Ek1; lia).
    replace ((i + 24) * c + (j + 1 + e)) with (k + 1) by (unfold k; lia).
    apply f_equal2; [apply f_equal2|reflexivity]; apply gtab_ext; intros p Hp; destruct (Z.eqb_spec p k) as [->|Hne].
    + destruct (Z.ltb_spec k (k + 1)); [|lia]. unfold mb_z. rewrite Ei, Ed. reflexivity.
    + destruct (Z.ltb_spec p (k + 1)), (Z.ltb_spec p k); try lia; reflexivity.
    + destruct (Z.ltb_spec k (k + 1)); [|lia]. rewrite Ed. reflexivity.
    + destruct (Z.ltb_spec p (k + 1)), (Z.ltb_spec p k); try lia; reflexivity.
Qed.

Lemma rsum_blocks k c (g : Z -> R) : 0 <= k -> 0 < c -> rsum (k * c) (fun p => g (p / c)) = (IZR c * rsum k g)%R.
Proof.
  intros Hk Hc. apply (GSum.gsum_ind k (fun k => rsum (k * c) (fun p => g (p / c)) = (IZR c * rsum k g)%R)); auto.
  - rewrite !gsum_0 by lia. cbn. ring.
  - intros m Hm IH. replace ((m + 1) * c) with (m * c + c) by ring. rewrite (gsum_split (K := Rops) Rlawful) by nia. rewrite IH. rewrite gsum_S by lia.
    rewrite (rsum_ext c (fun i => g ((m * c + i) / c)) (fun _ => g m)).
    + rewrite rsum_const by lia. change oadd with Rplus. cbn. ring.
    + intros i Hi. f_equal. symmetry. apply (Z.div_unique _ c m i); lia.
Qed.
Lemma rsum_49 : rsum 49 (fun i => (1024 * IZR (Z.abs (i - 24)) + 1)%R) = 614449%R.
Proof.
  assert (G : forall k : nat, (k <= 49)%nat -> rsum (Z.of_nat k) (fun i => (1024 * IZR (Z.abs (i - 24)) + 1)%R) = IZR (Sums.zsum (Z.of_nat k) (fun i => 1024 * Z.abs (i - 24) + 1))).
  { induction k as [|k IH]; intros Hk; [rewrite gsum_0 by lia; reflexivity|]. rewrite Nat2Z.inj_succ. unfold Z.succ. rewrite gsum_S by lia. rewrite IH by lia.
    unfold Sums.zsum. rewrite Sums.gsum_S by lia. rewrite plus_IZR, plus_IZR, mult_IZR. reflexivity. }
  specialize (G 49%nat ltac:(lia)). change (Z.of_nat 49) with 49 in G. rewrite G. apply f_equal. reflexivity.
Qed.
Definition mb_bound (e p : Z) : R := if p <? 49 * (2 * e + 1) then (1024 * IZR (Z.abs (p / (2 * e + 1) - 24)) + 1)%R else 0%R.
Lemma mb_d_bound e p : 1 <= e -> (Rabs (mb_d e p) <= 1)%R.
Proof.
  intros He. unfold mb_d. destruct (p <? _); [|rewrite Rabs_R0; lra]. pose proof (Z.mod_pos_bound p (2 * e + 1) ltac:(lia)).
  assert (0 < IZR e)%R by (apply IZR_lt; lia). unfold Rdiv. rewrite Rabs_mult, <- abs_IZR, (Rabs_right (/ IZR e)) by (apply Rle_ge, Rlt_le, Rinv_0_lt_compat; auto).
  apply Rmult_le_reg_r with (IZR e); auto. rewrite Rmult_assoc, Rinv_l, Rmult_1_l, Rmult_1_r by lra. apply IZR_le. lia.
Qed.
Lemma mb_z_bound e p : 1 <= e -> (modulus (real (mb_z e p)) <= mb_bound e p)%R.
Proof.
  intros He. rewrite modulus_real. unfold mb_z, mb_bound. pose proof (mb_d_bound e p He) as Hd. unfold mb_I, mb_d in *. destruct (p <? 49 * (2 * e + 1)).
  - eapply Rle_trans; [apply Rabs_triang|]. rewrite Rabs_mult, <- abs_IZR, (Rabs_right 1024) by lra. lra.
  - replace (0 * 1024 + 0)%R with 0%R by ring. rewrite Rabs_R0. lra.
Qed.
Lemma mb_I_bound e p : 1 <= e -> 0 <= p -> -24 <= mb_I e p <= 24.
Proof.
  intros He Hp. unfold mb_I. destruct (Z.ltb_spec p (49 * (2 * e + 1))); [|lia].
  assert (0 <= p / (2 * e + 1) < 49) by (split; [apply Z.div_pos; lia|apply Z.div_lt_upper_bound; lia]). lia.
Qed.
Lemma mb_sum e n : 1 <= e -> 49 * (2 * e + 1) <= n -> (rsum n (mb_bound e) <= 12540 * IZR n)%R.
Proof.
  intros He Hn. set (c := 2 * e + 1) in *. replace n with (49 * c + (n - 49 * c)) at 1 by ring. rewrite (gsum_split (K := Rops) Rlawful) by (unfold c in *; lia).
  rewrite (rsum_ext (49 * c) _ (fun p => (fun i => (1024 * IZR (Z.abs (i - 24)) + 1)%R) (p / c))).
  2:{ intros p Hp. unfold mb_bound. fold c. destruct (Z.ltb_spec p (49 * c)); [reflexivity|lia]. }
  rewrite (rsum_zero (n - 49 * c)). 2:{ intros p Hp. unfold mb_bound. fold c. destruct (Z.ltb_spec (49 * c + p) (49 * c)); [lia|reflexivity]. }
  rewrite (rsum_blocks 49 c (fun i => (1024 * IZR (Z.abs (i - 24)) + 1)%R)) by (unfold c; lia). rewrite rsum_49. change ((IZR c * 614449 + 0 <= 12540 * IZR n)%R).
  assert (0 <= IZR c)%R by (apply IZR_le; unfold c; lia). apply IZR_le in Hn. rewrite mult_IZR in Hn. lra.
Qed.
