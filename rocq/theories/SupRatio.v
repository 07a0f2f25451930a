(** C97: the ratio of the largest and the average coefficient that example_sup_norm.cpp measures. *)
From Coq Require Import ZArith List Bool Lia Reals Lra Ring.
From Verif Require Import Base BaseFacts Sums ZQ ZQFacts ZQFacts2 RQ RQFacts Util GSum Matrix MatrixFacts MatMulFacts DFT DFTTheory DFTFacts FFTFacts SpecZQ SpecZQFacts SpecPoly SpecMat SpecDFT SpecEnc SlotFacts Encode EncodeFacts Plain PlainFacts
  Properties_DFT SpecPolyFacts Properties_Rot Properties_Mat Properties_Msg Properties_Enc Properties_Plain LinSlots EvalMod SpecStat StatFacts Section3 Properties_Stat Properties_MatErr.
From Verif Require Import Section4 SupFacts Messages.
Import ListNotations.
Open Scope Z_scope.
Add Ring RCratio : HR.

Section SupRatio.
Context (LOGQ LOGN : Z) (HQ : 66 <= LOGQ) (HL : 2 <= LOGN <= 27).
Local Notation N := (2 ^ LOGN).
Local Notation n := (2 ^ (LOGN - 1)).

(** the absolute value of a coefficient, as its low word *)
Lemma low_word c : Z.abs c < 2 ^ 64 -> exists val, zq_copy LOGQ (zq_new LOGQ) (rep LOGQ c) = Ok val /\ 
  (big <- zq_is_big LOGQ val ;; val <- (if (big : bool) then zq_negate LOGQ val else Ok val) ;; rd val 0) = Ok (Z.abs c).
Proof.
  intros Hc. pose proof (len_bounds LOGQ ltac:(lia)) as Hl. assert (P : 2 ^ 65 <= 2 ^ (LOGQ - 1)) by (apply Z.pow_le_mono_r; lia). pose proof (pow2_half LOGQ ltac:(lia)) as P2.
  change (2 ^ 65) with (2 * W) in P. change (2 ^ 64) with W in Hc. assert (0 < W) by reflexivity.
  exists (rep LOGQ c). split; [apply zq_copy_rep; [lia|apply zq_new_length]|]. rewrite zq_is_big_rep by lia. cbn [bind].
  assert (RD : forall v, 0 <= v < W -> rd (rep LOGQ v) 0 = Ok v).
  { intros v Hv. unfold rep. rewrite rd_raw by lia. rewrite dg_0. rewrite (Z.mod_small v (2 ^ LOGQ)) by lia. rewrite Z.mod_small by lia. reflexivity. }
  destruct (Z.leb_spec (2 ^ (LOGQ - 1)) (c mod 2 ^ LOGQ)) as [B|B].
  - destruct (Z.neg_nonneg_cases c) as [C|C]; [|rewrite Z.mod_small in B by lia; lia]. rewrite zq_negate_rep by lia. cbn [bind]. rewrite RD by lia. f_equal. lia.
  - cbn [bind]. destruct (Z.neg_nonneg_cases c) as [C|C]; [|rewrite RD by lia; f_equal; lia].
    assert (E : c mod 2 ^ LOGQ = c + 2 ^ LOGQ) by (symmetry; apply (Z.mod_unique _ _ (-1)); lia). lia.
Qed.

Lemma ratio_of_coefs st (z : Z -> CC) st' pt (c : Z -> Z) Delta : encode LOGQ LOGN st (fst (carray n z)) (snd (carray n z)) Delta (rq_new LOGQ N) = Ok (st', pt) ->
  pt = repP LOGQ N c -> (forall i, 0 <= i < N -> Z.abs (c i) < 2 ^ 64) -> (exists i, 0 <= i < N /\ c i <> 0) ->
  exists S, sup_norm_ratio LOGQ LOGN Delta st (carray n z) = Ok (st', (S / sqrt (rsum N (fun i => IZR (c i) * IZR (c i)) / IZR N))%R) /\
    largest N (fun i => IZR (Z.abs (c i))) S /\ (1 <= S / sqrt (rsum N (fun i => IZR (c i) * IZR (c i)) / IZR N) <= sqrt (IZR N))%R.
Proof.
  intros E -> Hc (k & Hk & Ck). assert (HN : 1 <= N) by (pose proof (pow2_pos LOGN ltac:(lia)); lia). unfold sup_norm_ratio. cbv zeta.
  match goal with |- context [encode LOGQ LOGN st ?a ?b Delta ?p] => replace (encode LOGQ LOGN st a b Delta p) with (Ok (st', repP LOGQ N c)) by (symmetry; exact E) end. cbn [bind].
  match goal with |- context [for_ 0 N ?b _] =>
    destruct (for_inv b (fun k p => fst p = rsum k (fun i => IZR (c i) * IZR (c i))%R /\ largest k (fun j => IZR (Z.abs (c j))) (snd p)) 0 N (0%R, 0%R) ltac:(lia)) as ((nn & S) & EE & H1 & H2) end.
  { split; [cbn [fst]; reflexivity|apply largest_0]. }
  { intros i (a & b) Hi [A B]. cbn [fst snd] in A, B. unfold repP. rewrite lget_tab by auto. cbn [bind]. destruct (low_word (c i) (Hc i Hi)) as (val & Ev & Er). rewrite Ev. cbn [bind].
    exists (a + IZR (Z.abs (c i)) * IZR (Z.abs (c i)), if Rlt_dec b (IZR (Z.abs (c i))) then IZR (Z.abs (c i)) else b)%R. split.
    - destruct (zq_is_big LOGQ val) as [big| | |]; cbn [bind] in Er |- *; try discriminate.
      destruct (if big then zq_negate LOGQ val else Ok val) as [v2| | |]; cbn [bind] in Er |- *; try discriminate. rewrite Er. cbn [bind]. reflexivity.
    - cbn [fst snd]. split; [|apply (largest_step i (fun j => IZR (Z.abs (c j))) b); [lia|exact B]].
      rewrite A. rewrite (gsum_S (K := Rops) i) by lia. apply (f_equal2 Rplus); [reflexivity|]. rewrite <- !mult_IZR. apply f_equal. rewrite <- Z.abs_mul. apply Z.abs_eq. nia. }
  rewrite EE. cbn [bind fst snd] in *. subst nn. set (Q := rsum N (fun i => IZR (c i) * IZR (c i))%R) in *.
  assert (NR : (0 < IZR N)%R) by (apply IZR_lt; lia).
  assert (SQ : forall i, (0 <= IZR (c i) * IZR (c i))%R) by (intros; nra).
  assert (QP : (0 < Q)%R). { apply Rlt_le_trans with (IZR (c k) * IZR (c k))%R; [|apply (rsum_term N (fun i => IZR (c i) * IZR (c i))%R k); auto].
    assert (IZR (c k) <> 0)%R by (apply not_0_IZR; auto). nra. }
  assert (RQ : (0 < sqrt Q)%R) by (apply sqrt_lt_R0; auto). assert (RN : (0 < sqrt (IZR N))%R) by (apply sqrt_lt_R0; auto).
  destruct (Req_EM_T (sqrt Q) 0) as [Z0|_]; [lra|]. exists S. rewrite sqrt_div_alt by lra. split; [reflexivity|]. split; [exact H2|].
  destruct H2 as (S0 & S1 & S2). assert (RQN : (0 < sqrt Q / sqrt (IZR N))%R) by (apply Rdiv_lt_0_compat; auto).
  assert (AB : forall i, (IZR (c i) * IZR (c i) = IZR (Z.abs (c i)) * IZR (Z.abs (c i)))%R) by (intros; rewrite <- !mult_IZR; f_equal; rewrite <- Z.abs_mul; symmetry; apply Z.abs_eq; nia).
  assert (PA : forall i, (0 <= IZR (Z.abs (c i)))%R) by (intros; apply IZR_le; lia).
  split.
  - apply (Rmult_le_reg_r (sqrt Q / sqrt (IZR N))); auto. unfold Rdiv at 2. rewrite Rmult_assoc, Rinv_l, Rmult_1_l, Rmult_1_r by lra.
    apply (Rmult_le_reg_r (sqrt (IZR N))); auto. unfold Rdiv. rewrite Rmult_assoc, Rinv_l, Rmult_1_r by lra.
    rewrite <- (sqrt_square S) by auto. rewrite <- sqrt_mult_alt by nra. apply sqrt_le_1_alt. rewrite Rmult_comm. rewrite <- rsum_const by lia. unfold Q. apply rsum_le. intros i Hi. rewrite AB. specialize (S1 i Hi). apply Rmult_le_compat; auto.
  - apply (Rmult_le_reg_r (sqrt Q / sqrt (IZR N))); auto. unfold Rdiv at 1. rewrite Rmult_assoc, Rinv_l, Rmult_1_r by lra. replace (sqrt (IZR N) * (sqrt Q / sqrt (IZR N)))%R with (sqrt Q) by (field; lra).
    rewrite <- (sqrt_square S) by auto. apply sqrt_le_1_alt. destruct S2 as [->|(j & Hj & ->)]; [lra|]. rewrite <- AB. apply (rsum_term N (fun i => IZR (c i) * IZR (c i))%R j); auto.
Qed.

(** For every message that does not round to 0 the program's ratio is that of the rounded coefficients c of the polynomial whose slots are z,
    the largest divided by the root of the mean square; it lies between 1 and sqrt N. *)
Theorem C97_ratio : forall st (z : Z -> CC) Delta B, 0 < Delta < 2 ^ 64 -> ifft_static LOGN st ->
  (forall j, 0 <= j < n -> (modulus (z j) <= B)%R) -> (B * IZR Delta <= IZR (2 ^ 64) - 1)%R -> (exists j, 0 <= j < n /\ (IZR N / (2 * IZR Delta) < modulus (z j))%R) ->
  exists st' m c S, (forall j, 0 <= j < n -> slot N m j = z j) /\ (forall i, 0 <= i < N -> nearest (m i * IZR Delta) (c i)) /\ 
    largest N (fun i => IZR (Z.abs (c i))) S /\
    sup_norm_ratio LOGQ LOGN Delta st (carray n z) = Ok (st', (S / sqrt (rsum N (fun i => IZR (c i) * IZR (c i)) / IZR N))%R) /\
    (1 <= S / sqrt (rsum N (fun i => IZR (c i) * IZR (c i)) / IZR N) <= sqrt (IZR N))%R.
Proof.
  intros st z Delta B HD Hst HB HBD (j & Hj & Hz). destruct (some_m LOGN ltac:(lia) z) as [m Hm]. assert (HN : 1 <= N) by (pose proof (pow2_pos LOGN ltac:(lia)); lia).
  assert (PD : (0 < IZR Delta)%R) by (apply IZR_lt; lia).
  assert (MB : forall i, 0 <= i < N -> (Rabs (m i) * IZR Delta <= IZR (2 ^ 64) - 1)%R).
  { intros i Hi. eapply Rle_trans; [|exact HBD]. apply Rmult_le_compat_r; [lra|]. apply (coef_slots LOGN m B ltac:(lia)); auto. intros j' Hj'. rewrite Hm by auto. auto. }
  assert (W64 : (IZR (2 ^ 64) <= IZR (2 ^ LOGQ))%R) by (apply IZR_le, Z.pow_le_mono_r; lia).
  destruct (C54_encode LOGQ LOGN ltac:(lia) ltac:(lia) Delta st z m (rq_new LOGQ N)) as (st' & pt & c & E1 & Hc & Hc2); auto.
  { apply objP_object; try lia. apply objP_new. }
  { intros i Hi. specialize (MB i Hi). split; lra. }
  apply holdsP_rep in Hc; try lia.
  destruct (ratio_of_coefs st z st' pt c Delta E1 Hc) as (S & ES & HS & HR).
  - intros i Hi. destruct (Hc2 i Hi) as [_ ->]. rewrite <- (scaled_abs LOGN (m i) Delta) by (apply HD). apply scaled_bound; [apply HD|]. specialize (MB i Hi). lra.
  - assert (D : (exists i, 0 <= i < N /\ c i <> 0) \/ forall i, 0 <= i < N -> c i = 0).
    { clear -HN. assert (G : forall k, 0 <= k -> (exists i, 0 <= i < k /\ c i <> 0) \/ forall i, 0 <= i < k -> c i = 0).
      { apply natlike_ind; [right; intros; lia|]. intros k Hk [(i & Hi & C)|A]; [left; exists i; split; [lia|exact C]|]. destruct (Z.eq_dec (c k) 0) as [Z0|Z0]; [|left; exists k; split; [lia|exact Z0]].
        right. intros i Hi. destruct (Z.eq_dec i k) as [->|]; [exact Z0|apply A; lia]. }
      apply G. lia. }
    destruct D as [D|D]; [exact D|]. exfalso. assert (modulus (z j) <= IZR N * (/ (2 * IZR Delta)))%R; [|unfold Rdiv in Hz; lra].
    rewrite <- (Hm j Hj). apply modulus_slot; [lia|]. intros i Hi. destruct (Hc2 i Hi) as [Hn _]. rewrite D in Hn by auto. unfold nearest in Hn. rewrite Rminus_0_l, Rabs_Ropp, Rabs_mult, (Rabs_right (IZR Delta)) in Hn by lra.
    apply (Rmult_le_reg_r (IZR Delta)); auto. eapply Rle_trans; [exact Hn|]. right. field. lra.
  - exists st', m, c, S. split; [exact Hm|]. split; [intros i Hi; apply Hc2; exact Hi|]. split; [exact HS|]. split; [exact ES|exact HR].
Qed.
End SupRatio.

(** The bound C2 = 5 that the program prints next to the ratio does not hold for all messages: with 1/2 in every slot the ratio is sqrt N, for
    LOGN = 9 more than 22.  The message is one that set_random_message can draw. *)
Lemma slot_const N x j : 0 < N -> slot N (fun i => if i =? 0 then x else 0%R) j = real x.
Proof.
  intros HN. unfold slot, evaluate. rewrite (gsum_single (K := CC) (Clawful Rlawful) N 0); [|lia|].
  - cbn [Z.eqb Z.to_nat cpow]. ring.
  - intros i Hi H0. destruct (Z.eqb_spec i 0); [lia|]. change (real 0) with (0%num : CC). ring.
Qed.
Theorem C97_C2_refuted : exists z st' r, (forall j, 0 <= j < 2 ^ 8 -> (Rabs (fst (z j)) < 1 / sqrt 2)%R /\ (Rabs (snd (z j)) < 1 / sqrt 2)%R) /\
  sup_norm_ratio 1450 9 (2 ^ 50) None (carray (K := Rops) (2 ^ 8) z) = Ok (st', r) /\ (22 < r)%R.
Proof.
  set (m := fun i => if i =? 0 then (/ 2)%R else 0%R). exists (fun _ => real (/ 2)).
  destruct (C54_encode 1450 9 ltac:(lia) ltac:(lia) (2 ^ 50) None (fun _ => real (/ 2)) m (rq_new 1450 (2 ^ 9))) as (st' & pt & c & E1 & Hc & Hc2).
  { split; reflexivity. } { apply ifft_first. } { apply objP_object; try lia. apply objP_new. } { intros j Hj. apply slot_const. reflexivity. }
  { intros i Hi. assert (Rabs (m i) <= / 2)%R by (unfold m; destruct (i =? 0); [rewrite Rabs_right; lra|rewrite Rabs_R0; lra]).
    assert (B : (Rabs (m i) * IZR (2 ^ 50) <= IZR (2 ^ 50))%R) by (assert (0 < IZR (2 ^ 50))%R by (apply IZR_lt; reflexivity); nra).
    assert (IZR (2 ^ 50) <= IZR (2 ^ 64) - 1)%R by (rewrite <- (minus_IZR _ 1); apply IZR_le; vm_compute; congruence). 
    assert (IZR (2 ^ 64) <= IZR (2 ^ 1450))%R by (apply IZR_le, Z.pow_le_mono_r; lia). split; lra. }
  apply holdsP_rep in Hc; try lia.
  assert (C : forall i, 0 <= i < 2 ^ 9 -> c i = if i =? 0 then 2 ^ 49 else 0).
  { intros i Hi. destruct (Hc2 i Hi) as [_ ->]. unfold m. destruct (i =? 0); [|rewrite Rmult_0_l; apply (rround_int 0)].
    replace (/ 2 * IZR (2 ^ 50))%R with (IZR (2 ^ 49)); [apply rround_int|]. change (2 ^ 50) with (2 * 2 ^ 49). rewrite mult_IZR. lra. }
  destruct (ratio_of_coefs 1450 9 ltac:(lia) ltac:(lia) None (fun _ => real (/ 2)) st' pt c (2 ^ 50) E1 Hc) as (S & ES & HS & _).
  { intros i Hi. rewrite C by auto. destruct (i =? 0); reflexivity. } { exists 0. split; [lia|]. rewrite C by lia. cbn [Z.eqb]. lia. }
  eexists st', _. split; [|split; [exact ES|]].
  - intros _ _. unfold real, mk. cbn [fst snd]. assert (S2 : (0 < sqrt 2 < 2)%R). { split; [apply sqrt_lt_R0; lra|]. rewrite <- (sqrt_square 2) at 2 by lra. apply sqrt_lt_1_alt. lra. }
    assert (/ 2 < / sqrt 2)%R by (apply Rinv_lt_contravar; nra). rewrite Rabs_R0, Rabs_right by lra. split; [lra|]. unfold Rdiv. rewrite Rmult_1_l. lra.
  - destruct HS as (_ & S1 & _). specialize (S1 0 ltac:(lia)). cbv beta in S1. rewrite C in S1 by lia. cbn [Z.eqb] in S1. change (Z.abs (2 ^ 49)) with (2 ^ 49) in S1.
    set (P := IZR (2 ^ 49)) in *. assert (PP : (0 < P)%R) by (apply IZR_lt; reflexivity).
    assert (EQ : rsum (2 ^ 9) (fun i => IZR (c i) * IZR (c i))%R = (P * P)%R).
    { rewrite (gsum_single (K := Rops) Rlawful (2 ^ 9) 0); [rewrite C by lia; reflexivity|lia|]. intros i Hi H0. rewrite C by auto. destruct (Z.eqb_spec i 0); [lia|]. change (0 * 0 = 0)%R. ring. }
    rewrite EQ. set (Q := sqrt (P * P / IZR (2 ^ 9))). assert (QP : (0 < Q)%R) by (apply sqrt_lt_R0; change (IZR (2 ^ 9)) with 512%R; apply Rdiv_lt_0_compat; nra).
    assert (Q22 : (22 * Q < P)%R).
    { rewrite <- (sqrt_square P) by lra. rewrite <- (sqrt_square 22) by lra. unfold Q. rewrite <- sqrt_mult_alt by lra. apply sqrt_lt_1_alt. change (IZR (2 ^ 9)) with 512%R. assert (0 < P * P)%R by nra. lra. }
    apply (Rmult_lt_reg_r Q); auto. unfold Rdiv. rewrite Rmult_assoc, Rinv_l, Rmult_1_r by lra. lra.
Qed.

(** A message with different slots that meets the hypotheses of C97_ratio *)
Example C97_case : let z := fun j => circle (IZR j / 256 * PI) in
  (forall j, 0 <= j < 2 ^ 8 -> (modulus (z j) <= 1)%R) /\ (1 * IZR (2 ^ 50) <= IZR (2 ^ 64) - 1)%R /\ (exists j, 0 <= j < 2 ^ 8 /\ (IZR (2 ^ 9) / (2 * IZR (2 ^ 50)) < modulus (z j))%R).
Proof.
  intros z. assert (S2 : (1 < sqrt 2 < 2)%R). { split; [rewrite <- sqrt_1; apply sqrt_lt_1_alt; lra|]. rewrite <- (sqrt_square 2) at 2 by lra. apply sqrt_lt_1_alt. lra. }
  assert (M : forall j, modulus (z j) = (/ sqrt 2)%R) by (intros; apply circle_modulus). split; [|split].
  - intros j _. rewrite M. rewrite <- Rinv_1. apply Rinv_le_contravar; lra.
  - rewrite Rmult_1_l. change (IZR (2 ^ 64)) with (IZR (2 ^ 64)). rewrite <- (minus_IZR _ 1). apply IZR_le. vm_compute. congruence.
  - exists 0. split; [lia|]. rewrite M. assert (/ 2 < / sqrt 2)%R by (apply Rinv_lt_contravar; nra). eapply Rle_lt_trans; [|exact H].
    change (2 ^ 50) with (2 ^ 9 * 2 ^ 41). rewrite mult_IZR. change (IZR (2 ^ 9)) with 512%R. assert (1 <= IZR (2 ^ 41))%R by (apply IZR_le; vm_compute; congruence).
    replace (512 / (2 * (512 * IZR (2 ^ 41))))%R with (/ 2 * / IZR (2 ^ 41))%R by (field; lra). assert (/ IZR (2 ^ 41) <= 1)%R by (rewrite <- Rinv_1; apply Rinv_le_contravar; lra). lra.
Qed.
