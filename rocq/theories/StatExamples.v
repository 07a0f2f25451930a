(** The assumptions of C88, C89 and C90 can be met for every LOGN, Diag and Delta >= N: an average over the signs of errors of square 1/12. *)
From Coq Require Import ZArith List Bool Lia Reals Lra Ring Psatz.
From Verif Require Import Base BaseFacts GSum DFT DFTFacts SpecDFT SpecEnc SlotFacts SpecMat Encode EncodeFacts FFTFacts Properties_DFT ZQFacts2 SpecZQ RQ Plain PlainFacts LinSlots BootFacts Properties_Plain.
From Verif Require Import Section3 SpecStat StatFacts Properties_Stat Properties_MatErr Properties_Serial.
Import ListNotations.
Open Scope Z_scope.

Definition every {Omega : Type} (f : Omega -> R) : Prop := True.
(** the average over 0 .. 2^K-1 *)
Definition average (K : Z) (f : Z -> R) : R := (/ IZR (2 ^ K) * rsum (2 ^ K) f)%R.
Lemma average_exp K : 0 <= K -> expectation every (average K).
Proof.
  intros HK. assert (HP : 0 < 2 ^ K) by (apply Z.pow_pos_nonneg; lia). assert (HR' : (0 < IZR (2 ^ K))%R) by (apply IZR_lt; auto). unfold average. split; unfold every; intros; try split; auto.
  - rewrite rsum_const by lia. field. lra.
  - rewrite rsum_add. ring.
  - rewrite rsum_scale. ring.
  - f_equal. apply rsum_ext. intros i Hi. symmetry. auto.
  - apply Rmult_le_pos; [left; apply Rinv_0_lt_compat; auto|]. rewrite <- (rsum_zero (2 ^ K) (fun _ => 0%R)) by auto. apply rsum_le. auto.
Qed.

Lemma rsum_split a b (f : Z -> R) : 0 <= a -> 0 <= b -> rsum (a + b) f = (rsum a f + rsum b (fun i => f (a + i)%Z))%R.
Proof. exact (gsum_split Rlawful a b f). Qed.
(** the sign of the errors *)
Definition sgn (w a : Z) : R := if Z.testbit w a then 1%R else (-1)%R.
Lemma sgn_sq w a : (sgn w a * sgn w a = 1)%R.
Proof. unfold sgn. destruct (Z.testbit w a); lra. Qed.
Lemma sgn_low K w a : 0 <= a < K -> 0 <= w < 2 ^ K -> sgn (2 ^ K + w) a = sgn w a.
Proof.
  intros Ha Hw. unfold sgn. f_equal. rewrite <- (Z.mod_pow2_bits_low (2 ^ K + w) K a) by lia.
  replace (2 ^ K + w) with (w + 1 * 2 ^ K) by lia. rewrite Z.mod_add, Z.mod_small by lia. reflexivity.
Qed.
Lemma sgn_new K w : 0 <= K -> 0 <= w < 2 ^ K -> sgn w K = (-1)%R /\ sgn (2 ^ K + w) K = 1%R.
Proof.
  intros HK Hw. unfold sgn. rewrite !Z.testbit_eqb by lia. rewrite Z.div_small by auto.
  replace (2 ^ K + w) with (w + 1 * 2 ^ K) by lia. rewrite Z.div_add, Z.div_small by lia. auto.
Qed.
Lemma sgn_sum K a b : 0 <= K -> 0 <= a < K -> 0 <= b < K -> a <> b -> rsum (2 ^ K) (fun w => sgn w a * sgn w b)%R = 0%R.
Proof.
  intros HK. revert K HK a b. apply (natlike_ind (fun K => forall a b, 0 <= a < K -> 0 <= b < K -> a <> b -> rsum (2 ^ K) (fun w => sgn w a * sgn w b)%R = 0%R)); [lia|].
  intros K HK IH a b Ha Hb Hne. unfold Z.succ. assert (HP : 0 < 2 ^ K) by (apply Z.pow_pos_nonneg; lia). replace (2 ^ (K + 1)) with (2 ^ K + 2 ^ K) by (rewrite Z.pow_add_r by lia; lia).
  rewrite rsum_split, <- rsum_add by lia.
  destruct (Z.eq_dec a K) as [->|Ha']; [|destruct (Z.eq_dec b K) as [->|Hb']].
  - apply rsum_zero. intros w Hw. destruct (sgn_new K w HK Hw) as [-> ->]. rewrite (sgn_low K w b) by lia. ring.
  - apply rsum_zero. intros w Hw. destruct (sgn_new K w HK Hw) as [-> ->]. rewrite (sgn_low K w a) by lia. ring.
  - transitivity (rsum (2 ^ K) (fun w => 2 * (sgn w a * sgn w b))%R).
    + apply rsum_ext. intros w Hw. rewrite !(sgn_low K w) by lia. ring.
    + rewrite rsum_scale, IH by lia. apply Rmult_0_r.
Qed.

(** the numbers whose rounding errors at Delta are these *)
Definition noise (N Delta : Z) (w k i : Z) : R := (sgn w (k * N + i) * sqrt (/ 12) / IZR Delta)%R.
Lemma root12 : (0 < sqrt (/ 12) < / 2)%R.
Proof.
  split; [apply sqrt_lt_R0; lra|]. apply Rsqr_incrst_0; [|apply sqrt_pos|lra]. rewrite Rsqr_sqrt by lra. unfold Rsqr. lra.
Qed.
Lemma noise_abs N Delta w k i : 0 < Delta -> (Rabs (noise N Delta w k i) <= / IZR Delta)%R.
Proof.
  intros HD. assert (0 < IZR Delta)%R by (apply IZR_lt; auto). pose proof root12. unfold noise, Rdiv. rewrite !Rabs_mult, (Rabs_right (sqrt _)), (Rabs_right (/ _)) by (try (left; apply Rinv_0_lt_compat); lra).
  assert (Rabs (sgn w (k * N + i)) = 1)%R as -> by (unfold sgn; destruct (Z.testbit _ _); [apply Rabs_R1|rewrite Rabs_left; lra]).
  assert (0 < / IZR Delta)%R by (apply Rinv_0_lt_compat; auto). nra.
Qed.
Lemma noise_rounding N Delta w k i : 0 < Delta -> rounding Delta (noise N Delta w k) i = (sgn w (k * N + i) * sqrt (/ 12))%R.
Proof.
  intros HD. assert (0 < IZR Delta)%R by (apply IZR_lt; auto). pose proof root12. unfold rounding, noise.
  replace (sgn w (k * N + i) * sqrt (/ 12) / IZR Delta * IZR Delta)%R with (sgn w (k * N + i) * sqrt (/ 12))%R by (field; lra).
  set (s := sqrt (/ 12)) in *. assert (HR0 : rround s = 0). { rewrite rround_pos by lra. destruct (base_Int_part (s + / 2)) as [B1 B2]. assert (Int_part (s + / 2) < 1) by (apply lt_IZR; lra). assert (-1 < Int_part (s + / 2)) by (apply lt_IZR; lra). lia. }
  assert (rround (sgn w (k * N + i) * s) = 0) as ->; [|ring]. unfold sgn. destruct (Z.testbit _ _); [rewrite Rmult_1_l; auto|]. replace (-1 * s)%R with (- s)%R by ring. rewrite rround_opp, HR0. reflexivity.
Qed.
Lemma noise_uncorrelated N Delta S : 0 < N -> 0 < Delta -> 0 <= S -> uncorrelated every (average (S * N)) S N (/ 12) (fun w k => rounding Delta (noise N Delta w k)).
Proof.
  intros HN HD HS s i t j Hs Hi Ht Hj. split; [exact I|]. unfold average. assert (HK : 0 <= S * N) by nia. assert (HP : 0 < 2 ^ (S * N)) by (apply Z.pow_pos_nonneg; lia). assert (HR' : (0 < IZR (2 ^ (S * N)))%R) by (apply IZR_lt; auto).
  transitivity (/ IZR (2 ^ (S * N)) * (/ 12 * rsum (2 ^ (S * N)) (fun w => sgn w (s * N + i) * sgn w (t * N + j))))%R.
  { f_equal. rewrite <- rsum_scale. apply rsum_ext. intros w Hw. rewrite !noise_rounding by auto. rewrite <- (sqrt_sqrt (/ 12)) at 3 by lra. ring. }
  destruct (Z.eqb_spec s t) as [<-|Hst]; [destruct (Z.eqb_spec i j) as [<-|Hij]|]; cbn [andb].
  - rewrite (rsum_ext _ _ (fun _ => 1%R)) by (intros; apply sgn_sq). rewrite rsum_const by lia. field. lra.
  - rewrite sgn_sum by nia. ring.
  - rewrite sgn_sum; [ring|nia|nia|nia|]. intros Heq. apply Hst. nia.
Qed.

(** the case LOGN = 3, Diag = 2, with the constant message 1 *)
Example conv_error_case : exists expected measured, (forall w, exists st', conv_error 3 (2 ^ 50) None (carray 4 (fun _ => real 1)) (carray 4 (slot 8 (noise 8 (2 ^ 50) w 0))) = Ok (st', (expected, measured w))) /\
  average 8 measured = expected.
Proof.
  destruct (C88_conv_error_mean 3 ltac:(lia) every (average (1 * 8)) (2 ^ 50) None (fun _ => real 1) (fun w => slot 8 (noise 8 (2 ^ 50) w 0)) (fun w => noise 8 (2 ^ 50) w 0)) as (x & m & H1 & _ & H3).
  - apply average_exp. lia.
  - constructor.
  - reflexivity.
  - intros s i t j Hs Hi Ht Hj. pose proof (noise_uncorrelated 8 (2 ^ 50) 1 ltac:(lia) ltac:(lia) ltac:(lia) s i t j Hs Hi Ht Hj) as H. replace s with 0 in * by lia. replace t with 0 in * by lia. exact H.
  - exists x, m. split; [exact H1|exact H3].
Qed.
Example conv_sum_error_case : exists expected measured, (forall w, exists st', conv_sum_error 3 2 (2 ^ 50) None (carray 4 (fun _ => real 1))
    (map (fun k => carray 4 (slot 8 (noise 8 (2 ^ 50) w k))) (range 2)) = Ok (st', (expected, measured w))) /\ average 16 measured = expected.
Proof.
  destruct (C89_conv_sum_error_mean 3 ltac:(lia) every (average (2 * 8)) 2 (2 ^ 50) None (fun _ => real 1) (fun w k => slot 8 (noise 8 (2 ^ 50) w k)) (noise 8 (2 ^ 50))) as (x & m & H1 & _ & H3).
  - apply average_exp. lia.
  - lia.
  - reflexivity.
  - constructor.
  - reflexivity.
  - apply noise_uncorrelated; lia.
  - exists x, m. split; [exact H1|exact H3].
Qed.
Lemma noise_slot LOGN Delta w k j : 0 <= LOGN -> 2 ^ LOGN <= Delta -> (modulus (slot (2 ^ LOGN) (noise (2 ^ LOGN) Delta w k) j) <= 1)%R.
Proof.
  intros HL HD. assert (HP : 0 < 2 ^ LOGN) by (apply Z.pow_pos_nonneg; lia). assert (0 < IZR Delta)%R by (apply IZR_lt; lia).
  eapply Rle_trans; [apply (modulus_slot (2 ^ LOGN) _ j (/ IZR Delta)); [lia|intros; apply noise_abs; lia]|].
  apply (Rmult_le_reg_r (IZR Delta)); [auto|]. rewrite Rmult_assoc, Rinv_l, Rmult_1_r, Rmult_1_l by lra. apply IZR_le. auto.
Qed.
Lemma modulus_1 : (modulus (real 1) <= 1)%R.
Proof. rewrite modulus_real, Rabs_R1. lra. Qed.
(** the parameters of include/experiment/section3.h:6-9 and theorem_single_matmul_error.cpp:50-51 *)
Example single_matmul_case LOGN : LOGN = 15 \/ LOGN = 16 ->
  exists expected measured, (forall w, exists st' st2', single_matmul_error 1450 LOGN 16 (2 ^ 50) 50 None None (carray (2 ^ (LOGN - 1)) (fun _ => real 1))
    (map (fun k => carray (2 ^ (LOGN - 1)) (slot (2 ^ LOGN) (noise (2 ^ LOGN) (2 ^ 50) w k))) (range 16)) = Ok (st', st2', (expected, measured w))) /\
    average (16 * 2 ^ LOGN) (fun w => measured w * measured w)%R = (expected * expected)%R /\ (average (16 * 2 ^ LOGN) measured <= expected)%R.
Proof.
  intros H. assert (HP : 0 < 2 ^ LOGN) by (apply Z.pow_pos_nonneg; lia). assert (HB : 2 ^ LOGN <= 2 ^ 50) by (apply Z.pow_le_mono_r; lia).
  destruct (C90_single_matmul_mean 1450 LOGN ltac:(unfold Properties_Conv.widths; lia) ltac:(lia) 16 50 ltac:(lia) ltac:(lia) ltac:(destruct H as [-> | ->]; reflexivity) ltac:(destruct H as [-> | ->]; reflexivity)
    every (average (16 * 2 ^ LOGN)) None None (fun _ => real 1) (fun w k => slot (2 ^ LOGN) (noise (2 ^ LOGN) (2 ^ 50) w k)) (noise (2 ^ LOGN) (2 ^ 50))) as (x & m & H1 & _ & H3 & H4).
  - apply average_exp. lia.
  - constructor.
  - constructor.
  - intros. apply modulus_1.
  - intros. apply noise_slot; [lia|exact HB].
  - reflexivity.
  - apply noise_uncorrelated; [auto|reflexivity|lia].
  - exists x, m. split; [exact H1|]. split; [exact H3|]. apply H4. exact I.
Qed.

(** the diagonals of the stages and the reversals of C91 exist *)
Lemma stage_polynomials LOGN : 2 <= LOGN <= 17 -> exists v : Z -> Z -> Z -> R,
  forall d t j, 0 <= d < LOGN - 1 -> 0 <= t < 3 -> 0 <= j < 2 ^ (LOGN - 1) -> slot (2 ^ LOGN) (v d t) j = stage_diagonal LOGN d t j.
Proof.
  intros HL. destruct (some_diags LOGN HL (3 * (LOGN - 1)) (fun k => stage_diagonal LOGN (k / 3) (k mod 3)) ltac:(lia)) as [v Hv].
  exists (fun d t => v (3 * d + t)). intros d t j Hd Ht Hj. rewrite Hv by lia. f_equal; [symmetry; apply Z.div_unique with t; lia|symmetry; apply Z.mod_unique with d; lia].
Qed.
Lemma reversals LOGN : 2 <= LOGN -> exists rev : Z -> Z, forall j, 0 <= j < 2 ^ (LOGN - 1) -> SpecBoot.reverses (LOGN - 1) j (rev j).
Proof. intros HL. exists (UtilFacts.brv (Z.to_nat (LOGN - 1))). intros j Hj. apply BootSlots.reverses_brv; [lia|reflexivity]. Qed.

(** theorem_serial_matmul_error.cpp:53-56: LOGN is 15 and 16.  No message with entries up to 1 has an error above 6 sqrt N times the bound printed. *)
Theorem C91_serial_matmul_parameters LOGN st st2 (z : Z -> CC) : LOGN = 15 \/ LOGN = 16 -> ifft_static LOGN st -> fft_static LOGN st2 ->
  (forall j, 0 <= j < 2 ^ (LOGN - 1) -> (modulus (z j) <= 1)%R) ->
  exists st' st2' expected bound measured, serial_matmul_error 1450 LOGN (2 ^ 50) 50 st st2 (carray (2 ^ (LOGN - 1)) z) = Ok (st', st2', (expected, bound, measured)) /\
    (0 <= measured <= 6 * sqrt (IZR (2 ^ LOGN)) * bound)%R.
Proof.
  intros HL Hst Hst2 Hz.
  destruct (some_m LOGN ltac:(lia) z) as [c Hc].
  destruct (stage_polynomials LOGN ltac:(lia)) as [v Hv]. destruct (reversals LOGN ltac:(lia)) as [rev Hrev].
  destruct (C91_serial_matmul_max 1450 LOGN ltac:(unfold Properties_Conv.widths; lia) ltac:(lia) 50 ltac:(lia) st st2 z c v rev ltac:(destruct HL as [-> | ->]; vm_compute; reflexivity) Hst Hst2 Hz Hc Hv Hrev)
    as (st' & st2' & x & b & m & E & Ex & Eb & (cc & _ & _ & H0) & H1).
  assert (H0' : (0 <= m)%R) by (rewrite H0; apply norm2_pos). clear H0. rename H0' into H0.
  assert (Hb : (0 <= b)%R).
  { rewrite Eb, Ex. apply Rmult_le_pos; [apply sqrt_pos|]. repeat apply Rmult_le_pos; try apply sqrt_pos; [left; apply Rinv_0_lt_compat, IZR_lt; reflexivity|apply pow_le, sqrt_pos]. }
  exists st', st2', x, b, m. split; [exact E|]. split; [exact H0|]. eapply Rle_trans; [exact H1|].
  set (s := sqrt (IZR (2 ^ LOGN))) in *. set (f := (1 + 3 * IZR (2 ^ LOGN) / (2 * sqrt 2 * IZR (2 ^ 50)))%R) in *.
  assert (S2 : (1 <= sqrt 2)%R) by (rewrite <- sqrt_1; apply sqrt_le_1_alt; lra).
  assert (Hf : (1 <= f <= 1 + / 1024)%R).
  { assert (HN : (0 < IZR (2 ^ LOGN) <= 65536)%R) by (destruct HL as [-> | ->]; split; (apply IZR_lt || apply IZR_le); lia).
    unfold f. change (IZR (2 ^ 50)) with 1125899906842624%R. set (N := IZR (2 ^ LOGN)) in *. set (q := sqrt 2) in *. clearbody N q.
    assert (HX : (0 < / (2 * q * 1125899906842624) <= / 2251799813685248)%R) by (split; [apply Rinv_0_lt_compat; lra|apply Rinv_le_contravar; lra]).
    unfold Rdiv. set (y := (/ (2 * q * 1125899906842624))%R) in *. clearbody y. split; [nra|]. assert (3 * N * y <= 196608 * / 2251799813685248)%R by nra. lra. }
  assert (HF : (0 <= f ^ Z.to_nat (LOGN - 2) <= 2)%R).
  { split; [apply pow_le; lra|]. apply Rle_trans with ((1 + / 1024) ^ Z.to_nat (LOGN - 2))%R; [apply pow_incr; lra|]. destruct HL as [-> | ->]; [change (Z.to_nat (15 - 2)) with 13%nat|change (Z.to_nat (16 - 2)) with 14%nat]; cbn [pow]; lra. }
  assert (Hs : (0 <= s)%R) by apply sqrt_pos. set (F := (f ^ Z.to_nat (LOGN - 2))%R) in *. clearbody F s. 
  assert (0 <= s * b)%R by (apply Rmult_le_pos; auto). replace (3 * s * F * b)%R with (3 * F * (s * b))%R by ring. replace (6 * s * b)%R with (6 * (s * b))%R by ring. nra.
Qed.
Example serial_matmul_case : exists st' st2' expected bound measured,
  serial_matmul_error 1450 15 (2 ^ 50) 50 None None (carray (2 ^ 14) (fun _ => real 1)) = Ok (st', st2', (expected, bound, measured)) /\ (0 <= measured <= 6 * sqrt (IZR (2 ^ 15)) * bound)%R.
Proof. apply C91_serial_matmul_parameters; [auto|constructor|constructor|]. intros. apply modulus_1. Qed.
(** the same parameters for the largest error of one product *)
Example single_matmul_max_case LOGN : LOGN = 15 \/ LOGN = 16 ->
  exists st' st2' expected measured, single_matmul_error 1450 LOGN 16 (2 ^ 50) 50 None None (carray (2 ^ (LOGN - 1)) (fun _ => real 1))
    (map (fun k => carray (2 ^ (LOGN - 1)) (fun _ => real 1)) (range 16)) = Ok (st', st2', (expected, measured)) /\ (measured <= sqrt (3 * IZR (2 ^ LOGN) * 16) * expected)%R.
Proof.
  intros H. destruct (some_m LOGN ltac:(lia) (fun _ => real 1)) as [c Hc].
  destruct (C90_single_matmul_max 1450 LOGN ltac:(unfold Properties_Conv.widths; lia) ltac:(lia) 16 50 ltac:(lia) ltac:(lia) ltac:(destruct H as [-> | ->]; reflexivity) ltac:(destruct H as [-> | ->]; reflexivity)
    None None (fun _ => real 1) (fun _ _ => real 1) c (fun _ => c) (rotation LOGN (fun i => IZR (rround (c i * IZR (2 ^ 50)))))) as (st' & st2' & x & m & E & _ & _ & B).
  - constructor.
  - constructor.
  - intros. apply modulus_1.
  - intros. apply modulus_1.
  - exact Hc.
  - intros. apply Hc. auto.
  - intros k Hk. apply (rotations 1450 LOGN ltac:(lia) 16 50 ltac:(lia) ltac:(lia)). lia.
  - exists st', st2', x, m. split; [exact E|exact B].
Qed.
