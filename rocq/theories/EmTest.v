(** C96: what evalMod_test.cpp prints. *)
From Coq Require Import ZArith List Bool Lia Reals Lra Ring.
From Verif Require Import Base BaseFacts Sums ZQ RQ Util GSum Rot Conv Core SpecZQ SpecPoly SpecScheme ZQFacts RQFacts ConvFacts Matrix MatrixFacts MatMulFacts DFT DFTTheory DFTFacts FFTFacts SpecMat SpecDFT SpecEnc SlotFacts Encode EncodeFacts
  SpecEval EvalFacts ChebFacts EvalMod EvalModFacts Properties_EvalMod Plain PlainFacts StatFacts Properties_Conv Properties_Core Properties_Rot Properties_DFT Properties_Mat Properties_Msg Properties_Enc Properties_Plain SpecLin LinTrans LinTransFacts LinSlots BootSlots Properties_Stat Properties_MatErr.
From Verif Require Import Section4 Messages SupFacts MeasFacts Measure.
Import ListNotations.
Open Scope Z_scope.
Add Ring RCemt : HR.

Lemma zsum_mod24 n : 0 <= n -> 2 * Sums.zsum n (fun j => j mod 24) = 552 * (n / 24) + (n mod 24) * (n mod 24 - 1).
Proof.
  intros Hn. apply (GSum.gsum_ind n (fun n => 2 * Sums.zsum n (fun j => j mod 24) = 552 * (n / 24) + (n mod 24) * (n mod 24 - 1))); auto.
  intros m Hm IH. unfold Sums.zsum in *. rewrite Sums.gsum_S by lia. cbv beta. pose proof (Z.div_mod m 24 ltac:(lia)) as D. pose proof (Z.mod_pos_bound m 24 ltac:(lia)) as B.
  destruct (Z.eq_dec (m mod 24) 23) as [E|E].
  - assert ((m + 1) / 24 = m / 24 + 1) by (symmetry; apply (Z.div_unique _ 24 _ 0); lia). assert ((m + 1) mod 24 = 0) by (symmetry; apply (Z.mod_unique _ 24 (m / 24 + 1)); lia). rewrite H, H0. rewrite E in *. lia.
  - assert ((m + 1) / 24 = m / 24) by (symmetry; apply (Z.div_unique _ 24 _ (m mod 24 + 1)); lia). assert ((m + 1) mod 24 = m mod 24 + 1) by (symmetry; apply (Z.mod_unique _ 24 (m / 24)); lia). rewrite H, H0. nia.
Qed.
Lemma rsum_IZR n (f : Z -> Z) : 0 <= n -> rsum n (fun j => IZR (f j)) = IZR (Sums.zsum n f).
Proof.
  intros Hn. apply (GSum.gsum_ind n (fun n => rsum n (fun j => IZR (f j)) = IZR (Sums.zsum n f))); auto.
  intros m Hm IH. rewrite gsum_S by lia. unfold Sums.zsum in *. rewrite Sums.gsum_S by lia. rewrite IH, plus_IZR. reflexivity.
Qed.
Lemma mod24_sum n : 0 <= n -> (rsum n (fun j => IZR (j mod 24) + / 10000)%R <= IZR n * 12)%R.
Proof.
  intros Hn. rewrite (rsum_add n (fun j => IZR (j mod 24)) (fun _ => (/ 10000)%R)), rsum_const by auto. rewrite rsum_IZR by auto.
  pose proof (zsum_mod24 n Hn) as S. pose proof (Z.div_mod n 24 ltac:(lia)) as D. pose proof (Z.mod_pos_bound n 24 ltac:(lia)) as B.
  assert (T : 2 * Sums.zsum n (fun j => j mod 24) <= 23 * n) by nia. apply IZR_le in T. rewrite !mult_IZR in T. apply IZR_le in Hn. lra.
Qed.

(** With the parameters of test.h and any dimension: every slot printed is 0.0001 up to the error, in spite of the integer parts 0 to 23 *)
Theorem C96_EvalMod_test : forall LOGN fuel RM rnd st st2 pos, 2 <= LOGN <= 17 -> rand_stream RM rnd -> ifft_static LOGN st -> fft_static LOGN st2 ->
  keygen fuel (2 ^ LOGN) rnd 128 (fresh (2 ^ LOGN)) pos = Diverge /\ evalmod_test fuel 1450 LOGN 60 24 128 RM rnd st st2 pos = Diverge \/
  exists st' st2' pos' y, evalmod_test fuel 1450 LOGN 60 24 128 RM rnd st st2 pos = Ok (st', st2', pos', carray (K := Rops) (2 ^ (LOGN - 1)) y) /\
    forall j, 0 <= j < 2 ^ (LOGN - 1) -> (modulus (y j - real (/ 10000))%num <= IZR (2 ^ LOGN) / 40000000000 + 1 / 400000000000)%R.
Proof.
  intros LOGN fuel RM rnd st st2 pos HL Hrnd Hst Hst2. unfold evalmod_test. cbv zeta. set (N := 2 ^ LOGN). set (n := 2 ^ (LOGN - 1)).
  assert (HN : 1 <= N) by (pose proof (pow2_pos LOGN ltac:(lia)); unfold N; lia).
  assert (HN2 : N = 2 * n) by (apply (N2 LOGN ltac:(lia))). assert (Eq : Z.quot N 2 = n) by (rewrite HN2, Z.mul_comm; apply Z.quot_mul; lia). rewrite Eq.
  destruct (C34_keygen fuel N rnd RM 128 (fresh N) pos HN ltac:(lia) Hrnd (repeat_length _ _)) as [E0|(s & pos1 & E0 & Hs & Hh)]; [left; rewrite E0; split; reflexivity|right].
  rewrite E0. cbn [bind]. rewrite <- norm1_count in Hh by exact Hs. assert (Hn : 1 <= n) by lia. rewrite !(C68_new (K := Rops)) by lia. cbn [bind].
  destruct (C95_evalmod_message n (carray (K := Rops) n (fun _ => (0%num : CC))) ltac:(lia) (carray_of_carray _ _)) as [E1 Hm].
  match goal with |- context [set_evalmod_message n ?a] => replace (set_evalmod_message n a) with (Ok (carray (K := Rops) n (fun j => ((IZR (j mod 24) + / 10000)%R, 0%R)))) by (symmetry; exact E1) end. cbn [bind].
  assert (NR : (4 <= IZR N <= 131072)%R) by (split; apply IZR_le; [change 4 with (2 ^ 2)|change 131072 with (2 ^ 17)]; apply Z.pow_le_mono_r; lia).
  set (x := fun j : Z => (IZR (j mod 24) + / 10000)%R).
  assert (X0 : forall j, (0 <= x j <= 23 + / 10000)%R). { intros j. destruct (Hm j) as [A B]. apply IZR_le in A, B. unfold x. lra. }
  destruct (enc_carries LOGN 1450 60 60 ltac:(lia) ltac:(lia) ltac:(lia) ltac:(lia) RM rnd Hrnd s Hs st pos1 (fun j => real (x j)) x Hst) as (st' & pt & ct & pos2 & E2 & E3 & H3).
  { intros j Hj. rewrite modulus_real, Rabs_right by (apply Rle_ge, X0). apply Rle_refl. }
  { fold n. pose proof (mod24_sum n ltac:(lia)) as M. fold x in M. assert (1 <= IZR n)%R by (apply IZR_le; lia). apply Rle_trans with (IZR n * 12 * IZR (2 ^ 60))%R.
    - apply Rmult_le_compat_r; [apply IZR_le; apply Z.pow_nonneg; lia|exact M].
    - change (2 ^ 60) with 1152921504606846976. change (2 ^ 64) with 18446744073709551616. nra. }
  fold N n in E2, E3, H3.
  match goal with |- context [encode 1450 LOGN st ?a ?b ?c ?d] => replace (encode 1450 LOGN st a b c d) with (Ok (st', pt)) by (symmetry; exact E2) end. cbn [bind]. rewrite E3. cbn [bind].
  set (err := (IZR N * (17 / 2) / IZR (2 ^ 60))%R) in *.
  assert (H4 : carries 1450 N (coef s) ct (IZR (2 ^ 60)) (fun j => real (IZR (j mod 24) + / 10000)) err).
  { eapply (carries_ext LOGN (coef s)); [|apply Rle_refl|exact H3]. intros j Hj. cbv beta. rewrite <- real_mul. f_equal. fold (x j).
    assert (0 < IZR (2 ^ 60))%R by (apply IZR_lt, Z.pow_pos_nonneg; lia). field. lra. }
  set (P60 := 1152921504606846976%R). assert (E60 : IZR (2 ^ 60) = P60) by reflexivity.
  set (delta := (IZR N * 72 / P60)%R).
  assert (D1 : (delta <= / IZR (10 ^ 8))%R). { unfold delta, P60. change (10 ^ 8) with 100000000. lra. }
  assert (D2 : (err / 24 + 26 / IZR (2 ^ 60) + IZR N * IZR (1 + norm1 N (coef s)) / (2 * IZR (2 ^ 60)) + IZR N * (8 * IZR N + IZR (1 + norm1 N (coef s))) / (IZR (2 ^ 60) * IZR (2 ^ 60)) <= delta)%R).
  { rewrite Hh. change (1 + 128) with 129. unfold err, delta. rewrite E60.
    assert (T : (IZR N * (8 * IZR N + 129) / (P60 * P60) <= IZR N * / 100 / P60)%R).
    { unfold Rdiv. rewrite Rinv_mult. rewrite <- !Rmult_assoc. apply Rmult_le_compat_r; [unfold P60; lra|]. rewrite Rmult_assoc. apply Rmult_le_compat_l; [lra|]. unfold P60. lra. }
    eapply Rle_trans; [apply Rplus_le_compat_l; exact T|]. unfold P60. lra. }
  set (err' := (340000 * delta + 2 / IZR (10 ^ 12) + 117 * (/ 10000) ^ 5)%R).
  destruct (C72_numeric LOGN 60 1450 RM rnd pos2 s ct (fun j => j mod 24) (fun _ => (/ 10000)%R) (/ 10000)%R err delta (sq_new (1450 - 12 * 60) N)) as (pos3 & c & E4 & H5); auto.
  { apply rns_params. lia. } { intros j. specialize (X0 j). unfold x in X0. apply Rabs_le. split; lra. } { intros j. rewrite Rabs_right by lra. lra. } { apply new_object2; lia. }
  fold N err' in E4, H5. rewrite E4. cbn [bind].
  destruct (carray_of_carray n (fun _ => 0%num)) as [Ca Cb].
  assert (Herr' : (0 <= err' <= 1)%R). { unfold err', delta, P60. change (10 ^ 12) with 1000000000000. cbn [pow]. split; lra. }
  destruct (carries_decoded LOGN (1450 - 12 * 60) 60 60 s c (fun _ => real (/ 10000)) err' 1%R st2 (fst (carray (K := Rops) n (fun _ => (0%num : CC)))) (snd (carray (K := Rops) n (fun _ => (0%num : CC)))) ltac:(lia) ltac:(change (2 ^ 20) with 1048576; lia) ltac:(lia) ltac:(lia) Hs Hst2 H5) as (pt2 & st2' & y & E6 & E7 & H7); [| |exact Ca|exact Cb|].
  { intros j. rewrite modulus_real, Rabs_right by lra. lra. }
  { apply Rle_lt_trans with (IZR (2 ^ 60) * 2)%R; [apply Rmult_le_compat_l; [apply IZR_le, Z.pow_nonneg; lia|lra]|]. rewrite <- (mult_IZR _ 2). apply IZR_lt. change (2 ^ 60 * 2) with (2 ^ 61). apply Z.pow_lt_mono_r; lia. }
  fold N n in E6, E7, H7. rewrite E6. cbn [bind].
  match goal with |- context [decode_log ?a0 LOGN st2 ?a ?b ?c ?d] => replace (decode_log a0 LOGN st2 a b c d) with (Ok (st2', carray (K := Rops) n y)) by (symmetry; exact E7) end. cbn [bind].
  exists st', st2', pos3, y. split; [reflexivity|]. intros j Hj. specialize (H7 j Hj).
  assert (R1 : (IZR (2 ^ 60) / IZR (2 ^ 60) = 1)%R) by (assert (0 < IZR (2 ^ 60))%R by (apply IZR_lt, Z.pow_pos_nonneg; lia); field; lra).
  rewrite R1, Rmult_1_l, <- real_mul, Rmult_1_l in H7. eapply Rle_trans; [exact H7|].
  unfold err', delta, P60. change (10 ^ 12) with 1000000000000. cbn [pow]. lra.
Qed.
(** test.h: LOGN = 9, with the results 0, 1, 2, ... of rand() *)
Example C96_case : exists fuel st' st2' pos' y, evalmod_test fuel 1450 9 60 24 128 (2 ^ 31 - 1) counting None None 0 = Ok (st', st2', pos', carray (K := Rops) 256 y) /\
  forall j, 0 <= j < 256 -> (modulus (y j - real (/ 10000))%num <= 2 / 100000000)%R.
Proof.
  destruct (C34_keygen_returns (2 ^ 9) counting (2 ^ 31 - 1) 128 (fresh (2 ^ 9)) 0 ltac:(lia) ltac:(lia) counting_stream (repeat_length _ _)) as (F & r & HF).
  { intros j p Hj. exists (Z.to_nat (512 * Z.of_nat p + j)). split; [lia|]. unfold counting. rewrite Z2Nat.id by lia. change (2 ^ 9) with 512 in *. change (2 ^ 31) with (512 * 4194304).
    rewrite Z.rem_mul_r by lia. rewrite (Z.mul_comm 512 (_ mod 4194304)), Z.mod_add by lia. rewrite Z.mod_mod by lia. rewrite Z.add_comm, Z.mul_comm, Z.mod_add, Z.mod_small by lia. reflexivity. }
  exists F. destruct (C96_EvalMod_test 9 F (2 ^ 31 - 1) counting None None 0 ltac:(lia) counting_stream (ifft_first 9) (fft_first 9)) as [[E _]|(st' & st2' & pos' & y & E & L)]; [rewrite (HF F (le_n F)) in E; discriminate|].
  exists st', st2', pos', y. split; [exact E|]. intros j Hj. eapply Rle_trans; [apply (L j Hj)|]. change (2 ^ 9) with 512. lra.
Qed.
