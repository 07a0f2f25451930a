(** C93: what measure_b_evalmod.cpp and evalMod_test.cpp print. *)
From Coq Require Import ZArith List Bool Lia Reals Lra Ring.
From Verif Require Import Base BaseFacts Sums ZQ RQ Util GSum Rot Conv Core SpecZQ SpecPoly SpecScheme ZQFacts RQFacts ConvFacts Matrix MatrixFacts MatMulFacts DFT DFTTheory DFTFacts FFTFacts SpecMat SpecDFT SpecEnc SlotFacts Encode EncodeFacts
  SpecEval EvalFacts ChebFacts EvalMod EvalModFacts Properties_EvalMod Plain PlainFacts StatFacts Properties_Conv Properties_Core Properties_Rot Properties_DFT Properties_Mat Properties_Msg Properties_Enc Properties_Plain SpecLin LinTrans LinTransFacts LinSlots BootSlots Properties_Stat Properties_MatErr.
From Verif Require Import Section4 Messages SupFacts MeasFacts WideMod.
Import ListNotations.
Open Scope Z_scope.
Add Ring RCmea : HR.

(** Decrypting and decoding at scale 2^LDd a ciphertext that carries x at scale 2^LD *)
Lemma carries_decoded LOGN Q LD LDd s ct (x : Z -> CC) e X st2 zr zi : 2 <= LOGN <= 17 -> 1 <= Q <= 2 ^ 20 -> 0 <= LD <= 100 -> 0 <= LDd <= 100 -> ternary (2 ^ LOGN) s -> fft_static LOGN st2 ->
  carries Q (2 ^ LOGN) (coef s) ct (IZR (2 ^ LD)) x e -> (forall j, modulus (x j) <= X)%R -> (IZR (2 ^ LD) * (X + e) < IZR (2 ^ (Q - 1)))%R ->
  cells (2 ^ (LOGN - 1)) zr -> cells (2 ^ (LOGN - 1)) zi ->
  exists pt st2' y, dec Q (2 ^ LOGN) ct (map Some s) (rq_new Q (2 ^ LOGN)) = Ok pt /\ decode_log Q LOGN st2 pt LDd zr zi = Ok (st2', carray (K := Rops) (2 ^ (LOGN - 1)) y) /\
    forall j, 0 <= j < 2 ^ (LOGN - 1) -> (modulus (y j - real (IZR (2 ^ LD) / IZR (2 ^ LDd)) * x j)%num <= IZR (2 ^ LD) / IZR (2 ^ LDd) * e)%R.
Proof.
  intros HL HQ HLD HLDd Hs Hst2 (m & Hm & Hx) HX Hb Hr Hi. set (N := 2 ^ LOGN) in *. set (n := 2 ^ (LOGN - 1)) in *.
  assert (HN2 : N / 2 = n). { unfold N, n. rewrite (N2 LOGN ltac:(lia)). rewrite (Z.mul_comm 2), Z.div_mul by lia. reflexivity. }
  assert (HN : 1 <= N) by (pose proof (pow2_pos LOGN ltac:(lia)); unfold N; lia). rewrite HN2 in Hx.
  assert (PL : (0 < IZR (2 ^ LD))%R) by (apply IZR_lt, Z.pow_pos_nonneg; lia). assert (PLd : (0 < IZR (2 ^ LDd))%R) by (apply IZR_lt, Z.pow_pos_nonneg; lia).
  destruct (C35_dec Q N ct s m (rq_new Q N) ltac:(lia) HN Hs ltac:(apply objP_object; try lia; apply objP_new) Hm) as (pt & E1 & H1).
  assert (HS : signedP Q N pt m).
  { split; [exact H1|]. apply (signed_slots Q LOGN m (IZR (2 ^ LD)) (X + e) ltac:(lia) ltac:(lia) PL); [|exact Hb]. intros j Hj. fold n in Hj. fold N.
    eapply Rle_trans; [apply (modulus_near _ (x j))|]. apply Rplus_le_compat; [apply HX|apply Hx; exact Hj]. }
  destruct (C56_decode_log Q LOGN ltac:(lia) ltac:(lia) LDd st2 pt m zr zi) as [st2' E2]; auto; try (change (2 ^ 30) with 1073741824; change (2 ^ 20) with 1048576 in HQ; lia).
  exists pt, st2', (slots N (powerRZ 2 LDd) m). split; [exact E1|]. split; [exact E2|]. intros j Hj. rewrite powerRZ_2 by lia.
  replace (slots N (IZR (2 ^ LDd)) m j) with (real (IZR (2 ^ LD) / IZR (2 ^ LDd)) * slots N (IZR (2 ^ LD)) m j)%num.
  2:{ unfold slots. rewrite <- slot_scale. apply slot_ext. intros i Hi'. field. split; lra. }
  match goal with |- (modulus ?a <= _)%R => replace a with (real (IZR (2 ^ LD) / IZR (2 ^ LDd)) * (slots N (IZR (2 ^ LD)) m j - x j))%num by ring end.
  rewrite modulus_mul, modulus_real, Rabs_right by (apply Rle_ge, Rlt_le, Rdiv_lt_0_compat; auto). apply Rmult_le_compat_l; [apply Rlt_le, Rdiv_lt_0_compat; auto|]. apply Hx. exact Hj.
Qed.

Lemma eps_num_pos LOGN : 9 <= LOGN <= 30 -> 1 <= eps_num (2 ^ LOGN).
Proof.
  intros HL. unfold eps_num. assert (H : 2 ^ 9 <= 2 ^ LOGN) by (apply Z.pow_le_mono_r; lia). change (2 ^ 9) with 512 in H.
  rewrite (Z.quot_div_nonneg (2 ^ LOGN) 2) by lia. assert (A : 256 <= 2 ^ LOGN / 2) by (apply Z.div_le_lower_bound; lia).
  rewrite (Z.quot_div_nonneg _ 49) by lia. assert (B : 5 <= 2 ^ LOGN / 2 / 49) by (apply Z.div_le_lower_bound; lia).
  rewrite Z.quot_div_nonneg by lia. apply Z.div_le_lower_bound; lia.
Qed.
Lemma rns_params LOGN : 1 <= LOGN <= 17 -> evalmod_params LOGN 60 1450 24.
Proof. intros HL. constructor; try lia. intros i Hi. unfold widths. lia. Qed.

(** With the parameters of rns.h.  [y] is the message decoded at the end, b the number printed: the largest difference of its real parts from
    the messages without the multiples of q/Delta = 1024.  The only other outcome is that keygen does not return. *)
Theorem C93_measure_b_evalmod : forall LOGN fuel RM rnd st st2 pos, 9 <= LOGN <= 17 -> rand_stream RM rnd -> ifft_static LOGN st -> fft_static LOGN st2 ->
  keygen fuel (2 ^ LOGN) rnd 128 (fresh (2 ^ LOGN)) pos = Diverge /\ measure_b_evalmod fuel 1450 LOGN 50 60 24 128 RM rnd st st2 pos = Diverge \/
  exists st' st2' pos' y b, measure_b_evalmod fuel 1450 LOGN 50 60 24 128 RM rnd st st2 pos = Ok (st', st2', pos', (carray (K := Rops) (2 ^ (LOGN - 1)) y, b)) /\
    largest (2 ^ (LOGN - 1)) (fun j => Rabs (mb_d (eps_num (2 ^ LOGN)) j - fst (y j))) b /\
    (b <= IZR (2 ^ LOGN) / 15000000 + 1 / 16000000)%R.
Proof.
  intros LOGN fuel RM rnd st st2 pos HL Hrnd Hst Hst2. unfold measure_b_evalmod. cbv zeta. set (N := 2 ^ LOGN). set (n := 2 ^ (LOGN - 1)).
  assert (HN : 1 <= N) by (pose proof (pow2_pos LOGN ltac:(lia)); unfold N; lia).
  assert (HN2 : N = 2 * n) by (apply (N2 LOGN ltac:(lia))). assert (Eq : Z.quot N 2 = n) by (rewrite HN2, Z.mul_comm; apply Z.quot_mul; lia). rewrite Eq.
  destruct (C34_keygen fuel N rnd RM 128 (fresh N) pos HN ltac:(lia) Hrnd (repeat_length _ _)) as [E0|(s & pos1 & E0 & Hs & Hh)]; [left; rewrite E0; split; reflexivity|right].
  rewrite E0. cbn [bind]. rewrite <- norm1_count in Hh by exact Hs.
  pose proof (eps_num_pos LOGN ltac:(lia)) as He. set (e := eps_num (2 ^ LOGN)) in *. destruct (mb_messages LOGN e ltac:(lia) eq_refl He) as [E1 Hc]. fold n in E1, Hc. fold N in E1. rewrite E1. cbn [bind].
  assert (Hn : 1 <= n) by lia. assert (NR : (512 <= IZR N <= 131072)%R) by (split; apply IZR_le; [change 512 with (2 ^ 9)|change 131072 with (2 ^ 17)]; apply Z.pow_le_mono_r; lia).
  destruct (enc_carries LOGN 1450 50 60 ltac:(lia) ltac:(lia) ltac:(lia) ltac:(lia) RM rnd Hrnd s Hs st pos1 (fun p => real (mb_z e p)) (mb_bound e) Hst) as (st' & pt & ct & pos2 & E2 & E3 & H3).
  { intros j Hj. apply mb_z_bound. exact He. }
  { fold n. pose proof (mb_sum e n He Hc) as M. assert (0 < IZR n)%R by (apply IZR_lt; lia). apply Rle_trans with (12540 * IZR n * IZR (2 ^ 50))%R.
    - apply Rmult_le_compat_r; [apply IZR_le; apply Z.pow_nonneg; lia|exact M].
    - change (2 ^ 50) with 1125899906842624. change (2 ^ 64) with 18446744073709551616. nra. }
  fold N n in E2, E3, H3.
  match goal with |- context [encode 1450 LOGN st ?a ?b ?c ?d] => replace (encode 1450 LOGN st a b c d) with (Ok (st', pt)) by (symmetry; exact E2) end. cbn [bind]. rewrite E3. cbn [bind].
  set (err := (IZR N * (17 / 2) / IZR (2 ^ 60))%R) in *.
  assert (H4 : carries 1450 N (coef s) ct (IZR (2 ^ 60)) (fun j => real (IZR (mb_I e (Z.max 0 j)) + mb_d e (Z.max 0 j) * / 1024)) err).
  { eapply (carries_ext LOGN (coef s)); [|apply Rle_refl|exact H3]. intros j Hj. cbv beta. rewrite <- real_mul. f_equal. rewrite Z.max_r by lia. unfold mb_z.
    change (2 ^ 60) with (1024 * 2 ^ 50). rewrite mult_IZR. assert (0 < IZR (2 ^ 50))%R by (apply IZR_lt, Z.pow_pos_nonneg; lia). field. lra. }
  set (P60 := 1152921504606846976%R). assert (E60 : IZR (2 ^ 60) = P60) by reflexivity.
  set (delta := (IZR N * (6493 / 100) / P60)%R).
  assert (D1 : (delta <= / IZR (10 ^ 9))%R). { unfold delta, P60. change (10 ^ 9) with 1000000000. lra. }
  assert (D2 : (err / 24 + 26 / IZR (2 ^ 60) + IZR N * IZR (1 + norm1 N (coef s)) / (2 * IZR (2 ^ 60)) + IZR N * (8 * IZR N + IZR (1 + norm1 N (coef s))) / (IZR (2 ^ 60) * IZR (2 ^ 60)) <= delta)%R).
  { rewrite Hh. change (1 + 128) with 129. unfold err, delta. rewrite E60.
    assert (T : (IZR N * (8 * IZR N + 129) / (P60 * P60) <= IZR N * / 100 / P60)%R).
    { unfold Rdiv. rewrite Rinv_mult. rewrite <- !Rmult_assoc. apply Rmult_le_compat_r; [unfold P60; lra|]. rewrite Rmult_assoc. apply Rmult_le_compat_l; [lra|]. unfold P60. lra. }
    eapply Rle_trans; [apply Rplus_le_compat_l; exact T|]. unfold P60. lra. }
  assert (Hd : forall j, (Rabs (mb_d e (Z.max 0 j) * / 1024) <= / 1024)%R).
  { intros j. rewrite Rabs_mult, (Rabs_right (/ 1024)) by lra. pose proof (mb_d_bound e (Z.max 0 j) He). lra. }
  assert (HI : forall j, (Rabs (IZR (mb_I e (Z.max 0 j)) + mb_d e (Z.max 0 j) * / 1024 - / 4) <= 24252 / 1000)%R).
  { intros j. specialize (Hd j). destruct (mb_I_bound e (Z.max 0 j) He ltac:(lia)) as [L U]. apply IZR_le in L, U. set (x := (mb_d e (Z.max 0 j) * / 1024)%R) in *. pose proof (Rle_abs x). pose proof (Rle_abs (- x)) as O. rewrite Rabs_Ropp in O. apply Rabs_le. split; lra. }
  set (err' := (1150000 * delta + 6 / IZR (10 ^ 11) + 117 * (/ 1024) ^ 5)%R).
  assert (EM : forall pos p, object2 (1450 - 12 * 60) N p -> exists pos' p', EvalMod 1450 N 60 24 RM rnd pos ct (map Some s) p = Ok (pos', p') /\
    carries (1450 - 12 * 60) N (coef s) p' (IZR (2 ^ 60)) (fun j => real (mb_d e (Z.max 0 j) * / 1024)) err').
  { intros pos0 p Hp. apply (C92_numeric LOGN 60 1450 RM rnd pos0 s ct (fun j => mb_I e (Z.max 0 j)) (fun j => (mb_d e (Z.max 0 j) * / 1024)%R) (/ 1024)%R err delta p); auto. apply rns_params. lia. }
  rewrite (for_step _ 0 2) by lia. cbn beta iota. destruct (EM pos2 (sq_new (1450 - 12 * 60) N)) as (pos3 & c1 & E4 & H5); [apply new_object2; lia|]. rewrite E4. cbn [bind].
  change (0 + 1) with 1. rewrite (for_step _ 1 2) by lia. cbn beta iota. destruct (EM pos3 c1) as (pos4 & c2 & E5 & H6). { eapply (carries_object LOGN (coef s)); [|exact H5]. lia. } rewrite E5. cbn [bind].
  change (1 + 1) with 2. rewrite for_nil by lia. cbn [bind].
  assert (Cn : carray_of (K := Rops) n (carray n (fun _ => 0%num))) by apply carray_of_carray. destruct Cn as [Ca Cb].
  assert (Herr' : (0 <= err' <= 1)%R). { unfold err', delta, P60. change (10 ^ 11) with 100000000000. cbn [pow]. split; lra. }
  destruct (carries_decoded LOGN (1450 - 12 * 60) 60 50 s c2 (fun j => real (mb_d e (Z.max 0 j) * / 1024)) err' 1%R st2 (fst (carray (K := Rops) n (fun _ => (0%num : CC)))) (snd (carray (K := Rops) n (fun _ => (0%num : CC)))) ltac:(lia) ltac:(change (2 ^ 20) with 1048576; lia) ltac:(lia) ltac:(lia) Hs Hst2 H6) as (pt2 & st2' & y & E6 & E7 & H7); [| |exact Ca|exact Cb|].
  { intros j. rewrite modulus_real. eapply Rle_trans; [apply Hd|lra]. }
  { apply Rle_lt_trans with (IZR (2 ^ 60) * 2)%R; [apply Rmult_le_compat_l; [apply IZR_le, Z.pow_nonneg; lia|lra]|]. rewrite <- (mult_IZR _ 2). apply IZR_lt. change (2 ^ 60 * 2) with (2 ^ 61). apply Z.pow_lt_mono_r; lia. }
  fold N n in E6, E7, H7. rewrite E6. cbn [bind]. rewrite !(C68_new (K := Rops)) by lia. cbn [bind].
  match goal with |- context [decode_log ?a0 LOGN st2 ?a ?b ?c ?d] => replace (decode_log a0 LOGN st2 a b c d) with (Ok (st2', carray (K := Rops) n y)) by (symmetry; exact E7) end. cbn [bind].
  rewrite (C68_sub (K := Rops)) by (try lia; apply carray_of_carray). cbn [bind].
  rewrite carray_cvtab. unfold cvtab at 1 2. cbn [fst snd]. match goal with |- context [for_ 0 n ?b (gtab n ?f)] => replace (for_ 0 n b (gtab n f)) with (Ok (gtab n (fun _ => 0%R))) by (symmetry; apply (fill_gtab n b (fun i => Some (f i)) (fun _ => 0%R)); [lia|reflexivity]) end. cbn [bind].
  assert (EC : (gtab n (fun i => cre Rops ((real (mb_d e i) : CC) - y i)%num), gtab n (fun _ => 0%R)) = carray (K := Rops) n (fun i => real (mb_d e i - fst (y i)))) by (rewrite carray_cvtab; reflexivity).
  rewrite EC. destruct (C94_sup_norm n (fun i => real (mb_d e i - fst (y i))) ltac:(lia)) as (b & E8 & H8). rewrite E8. cbn [bind].
  exists st', st2', pos4, y, b. split; [reflexivity|].
  assert (LG : largest n (fun j => Rabs (mb_d e j - fst (y j))) b). { destruct H8 as (A1 & A2 & A3). split; [exact A1|]. split; [intros j Hj; specialize (A2 j Hj); rewrite modulus_real in A2; exact A2|]. destruct A3 as [A3|(j & Hj & A3)]; [left; exact A3|]. right. exists j. split; auto. rewrite A3, modulus_real. reflexivity. }
  split; [exact LG|].
  assert (FB : (0 <= IZR N / 15000000 + 1 / 16000000)%R) by lra.
  destruct LG as (_ & _ & [->|(j & Hj & ->)]); [exact FB|].
  specialize (H7 j Hj). rewrite Z.max_r in H7 by lia. 
  assert (R1 : (IZR (2 ^ 60) / IZR (2 ^ 50) = 1024)%R). { change (2 ^ 60) with (1024 * 2 ^ 50). rewrite mult_IZR. assert (0 < IZR (2 ^ 50))%R by (apply IZR_lt, Z.pow_pos_nonneg; lia). field. lra. }
  rewrite R1 in H7. rewrite <- real_mul in H7. replace (1024 * (mb_d e j * / 1024))%R with (mb_d e j) in H7 by field.
  eapply Rle_trans. { rewrite Rabs_minus_sym. apply (modulus_cre (y j - real (mb_d e j))%num). } eapply Rle_trans; [exact H7|].
  unfold err', delta, P60. change (10 ^ 11) with 100000000000. cbn [pow]. lra.
Qed.

(** For N <= 2^8 eps_num is 0 and the program divides 0 by 0 *)
Theorem C93_small : forall LOGN, 1 <= LOGN <= 8 -> evalmod_messages (2 ^ LOGN) = Undef.
Proof.
  intros LOGN HL. unfold evalmod_messages. cbv zeta.
  assert (He : eps_num (2 ^ LOGN) = 0). { assert (C : LOGN = 1 \/ LOGN = 2 \/ LOGN = 3 \/ LOGN = 4 \/ LOGN = 5 \/ LOGN = 6 \/ LOGN = 7 \/ LOGN = 8) by lia. repeat destruct C as [->|C]; try reflexivity. rewrite C. reflexivity. }
  assert (Hq : 0 <= Z.quot (2 ^ LOGN) 2) by (apply Z.quot_pos; [apply Z.pow_nonneg; lia|lia]).
  rewrite !(C68_new (K := Rops)) by exact Hq. cbn [bind]. rewrite He. rewrite (for_step _ (-24) 25) by lia. rewrite (for_step _ (- 0) (0 + 1)) by lia. reflexivity.
Qed.

(** Such a run exists: results 0, 1, 2, ... of rand() give keygen 128 different places *)
Definition counting (k : nat) : Z := Z.of_nat k mod 2 ^ 31.
Lemma counting_stream : rand_stream (2 ^ 31 - 1) counting.
Proof. unfold rand_stream, counting. repeat split; try lia; pose proof (Z.mod_pos_bound (Z.of_nat k) (2 ^ 31) ltac:(lia)); lia. Qed.
Example C93_case : exists fuel st' st2' pos' y b, measure_b_evalmod fuel 1450 9 50 60 24 128 (2 ^ 31 - 1) counting None None 0 = Ok (st', st2', pos', (carray (K := Rops) 256 y, b)) /\ (0 <= b <= 4 / 100000)%R /\
  mb_z (eps_num (2 ^ 9)) 0 = (-24577)%R /\ mb_d (eps_num (2 ^ 9)) 0 = (-1)%R.
Proof.
  destruct (C34_keygen_returns (2 ^ 9) counting (2 ^ 31 - 1) 128 (fresh (2 ^ 9)) 0 ltac:(lia) ltac:(lia) counting_stream (repeat_length _ _)) as (F & r & HF).
  { intros j p Hj. exists (Z.to_nat (512 * Z.of_nat p + j)). split; [lia|]. unfold counting. rewrite Z2Nat.id by lia. change (2 ^ 9) with 512 in *. change (2 ^ 31) with (512 * 4194304).
    rewrite Z.rem_mul_r by lia. rewrite (Z.mul_comm 512 (_ mod 4194304)), Z.mod_add by lia. rewrite Z.mod_mod by lia. rewrite Z.add_comm, Z.mul_comm, Z.mod_add, Z.mod_small by lia. reflexivity. }
  exists F. destruct (C93_measure_b_evalmod 9 F (2 ^ 31 - 1) counting None None 0 ltac:(lia) counting_stream (ifft_first 9) (fft_first 9)) as [[E _]|(st' & st2' & pos' & y & b & E & L & Hb)]; [rewrite (HF F (le_n F)) in E; discriminate|].
  exists st', st2', pos', y, b. split; [exact E|]. split; [split; [apply L|]; change (2 ^ 9) with 512 in Hb; lra|].
  change (eps_num (2 ^ 9)) with 2. unfold mb_z, mb_I, mb_d. change (0 <? 49 * (2 * 2 + 1)) with true. change (0 / (2 * 2 + 1) - 24) with (-24). change (0 mod (2 * 2 + 1) - 2) with (-2). split; lra.
Qed.
