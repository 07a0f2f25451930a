(** Raising the modulus and bootstrapping for all but a few ciphertexts, under keys with as many nonzero coefficients as in the experiments
    (experiment/section4/proposal.cpp; rns.h:17: H = 128). *)
From Coq Require Import ZArith List Bool Lia Reals Lra.
From Verif Require Import Base BaseFacts Sums ZQ ZQFacts ZQFacts2 RQ RQFacts Conv Rot Core CoreFacts Util UtilFacts GSum Matrix MatrixFacts MatMulFacts DFT DFTTheory DFTFacts FFTFacts
  SpecZQ SpecPoly SpecPolyFacts PolyCong SpecScheme SpecMat Properties_Mat SpecDFT Properties_DFT SpecEnc SlotFacts
  Encode EncodeFacts Properties_Conv Properties_Core Properties_Rot Properties_Enc Properties_Plain Noise PolyRing SpecLin LinTrans LinTransFacts LinSlots Properties_Lin
  Bootstrap SpecBoot BootSlots Properties_Boot Poly SpecEval EvalFacts EvalPoly SpecMod EvalMod EvalModFacts PiBound EvalModBound Properties_EvalMod SpecPipe Pipeline PipeFacts Properties_Pipe.
From Verif Require Import SpecTail Tail TailFacts TailNum.
Import ListNotations.
Open Scope Z_scope.

(** ** C116: mod_raise adds multiples of q of absolute value at most B to all but a fraction of the ciphertexts *)
Theorem C116_mod_raise : forall LOGq N B s, 1 <= LOGq -> 1 <= N -> ternary N s ->
  almost_all LOGq N (2 * IZR N * tail_bound (Z.to_nat (norm1 N (coef s))) (2 ^ (LOGq - 1)) B) (fun a =>
    forall LOGQ ct D m, 1 <= LOGQ -> object2 LOGQ N D -> holdsP LOGq N (snd ct) (coef a) -> decrypts LOGq N ct (coef s) m -> (forall i, 0 <= i < N -> 4 * Z.abs (m i) <= 2 ^ LOGq) ->
    exists ct' I, mod_raise LOGq LOGQ N ct D = Ok ct' /\ decrypts LOGQ N ct' (coef s) (fun i => m i + 2 ^ LOGq * I i) /\ forall i, 0 <= i < N -> Z.abs (I i) <= B).
Proof.
  intros LOGq N B s Hq HN Hs. exists (bad_vectors N s LOGq B). split; [|split; [|split]].
  - intros a Ha. apply filter_In in Ha. apply Ha.
  - apply NoDup_filter, vectors_nodup.
  - apply bad_count; auto.
  - intros a Ha Hb LOGQ ct D m HQ HD Hsnd Hd Hm. apply (good_raise N HN s LOGq Hq B a); auto.
Qed.
Lemma almost_all_impl LOGq N e1 e2 (P1 P2 : list Z -> Prop) : (e1 <= e2)%R -> (forall a, P1 a -> P2 a) -> almost_all LOGq N e1 P1 -> almost_all LOGq N e2 P2.
Proof.
  intros He HP (bad & H1 & H2 & H3 & H4). exists bad. split; [exact H1|]. split; [exact H2|]. split; [|intros a Ha Hb; apply HP, H4; auto].
  eapply Rle_trans; [exact H3|]. apply Rmult_le_compat_r; [apply pos_INR|exact He].
Qed.
Lemma almost_all_one LOGq N e (P : list Z -> Prop) : 1 <= LOGq -> (e < 1)%R -> almost_all LOGq N e P -> exists a, length a = Z.to_nat N /\ Forall (fun x => - 2 ^ (LOGq - 1) <= x < 2 ^ (LOGq - 1)) a /\ P a.
Proof.
  intros Hq He (bad & H1 & H2 & H3 & H4). set (V := vectors (2 ^ (LOGq - 1)) (Z.to_nat N)) in *. pose proof (pow2_pos (LOGq - 1) ltac:(lia)) as Hp.
  assert (HV : (0 < INR (length V))%R).
  { unfold V. rewrite vectors_count. apply pow_lt. apply IZR_lt. unfold residues. rewrite map_length, seq_length. lia. }
  assert (Hl : (length bad < length V)%nat) by (apply INR_lt; nra).
  destruct (Exists_dec (fun a => ~ In a bad) V) as [E|E].
  { intros a. destruct (in_dec (list_eq_dec Z.eq_dec) a bad); [right|left]; tauto. }
  - apply Exists_exists in E. destruct E as (a & Ha & Hb). exists a. unfold V in Ha. pose proof Ha as Ha'. apply vectors_in in Ha'; [|lia]. destruct Ha'. auto.
  - exfalso. assert (HI : incl V bad).
    { intros a Ha. destruct (in_dec (list_eq_dec Z.eq_dec) a bad) as [|C]; [auto|]. exfalso. apply E, Exists_exists. exists a. auto. }
    pose proof (NoDup_incl_length (vectors_nodup (2 ^ (LOGq - 1)) (Z.to_nat N)) HI) as C. unfold V in *. lia.
Qed.
(** keys with 128 nonzero coefficients, modulus of at least 20 bits, K = 24 *)
Theorem C116_128 : forall LOGq N s, 20 <= LOGq -> 1 <= N -> ternary N s -> norm1 N (coef s) <= 128 ->
  almost_all LOGq N (14 * IZR N / IZR (10 ^ 12)) (fun a =>
    forall LOGQ ct D m, 1 <= LOGQ -> object2 LOGQ N D -> holdsP LOGq N (snd ct) (coef a) -> decrypts LOGq N ct (coef s) m -> (forall i, 0 <= i < N -> 4 * Z.abs (m i) <= 2 ^ LOGq) ->
    exists ct' I, mod_raise LOGq LOGQ N ct D = Ok ct' /\ decrypts LOGQ N ct' (coef s) (fun i => m i + 2 ^ LOGq * I i) /\ forall i, 0 <= i < N -> Z.abs (I i) < 24).
Proof.
  intros LOGq N s Hq HN Hs Hh. eapply almost_all_impl; [| |apply (C116_mod_raise LOGq N 23 s ltac:(lia) HN Hs)].
  - pose proof (tail_128 (Z.to_nat (norm1 N (coef s))) (2 ^ (LOGq - 1)) ltac:(lia) ltac:(apply Z.pow_le_mono_r; lia)) as H. apply IZR_le in HN.
    assert (0 <= 2 * IZR N)%R by lra. eapply Rle_trans; [apply Rmult_le_compat_l; [lra|apply H]|]. lra.
  - cbv beta. intros a H LOGQ ct D m HQ HD H1 H2 H3. destruct (H LOGQ ct D m HQ HD H1 H2 H3) as (ct' & I & E & Hd & HI). exists ct', I. split; [exact E|]. split; [exact Hd|]. intros i Hi. specialize (HI i Hi). lia.
Qed.

(** ** C117: bootstrapping with such keys *)
Section Numbers.
Context (N h LDs : Z) (G : nat) (Hh : 0 <= h <= 128) (HN : 2 <= N) (HLDs : 0 <= LDs).
Context (sw c d r em : R).
Let q := IZR (2 ^ 60).
Let dmax := (/ IZR (2 ^ 9))%R.
Let E := boot_noise N h.
Context (H_sw : (IZR N * IZR (16 * N + 129) / (2 * q) <= sw)%R) (H_c : (IZR N * IZR (16 * N + 129) / (2 * (IZR (2 ^ 240) * q)) + IZR N * 129 / (2 * q) <= c)%R).
Context (H_d : (c / 24 + 26 / q + IZR N * 129 / (2 * q) + 2 * (IZR N * IZR (8 * N + 129) / (2 * (q * q))) <= d)%R) (H_d8 : (d <= / IZR (10 ^ 8))%R).
Context (H_r : (2 * error_after (fun _ => 1) (IZR (3 ^ Z.of_nat G) * (IZR N / (2 * q))) (24 * IZR N) (fun _ => sw) 4 <= r)%R) (H_r1 : (r <= / 1000)%R).
Context (H_em : (340000 * d + 2 / IZR (10 ^ 12) + 117 * (/ 300) ^ 5 <= em)%R).
Let Qp : (0 < q)%R. Proof. apply IZR_lt. reflexivity. Qed.
Let Np : (2 <= IZR N)%R. Proof. apply IZR_le. exact HN. Qed.
Let Hsw : forall Delta k, 1 <= Delta -> (0 <= switch_noise N Delta E q k <= sw)%R.
Proof.
  intros Delta k HD. pose proof (switch_noise_mono N Delta E (16 * N + 129) q k 1%R) as H. destruct H as [H1 H2]; try lra; try lia.
  - unfold E, boot_noise. lia.
  - apply pow_R1_Rle. apply IZR_le. lia.
  - split; [exact H1|]. rewrite Rmult_1_l in H2. lra.
Qed.
Let Hrow LD : 0 <= LD -> (0 <= row_rounding N (2 ^ LD) G)%R.
Proof.
  intros HL. unfold row_rounding. apply Rmult_le_pos; [apply IZR_le, Z.pow_nonneg; lia|]. apply Rmult_le_pos; [lra|]. apply Rlt_le, Rinv_0_lt_compat.
  assert (0 < IZR (2 ^ LD))%R by (apply IZR_lt, Z.pow_pos_nonneg; lia). lra.
Qed.
Let Hd0 : (0 <= dmax <= / 512)%R. Proof. unfold dmax. change (2 ^ 9) with 512. lra. Qed.
Lemma t_rounding : (0 <= boot_rounding N h 60 60 G 4 23 dmax <= r)%R.
Proof.
  unfold boot_rounding, cts_rounding. fold E.
  assert (Ha : forall d : nat, (0 <= Rpower 2 (- / INR 4) <= 1)%R).
  { intros _. split; [apply Rlt_le; unfold Rpower; apply exp_pos|]. rewrite <- (Rpower_O 2) by lra. apply Rle_Rpower; [lra|]. change (INR 4) with (1 + 1 + 1 + 1)%R. lra. }
  assert (Hz : (0 <= IZR N * (IZR 23 + dmax) <= 24 * IZR N)%R) by (split; [apply Rmult_le_pos; lra|]; rewrite (Rmult_comm 24); apply Rmult_le_compat_l; lra).
  assert (Hd : (0 <= row_rounding N (2 ^ 60) G <= IZR (3 ^ Z.of_nat G) * (IZR N / (2 * q)))%R) by (split; [apply Hrow; lia|unfold row_rounding, q; lra]).
  destruct (size_error_mono _ (fun _ => 1%R) _ _ _ _ _ (fun _ => sw) 4 Ha Hd Hz (fun k => Hsw (2 ^ 60) k ltac:(lia))) as [_ [H1 H2]]. change (boot_q 60) with q. lra.
Qed.
Lemma t_24 : (IZR 23 + dmax + boot_rounding N h 60 60 G 4 23 dmax + / 4 <= 24)%R.
Proof. pose proof t_rounding. lra. Qed.
Let Hres : (0 <= rescale_noise N h q <= IZR N * 129 / (2 * q))%R.
Proof.
  unfold rescale_noise. assert (0 <= IZR (1 + h) <= 129)%R by (split; apply IZR_le; lia). assert (0 < / (2 * q))%R by (apply Rinv_0_lt_compat; lra).
  split; [apply Rmult_le_pos; [apply Rmult_le_pos|]; lra|]. apply Rmult_le_compat_r; [lra|]. apply Rmult_le_compat_l; lra.
Qed.
Lemma t_cts_noise : (0 <= boot_cts_noise N h 60 60 4 <= c)%R.
Proof.
  unfold boot_cts_noise. change (boot_q 60) with q. fold E. 
  pose proof (switch_noise_mono N (2 ^ 60) E (16 * N + 129) q 4 (IZR (2 ^ 240))) as H. destruct H as [H1 H2]; try lia; try exact Qp.
  - unfold E, boot_noise. lia.
  - apply IZR_lt. reflexivity.
  - rewrite pow_IZR. apply IZR_le. cbv. discriminate.
  - lra.
Qed.
Lemma t_mod_error : (0 <= boot_mod_error N h 60 60 G 4 23 dmax <= em)%R.
Proof.
  unfold boot_mod_error. pose proof t_cts_noise as Hc. pose proof t_rounding as Hr. set (e := boot_cts_noise N h 60 60 4) in *. set (rho := boot_rounding N h 60 60 G 4 23 dmax) in *. change (boot_q 60) with q.
  assert (H2 : (evalmod_error N h q 24 e <= 340000 * d + 2 / IZR (10 ^ 12))%R).
  { apply evalmod_error_bound; try lia; try lra; try exact H_d8. unfold em_arg_error.
    assert (mul_noise N h q <= IZR N * IZR (8 * N + 129) / (2 * (q * q)))%R.
    { unfold mul_noise. apply Rmult_le_compat_r; [apply Rlt_le, Rinv_0_lt_compat; nra|]. apply Rmult_le_compat_l; [lra|]. apply IZR_le. lia. }
    replace (IZR 24 + 2)%R with 26%R by lra. unfold Rdiv in *. lra. }
  assert (H0 : (0 <= evalmod_error N h q 24 e)%R) by (apply evalmod_error_nonneg; [lia|lia|exact Qp|lia|apply Hc]).
  assert (P : (0 <= 6 / 5 * PI ^ 4 <= 117)%R).
  { destruct PI_bounds as [P1 P2]. pose proof PI_RGT_0. assert (PI <= 3.1416)%R by lra. assert (PI * PI <= 9.86966)%R by nra. assert (0 <= PI * PI)%R by nra. split; [|nra].
    apply Rmult_le_pos; [lra|apply pow_le; lra]. }
  assert (X : (0 <= (dmax + rho) ^ 5 <= (/ 300) ^ 5)%R) by (split; [apply pow_le; lra|apply pow_incr; lra]).
  assert (Y : (0 <= 6 / 5 * PI ^ 4 * (dmax + rho) ^ 5 <= 117 * (/ 300) ^ 5)%R) by (split; [apply Rmult_le_pos; lra|apply Rmult_le_compat; lra]).
  lra.
Qed.
Lemma t_stc z z' e : (0 <= z <= z')%R -> (2 * error_after (fun _ => 2 ^ G) (IZR (3 ^ Z.of_nat G) * (IZR N / (2 * IZR (2 ^ LDs)))) z' (fun _ => sw) 4 <= e)%R ->
  (stc_error N (2 ^ LDs) E G 4 z q <= e)%R.
Proof.
  intros Hz He. unfold stc_error. assert (Ha : forall d : nat, (0 <= 2 ^ G <= 2 ^ G)%R) by (intros _; split; [apply pow_le; lra|lra]).
  assert (Hd : (0 <= row_rounding N (2 ^ LDs) G <= IZR (3 ^ Z.of_nat G) * (IZR N / (2 * IZR (2 ^ LDs))))%R) by (split; [apply Hrow; lia|unfold row_rounding; lra]).
  assert (H1 : 1 <= 2 ^ LDs) by (pose proof (Z.pow_pos_nonneg 2 LDs); lia).
  destruct (size_error_mono _ (fun _ => 2 ^ G)%R _ _ _ _ _ (fun _ => sw) 4 Ha Hd Hz (fun k => Hsw (2 ^ LDs) k H1)) as [_ [H2 H3]]. lra.
Qed.
Lemma t_proposed e p : (2 * error_after (fun _ => 2 ^ G) (IZR (3 ^ Z.of_nat G) * (IZR N / (2 * IZR (2 ^ LDs)))) (23 + (c + em)) (fun _ => sw) 4 <= e)%R ->
  (q * (e + 2 * (c + em)) + 129 / 2 <= p)%R -> (q * proposed_error N h 60 60 LDs G 4 23 dmax + IZR (1 + h) / 2 <= p)%R.
Proof.
  intros He Hp. unfold proposed_error. fold E. pose proof t_cts_noise as Hc. pose proof t_mod_error as Hm. change (boot_q 60) with q.
  set (e0 := boot_cts_noise N h 60 60 4) in *. set (e1 := boot_mod_error N h 60 60 G 4 23 dmax) in *.
  pose proof (t_stc (IZR 23 + (e0 + e1)) (23 + (c + em)) e ltac:(lra) He) as H.
  assert (Hi : (IZR (1 + h) <= 129)%R) by (apply IZR_le; lia).
  eapply Rle_trans; [|exact Hp]. apply Rplus_le_compat; [apply Rmult_le_compat_l; lra|lra].
Qed.
Lemma t_conventional e p : (2 * error_after (fun _ => 2 ^ G) (IZR (3 ^ Z.of_nat G) * (IZR N / (2 * IZR (2 ^ LDs)))) (/ 512 + r + em) (fun _ => sw) 4 <= e)%R ->
  (q * (e + 2 * (r + em)) + 129 / 2 <= p)%R -> (q * conventional_error N h 60 60 LDs G 4 23 dmax + IZR (1 + h) / 2 <= p)%R.
Proof.
  intros He Hp. unfold conventional_error. fold E. pose proof t_rounding as Hc. pose proof t_mod_error as Hm. change (boot_q 60) with q.
  set (e0 := boot_rounding N h 60 60 G 4 23 dmax) in *. set (e1 := boot_mod_error N h 60 60 G 4 23 dmax) in *.
  pose proof (t_stc (dmax + e0 + e1) (/ 512 + r + em) e ltac:(lra) He) as H.
  assert (Hi : (IZR (1 + h) <= 129)%R) by (apply IZR_le; lia).
  eapply Rle_trans; [|exact Hp]. apply Rplus_le_compat; [apply Rmult_le_compat_l; lra|lra].
Qed.
End Numbers.

(** The three dimensions of the experiments satisfy the requirements of the model (proposal.cpp:146-152). *)
Lemma t_params LOGN G LDs : LOGN = 9 /\ G = 2%nat \/ LOGN = 13 /\ G = 3%nat \/ LOGN = 17 /\ G = 4%nat -> 50 <= LDs <= 60 -> boot_params LOGN 60 1450 60 LDs G 4.
Proof. intros H HL. destruct H as [[-> ->]|[[-> ->]|[-> ->]]]; constructor; try lia; unfold widths; intros; lia. Qed.
Ltac t_numbers := try lia; cbn [error_after size_after pow]; repeat match goal with |- context [IZR (?a ^ ?b)] => let x := eval vm_compute in (a ^ b) in change (a ^ b) with x end;
  repeat match goal with |- context [IZR (?a * ?b + ?c)] => let x := eval vm_compute in (a * b + c) in change (a * b + c) with x end; lra.
Theorem C117_proposed_512 : forall s, ternary 512 s -> norm1 512 (coef s) <= 128 ->
  almost_all 60 512 (8 / IZR (10 ^ 9)) (fun a => forall RM rnd ct m stc sts st pos, rand_stream RM rnd ->
    cts_static 1450 9 60 2 stc -> stc_static 490 9 60 2 sts -> ifft_static 9 st ->
    holdsP 60 512 (snd ct) (coef a) -> decrypts 60 512 ct (coef s) m -> (forall i, 0 <= i < 512 -> Z.abs (m i) <= 2 ^ 51) ->
    exists stc' sts' st' pos' ct' w, proposed_boot 60 1450 9 60 60 60 2 24 RM rnd stc sts st pos ct (map Some s) = Ok (stc', sts', st', pos', ct') /\
      decrypts 250 512 ct' (coef s) w /\ forall i, 0 <= i < 512 -> Z.abs (w i - m i) <= 2 ^ 35).
Proof.
  intros s Hs Hh'. assert (Hh : 0 <= norm1 512 (coef s) <= 128) by (split; [apply norm1_nonneg|exact Hh']).
  eapply almost_all_impl; [| |apply (C116_128 60 512 s ltac:(lia) ltac:(lia) Hs Hh')]; [unfold Rdiv; change (10 ^ 12) with 1000000000000; change (10 ^ 9) with 1000000000; change (10 ^ 8) with 100000000; lra|].
  cbv beta. intros a H RM rnd ct m stc sts st pos Hr Hstc Hsts Hst Hsnd Hd Hm.
  destruct (H 1450 ct (sq_new 1450 512) m ltac:(lia) (new_object2 1450 512 ltac:(lia) ltac:(lia)) Hsnd Hd) as (ct_m & I & E & Hdm & HI).
  { intros i Hi. specialize (Hm i Hi). lia. }
  assert (HI' : forall i, 0 <= i < 512 -> Z.abs (I i) <= 23) by (intros i Hi; specialize (HI i Hi); lia).
  destruct (C75_proposed 9 60 1450 60 60 2 4 (t_params 9 2 60 ltac:(lia) ltac:(lia)) RM rnd s Hr Hs 23 (/ IZR (2 ^ 9))%R ct ct_m m I stc sts st pos)
    as (stc' & sts' & st' & pos' & ct' & w & E' & _ & _ & _ & Hd' & Hw); auto.
  - intros i Hi. specialize (Hm i Hi). rewrite <- abs_IZR. apply IZR_le in Hm. unfold boot_q. change (2 ^ 51) with 2251799813685248 in Hm. change (2 ^ 60) with 1152921504606846976. change (2 ^ 9) with 512. lra.
  - change (2 ^ 9) with 512. apply t_24 with (sw := (2 / 1000000000000)%R) (r := (3 / 10000000000)%R); t_numbers.
  - exists stc', sts', st', pos', ct', w. split; [exact E'|]. split; [exact Hd'|].
    intros i Hi. apply Rabs_IZR_le. rewrite minus_IZR. eapply Rle_trans; [apply (Hw i Hi)|]. change (2 ^ 9) with 512.
    apply t_proposed with (sw := (2 / 1000000000000)%R) (c := (29 / 1000000000000000)%R) (d := (3 / 100000000000000)%R) (r := (3 / 10000000000)%R) (em := (103 / 10000000000)%R) (e := (2 / 1000000000)%R); t_numbers.
Qed.
Theorem C117_conventional_512 : forall s, ternary 512 s -> norm1 512 (coef s) <= 128 ->
  almost_all 60 512 (8 / IZR (10 ^ 9)) (fun a => forall RM rnd ct m stc sts st pos, rand_stream RM rnd ->
    cts_static 1450 9 60 2 stc -> stc_static 490 9 50 2 sts -> ifft_static 9 st ->
    holdsP 60 512 (snd ct) (coef a) -> decrypts 60 512 ct (coef s) m -> (forall i, 0 <= i < 512 -> Z.abs (m i) <= 2 ^ 51) ->
    exists stc' sts' st' pos' ct' w, conventional_boot 60 1450 9 60 60 50 2 24 RM rnd stc sts st pos ct (map Some s) = Ok (stc', sts', st', pos', ct') /\
      decrypts 290 512 ct' (coef s) w /\ forall i, 0 <= i < 512 -> Z.abs (w i - m i) <= 2 ^ 35).
Proof.
  intros s Hs Hh'. assert (Hh : 0 <= norm1 512 (coef s) <= 128) by (split; [apply norm1_nonneg|exact Hh']).
  eapply almost_all_impl; [| |apply (C116_128 60 512 s ltac:(lia) ltac:(lia) Hs Hh')]; [unfold Rdiv; change (10 ^ 12) with 1000000000000; change (10 ^ 9) with 1000000000; change (10 ^ 8) with 100000000; lra|].
  cbv beta. intros a H RM rnd ct m stc sts st pos Hr Hstc Hsts Hst Hsnd Hd Hm.
  destruct (H 1450 ct (sq_new 1450 512) m ltac:(lia) (new_object2 1450 512 ltac:(lia) ltac:(lia)) Hsnd Hd) as (ct_m & I & E & Hdm & HI).
  { intros i Hi. specialize (Hm i Hi). lia. }
  assert (HI' : forall i, 0 <= i < 512 -> Z.abs (I i) <= 23) by (intros i Hi; specialize (HI i Hi); lia).
  destruct (C74_conventional 9 60 1450 60 50 2 4 (t_params 9 2 50 ltac:(lia) ltac:(lia)) RM rnd s Hr Hs 23 (/ IZR (2 ^ 9))%R ct ct_m m I stc sts st pos)
    as (stc' & sts' & st' & pos' & ct' & w & E' & _ & _ & _ & Hd' & Hw); auto.
  - intros i Hi. specialize (Hm i Hi). rewrite <- abs_IZR. apply IZR_le in Hm. unfold boot_q. change (2 ^ 51) with 2251799813685248 in Hm. change (2 ^ 60) with 1152921504606846976. change (2 ^ 9) with 512. lra.
  - change (2 ^ 9) with 512. apply t_24 with (sw := (2 / 1000000000000)%R) (r := (3 / 10000000000)%R); t_numbers.
  - exists stc', sts', st', pos', ct', w. split; [exact E'|]. split; [exact Hd'|].
    intros i Hi. apply Rabs_IZR_le. rewrite minus_IZR. eapply Rle_trans; [apply (Hw i Hi)|]. change (2 ^ 9) with 512.
    apply t_conventional with (sw := (2 / 1000000000000)%R) (c := (29 / 1000000000000000)%R) (d := (3 / 100000000000000)%R) (r := (3 / 10000000000)%R) (em := (103 / 10000000000)%R) (e := (2 / 1000000000)%R); t_numbers.
Qed.
Theorem C117_proposed_8192 : forall s, ternary 8192 s -> norm1 8192 (coef s) <= 128 ->
  almost_all 60 8192 (12 / IZR (10 ^ 8)) (fun a => forall RM rnd ct m stc sts st pos, rand_stream RM rnd ->
    cts_static 1450 13 60 3 stc -> stc_static 490 13 60 3 sts -> ifft_static 13 st ->
    holdsP 60 8192 (snd ct) (coef a) -> decrypts 60 8192 ct (coef s) m -> (forall i, 0 <= i < 8192 -> Z.abs (m i) <= 2 ^ 51) ->
    exists stc' sts' st' pos' ct' w, proposed_boot 60 1450 13 60 60 60 3 24 RM rnd stc sts st pos ct (map Some s) = Ok (stc', sts', st', pos', ct') /\
      decrypts 250 8192 ct' (coef s) w /\ forall i, 0 <= i < 8192 -> Z.abs (w i - m i) <= 2 ^ 43).
Proof.
  intros s Hs Hh'. assert (Hh : 0 <= norm1 8192 (coef s) <= 128) by (split; [apply norm1_nonneg|exact Hh']).
  eapply almost_all_impl; [| |apply (C116_128 60 8192 s ltac:(lia) ltac:(lia) Hs Hh')]; [unfold Rdiv; change (10 ^ 12) with 1000000000000; change (10 ^ 9) with 1000000000; change (10 ^ 8) with 100000000; lra|].
  cbv beta. intros a H RM rnd ct m stc sts st pos Hr Hstc Hsts Hst Hsnd Hd Hm.
  destruct (H 1450 ct (sq_new 1450 8192) m ltac:(lia) (new_object2 1450 8192 ltac:(lia) ltac:(lia)) Hsnd Hd) as (ct_m & I & E & Hdm & HI).
  { intros i Hi. specialize (Hm i Hi). lia. }
  assert (HI' : forall i, 0 <= i < 8192 -> Z.abs (I i) <= 23) by (intros i Hi; specialize (HI i Hi); lia).
  destruct (C75_proposed 13 60 1450 60 60 3 4 (t_params 13 3 60 ltac:(lia) ltac:(lia)) RM rnd s Hr Hs 23 (/ IZR (2 ^ 9))%R ct ct_m m I stc sts st pos)
    as (stc' & sts' & st' & pos' & ct' & w & E' & _ & _ & _ & Hd' & Hw); auto.
  - intros i Hi. specialize (Hm i Hi). rewrite <- abs_IZR. apply IZR_le in Hm. unfold boot_q. change (2 ^ 51) with 2251799813685248 in Hm. change (2 ^ 60) with 1152921504606846976. change (2 ^ 9) with 512. lra.
  - change (2 ^ 13) with 8192. apply t_24 with (sw := (5 / 10000000000)%R) (r := (2 / 1000000000 * 100)%R); t_numbers.
  - exists stc', sts', st', pos', ct', w. split; [exact E'|]. split; [exact Hd'|].
    intros i Hi. apply Rabs_IZR_le. rewrite minus_IZR. eapply Rle_trans; [apply (Hw i Hi)|]. change (2 ^ 13) with 8192.
    apply t_proposed with (sw := (5 / 10000000000)%R) (c := (46 / 100000000000000)%R) (d := (48 / 100000000000000)%R) (r := (2 / 1000000000 * 100)%R) (em := (164 / 1000000000)%R) (e := (5000 / 1000000000)%R); t_numbers.
Qed.
Theorem C117_conventional_8192 : forall s, ternary 8192 s -> norm1 8192 (coef s) <= 128 ->
  almost_all 60 8192 (12 / IZR (10 ^ 8)) (fun a => forall RM rnd ct m stc sts st pos, rand_stream RM rnd ->
    cts_static 1450 13 60 3 stc -> stc_static 490 13 50 3 sts -> ifft_static 13 st ->
    holdsP 60 8192 (snd ct) (coef a) -> decrypts 60 8192 ct (coef s) m -> (forall i, 0 <= i < 8192 -> Z.abs (m i) <= 2 ^ 51) ->
    exists stc' sts' st' pos' ct' w, conventional_boot 60 1450 13 60 60 50 3 24 RM rnd stc sts st pos ct (map Some s) = Ok (stc', sts', st', pos', ct') /\
      decrypts 290 8192 ct' (coef s) w /\ forall i, 0 <= i < 8192 -> Z.abs (w i - m i) <= 2 ^ 43).
Proof.
  intros s Hs Hh'. assert (Hh : 0 <= norm1 8192 (coef s) <= 128) by (split; [apply norm1_nonneg|exact Hh']).
  eapply almost_all_impl; [| |apply (C116_128 60 8192 s ltac:(lia) ltac:(lia) Hs Hh')]; [unfold Rdiv; change (10 ^ 12) with 1000000000000; change (10 ^ 9) with 1000000000; change (10 ^ 8) with 100000000; lra|].
  cbv beta. intros a H RM rnd ct m stc sts st pos Hr Hstc Hsts Hst Hsnd Hd Hm.
  destruct (H 1450 ct (sq_new 1450 8192) m ltac:(lia) (new_object2 1450 8192 ltac:(lia) ltac:(lia)) Hsnd Hd) as (ct_m & I & E & Hdm & HI).
  { intros i Hi. specialize (Hm i Hi). lia. }
  assert (HI' : forall i, 0 <= i < 8192 -> Z.abs (I i) <= 23) by (intros i Hi; specialize (HI i Hi); lia).
  destruct (C74_conventional 13 60 1450 60 50 3 4 (t_params 13 3 50 ltac:(lia) ltac:(lia)) RM rnd s Hr Hs 23 (/ IZR (2 ^ 9))%R ct ct_m m I stc sts st pos)
    as (stc' & sts' & st' & pos' & ct' & w & E' & _ & _ & _ & Hd' & Hw); auto.
  - intros i Hi. specialize (Hm i Hi). rewrite <- abs_IZR. apply IZR_le in Hm. unfold boot_q. change (2 ^ 51) with 2251799813685248 in Hm. change (2 ^ 60) with 1152921504606846976. change (2 ^ 9) with 512. lra.
  - change (2 ^ 13) with 8192. apply t_24 with (sw := (5 / 10000000000)%R) (r := (2 / 1000000000 * 100)%R); t_numbers.
  - exists stc', sts', st', pos', ct', w. split; [exact E'|]. split; [exact Hd'|].
    intros i Hi. apply Rabs_IZR_le. rewrite minus_IZR. eapply Rle_trans; [apply (Hw i Hi)|]. change (2 ^ 13) with 8192.
    apply t_conventional with (sw := (5 / 10000000000)%R) (c := (46 / 100000000000000)%R) (d := (48 / 100000000000000)%R) (r := (2 / 1000000000 * 100)%R) (em := (164 / 1000000000)%R) (e := (5000 / 1000000000)%R); t_numbers.
Qed.

(** ** Instances *)
(** a key with 128 nonzero coefficients, for which there are ciphertexts of 0 with larger multiples of q (C79): all but 8 in 10^9 of the
    second components are good, so there is one, and with it the bootstrapping works for every message *)
Example C117_case : exists a, length a = 512%nat /\ Forall (fun x => - 2 ^ 59 <= x < 2 ^ 59) a /\
  forall m RM rnd pos, rand_stream RM rnd -> (forall i, 0 <= i < 512 -> Z.abs (m i) <= 2 ^ 51) ->
  let ct := repS 60 512 (fun i => m i - negconv 512 (coef key128) (coef a) i) (coef a) in
  decrypts 60 512 ct (coef key128) m /\
  exists stc' sts' st' pos' ct' w, proposed_boot 60 1450 9 60 60 60 2 24 RM rnd None None None pos ct (map Some key128) = Ok (stc', sts', st', pos', ct') /\
    decrypts 250 512 ct' (coef key128) w /\ forall i, 0 <= i < 512 -> Z.abs (w i - m i) <= 2 ^ 35.
Proof.
  assert (He : (8 / IZR (10 ^ 9) < 1)%R) by (change (10 ^ 9) with 1000000000; lra).
  destruct (almost_all_one 60 512 _ _ ltac:(lia) He (C117_proposed_512 key128 key128_ternary ltac:(rewrite key128_norm; lia))) as (a & Hl & Ha & H).
  exists a. split; [exact Hl|]. split; [exact Ha|]. intros m RM rnd pos Hr Hm. cbv zeta.
  match goal with |- ?A /\ _ => assert (Hd : A) end.
  { apply decrypts_rep; try lia. eexists _, _. split; [reflexivity|]. apply pcong_peq. intros i Hi. unfold padd. lia. }
  split; [exact Hd|]. apply (H RM rnd _ m None None None pos Hr); auto; try apply (repP_holds 60 512); try lia; constructor.
Qed.
(** the numbers of the experiment with dimension 2^17 *)
Example C116_case s : ternary (2 ^ 17) s -> norm1 (2 ^ 17) (coef s) = 128 ->
  almost_all 60 (2 ^ 17) (2 / IZR (10 ^ 6)) (fun a => forall ct m, holdsP 60 (2 ^ 17) (snd ct) (coef a) -> decrypts 60 (2 ^ 17) ct (coef s) m -> (forall i, 0 <= i < 2 ^ 17 -> Z.abs (m i) <= 2 ^ 51) ->
    exists ct' I, mod_raise 60 1450 (2 ^ 17) ct (sq_new 1450 (2 ^ 17)) = Ok ct' /\ decrypts 1450 (2 ^ 17) ct' (coef s) (fun i => m i + 2 ^ 60 * I i) /\ forall i, 0 <= i < 2 ^ 17 -> Z.abs (I i) < 24).
Proof.
  intros Hs Hh. eapply almost_all_impl; [| |apply (C116_128 60 (2 ^ 17) s ltac:(lia) ltac:(lia) Hs ltac:(lia))].
  - change (10 ^ 12) with 1000000000000. change (10 ^ 6) with 1000000. change (2 ^ 17) with 131072. lra.
  - cbv beta. intros a H ct m H1 H2 H3. apply (H 1450 ct _ m ltac:(lia) (new_object2 1450 (2 ^ 17) ltac:(lia) ltac:(lia)) H1 H2). intros i Hi. specialize (H3 i Hi). lia.
Qed.
Lemma key17_exists : ternary (2 ^ 17) (repeat 1 (Z.to_nat 128) ++ repeat 0 (Z.to_nat (2 ^ 17 - 128))).
Proof. split; [rewrite app_length, !repeat_length; lia|]. apply Forall_app. split; apply Forall_forall; intros x Hx; apply repeat_spec in Hx; lia. Qed.

Print Assumptions C116_mod_raise.
Print Assumptions C116_128.
Print Assumptions C117_proposed_512.
Print Assumptions C117_conventional_512.
Print Assumptions C117_proposed_8192.
Print Assumptions C117_conventional_8192.
