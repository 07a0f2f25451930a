(** eval_poly_deg3, ..., eval_poly_deg127 on ciphertexts. *)
From Coq Require Import ZArith List Bool Lia Reals Lra Ring.
From Verif Require Import Base BaseFacts Sums ZQ ZQFacts RQ RQFacts Conv Rot Core CoreFacts Util UtilFacts GSum Matrix MatrixFacts DFT DFTTheory DFTFacts FFTFacts
  SpecZQ SpecPoly SpecPolyFacts SpecScheme SpecMat SpecDFT SpecEnc SlotFacts Encode EncodeFacts PolyCong Noise Properties_DFT Properties_Conv Properties_Core Properties_Plain LinTrans LinTransFacts LinSlots BootSlots
  SpecCheb Poly ChebFacts SpecEval.
Import ListNotations.
Open Scope Z_scope.
Add Ring RCev : HR.

Lemma slots_scale N D k a j : slots N D (fun i => k * a i) j = (real (IZR k) * slots N D a j)%num.
Proof. unfold slots. rewrite <- slot_scale. apply slot_ext. intros i Hi. rewrite mult_IZR. unfold Rdiv. ring. Qed.
Lemma slots_rescale N D k a j : (IZR k <> 0)%R -> (D <> 0)%R -> slots N (D * IZR k) (fun i => k * a i) j = slots N D a j.
Proof. intros Hk HD. unfold slots. apply slot_ext. intros i Hi. rewrite mult_IZR. field. auto. Qed.
Lemma IZR_negconv N a b i : IZR (negconv N a b i) = rnegconv N (fun i => IZR (a i)) (fun i => IZR (b i)) i.
Proof.
  unfold negconv, rnegconv, gsum, zsum, Sums.gsum. induction (Z.to_nat N) as [|k IH]; [reflexivity|]. cbn [sumn nsum].
  rewrite plus_IZR, IH, mult_IZR. cbn. destruct (_ <=? _); [reflexivity|]. rewrite opp_IZR. reflexivity.
Qed.
Lemma slots_negconv N D1 D2 a b j : 0 < N -> 0 <= j -> (D1 <> 0)%R -> (D2 <> 0)%R ->
  slots N (D1 * D2) (negconv N a b) j = (slots N D1 a j * slots N D2 b j)%num.
Proof.
  intros HN Hj H1 H2. unfold slots. rewrite <- slot_negconv by auto. apply slot_ext. intros i Hi.
  rewrite IZR_negconv. unfold rnegconv. unfold Rdiv. rewrite Rmult_comm.
  pose proof (gsum_scale Rlawful N (/ (D1 * D2))%R (fun k => (IZR (a k) * (if (k <=? i)%Z then IZR (b (i - k)%Z) else - IZR (b (N + i - k)%Z)))%R)) as G.
  cbn [omul Rops] in G. rewrite <- G. apply (gsum_ext (K := Rops)). intros k Hk. match goal with |- @eq _ ?x ?y => change (@eq R x y) end.
  destruct (k <=? i); field; auto.
Qed.
Definition const (c i : Z) : Z := if i =? 0 then c else 0.
Lemma slots_const N D c j : 0 < N -> slots N D (const c) j = real (IZR c / D).
Proof.
  intros HN. unfold slots. rewrite slot_eN by auto.
  rewrite (gsum_ext _ _ (fun k => if k =? 0 then (real (IZR c / D) : RC) else 0%num)).
  2: { intros k Hk. unfold const. destruct (Z.eqb_spec k 0) as [->|].
    - rewrite Z.mul_0_r. unfold eN, cosN, sinN. rewrite Rmult_0_r, cos_0, sin_0. apply RC_eq; cbn; ring.
    - apply RC_eq; cbn; unfold Rdiv; ring. }
  rewrite (gsum_delta HC) by lia. reflexivity.
Qed.

Lemma first_word0 LOGQ w : 1 <= LOGQ -> is_word w -> wr (rep LOGQ 0) 0 w = Ok (raw (len LOGQ) w).
Proof.
  intros HQ Hw. unfold rep. rewrite Z.mod_0_l by (apply Z.pow_nonzero; lia). apply (first_word LOGQ 2 HQ ltac:(lia) w Hw).
Qed.
Lemma decrypts_mod LOGQ N ct s m m' : (forall i, 0 <= i < N -> m i mod 2 ^ LOGQ = m' i mod 2 ^ LOGQ) -> decrypts LOGQ N ct s m -> decrypts LOGQ N ct s m'.
Proof. intros H (a & b & Ha & Hb & E). exists a, b. split; [auto|]. split; [auto|]. intros i Hi. rewrite <- H by auto. auto. Qed.

Lemma holdsP_is_object Q M P a : holdsP Q M P a -> objectP Q M P.
Proof.
  intros [H1 H2]. split; [auto|]. apply Forall_forall. intros A HA. apply In_nth_error in HA. destruct HA as [n Hn].
  assert (n < length P)%nat by (apply nth_error_Some; congruence).
  destruct (H2 (Z.of_nat n) A ltac:(lia) ltac:(rewrite Nat2Z.id; auto)) as [HL _]. exact HL.
Qed.

Section Ops.
Context (LOGN : Z) (HL : 1 <= LOGN <= 17) (s : Z -> Z).
Let N := 2 ^ LOGN. Let h := norm1 N s.
Local Lemma HN : 2 <= N.
Proof. unfold N. change 2 with (2 ^ 1) at 1. apply Z.pow_le_mono_r; lia. Qed.

Lemma carries_ext Q ct D x y e e' : (forall j, 0 <= j < N / 2 -> x j = y j) -> (e <= e')%R -> carries Q N s ct D x e -> carries Q N s ct D y e'.
Proof. intros H He (m & Hm & Hs). exists m. split; auto. intros j Hj. rewrite <- H by auto. eapply Rle_trans; [apply Hs; auto|auto]. Qed.

Lemma carries_RS fr to ct D Delta x e : 1 <= to <= fr -> (0 < Delta)%R -> object2 to N D -> carries fr N s ct (Delta * IZR (2 ^ (fr - to))) x e ->
  exists ct', RS fr to N ct D = Ok ct' /\ carries to N s ct' Delta x (e + rescale_noise N h Delta).
Proof.
  intros Hft HD Ho (m & Hm & Hs). pose proof HN.
  destruct (C37_RS fr to N ct D s m Hft ltac:(lia) Ho Hm) as (ct' & m' & er & E & Hm' & Hr). set (d := fr - to) in *.
  assert (Hd : 0 < 2 ^ d) by (apply Z.pow_pos_nonneg; lia). assert (Ht : 0 < 2 ^ to) by (apply Z.pow_pos_nonneg; lia).
  assert (Hft2 : 2 ^ fr = 2 ^ d * 2 ^ to) by (rewrite <- Z.pow_add_r by lia; f_equal; lia).
  exists ct'. split; [auto|]. exists (fun i => (m i + er i) / 2 ^ d).
  assert (Hdiv : forall i, 0 <= i < N -> 2 ^ d * ((m i + er i) / 2 ^ d) = m i + er i /\ ((m i + er i) / 2 ^ d) mod 2 ^ to = m' i mod 2 ^ to).
  { intros i Hi. destruct (Hr i Hi) as [Ei _]. rewrite Hft2 in Ei.
    pose proof (Z.div_mod (2 ^ d * m' i) (2 ^ d * 2 ^ to) ltac:(nia)) as E1. pose proof (Z.div_mod (m i + er i) (2 ^ d * 2 ^ to) ltac:(nia)) as E2. rewrite Ei in E1.
    set (q1 := 2 ^ d * m' i / (2 ^ d * 2 ^ to)) in *. set (q2 := (m i + er i) / (2 ^ d * 2 ^ to)) in *.
    assert (E3 : m i + er i = 2 ^ d * (m' i + 2 ^ to * (q2 - q1))) by nia. rewrite E3. rewrite (Z.mul_comm (2 ^ d) (m' i + _)), Z.div_mul by lia. split; [lia|].
    replace (m' i + 2 ^ to * (q2 - q1)) with (m' i + (q2 - q1) * 2 ^ to) by lia. apply Z_mod_plus_full. }
  split.
  - eapply decrypts_mod; [|exact Hm']. intros i Hi. symmetry. apply Hdiv. auto.
  - intros j Hj. assert (Hd' : (IZR (2 ^ d) <> 0)%R) by (apply IZR_neq; lia).
    rewrite <- (slots_rescale N Delta (2 ^ d)) by (auto; lra).
    rewrite (slots_ext N _ _ (fun i => m i + er i)) by (intros i Hi; apply Hdiv; auto). rewrite slots_add.
    match goal with |- (modulus ?z0 <= _)%R => replace z0 with ((slots N (Delta * IZR (2 ^ d)) m j - x j) + slots N (Delta * IZR (2 ^ d)) er j)%num by ring end.
    eapply Rle_trans; [apply modulus_add|]. apply Rplus_le_compat; [apply Hs; auto|].
    eapply Rle_trans; [apply (slots_small N _ er (2 ^ d * (1 + h)) j)|].
    + lia.
    + apply Rmult_lt_0_compat; [auto|apply IZR_lt; lia].
    + intros i Hi. destruct (Hr i Hi) as [_ Hb]. fold h in Hb. destruct (Z.eq_dec d 0) as [E0|E0].
      * rewrite E0 in *. change (2 ^ (0 - 1)) with 0 in Hb. assert (0 <= h) by (apply norm1_nonneg). lia.
      * assert (2 ^ d = 2 * 2 ^ (d - 1)) by (rewrite <- Z.pow_succ_r by lia; f_equal; lia). nia.
    + unfold rescale_noise. rewrite mult_IZR. apply Req_le. field. split; [lra|auto].
Qed.

Lemma near_mul (x1 x2 y1 y2 : CC) e1 e2 M1 M2 : (modulus (y1 - x1)%num <= e1)%R -> (modulus (y2 - x2)%num <= e2)%R -> (modulus x1 <= M1)%R -> (modulus x2 <= M2)%R ->
  (modulus (y1 * y2 - x1 * x2)%num <= M1 * e2 + M2 * e1 + e1 * e2)%R.
Proof.
  intros H1 H2 HM1 HM2.
  replace (y1 * y2 - x1 * x2)%num with (x1 * (y2 - x2) + x2 * (y1 - x1) + (y1 - x1) * (y2 - x2))%num by ring.
  eapply Rle_trans; [apply modulus_add|]. eapply Rle_trans; [apply Rplus_le_compat_r, modulus_add|]. rewrite !modulus_mul.
  pose proof (modulus_nonneg (y1 - x1)%num). pose proof (modulus_nonneg (y2 - x2)%num). pose proof (modulus_nonneg x1). pose proof (modulus_nonneg x2).
  repeat apply Rplus_le_compat; apply Rmult_le_compat; auto.
Qed.

Lemma carries_Mul Q ct1 ct2 evk D D1 D2 x1 x2 e1 e2 M1 M2 : widths Q -> widths (2 * Q) -> switching_key Q N evk (negconv N s s) s -> object2 Q N D ->
  (0 < D1)%R -> (0 < D2)%R -> (forall j, 0 <= j < N / 2 -> (modulus (x1 j) <= M1)%R) -> (forall j, 0 <= j < N / 2 -> (modulus (x2 j) <= M2)%R) ->
  carries Q N s ct1 D1 x1 e1 -> carries Q N s ct2 D2 x2 e2 ->
  exists ct3, Mul Q N ct1 ct2 evk D = Ok ct3 /\
    carries Q N s ct3 (D1 * D2) (fun j => x1 j * x2 j)%num (M1 * e2 + M2 * e1 + e1 * e2 + IZR N * IZR (8 * N + 1 + h) / (2 * (D1 * D2))).
Proof.
  intros HW HW2 Hk Ho HD1 HD2 HM1 HM2 (m1 & H1 & Hs1) (m2 & H2 & Hs2). pose proof HN.
  destruct (C39_Mul_key LOGN Q ct1 ct2 evk D s m1 m2 HL HW HW2 Hk H1 H2 Ho) as (ct3 & e & E & Hd & He). fold N in E, Hd, He.
  exists ct3. split; [auto|]. eexists. split; [exact Hd|]. intros j Hj. rewrite slots_add, slots_negconv by (try lia; lra).
  match goal with |- (modulus ?z0 <= _)%R => replace z0 with ((slots N D1 m1 j * slots N D2 m2 j - x1 j * x2 j) + slots N (D1 * D2) e j)%num by ring end.
  eapply Rle_trans; [apply modulus_add|]. apply Rplus_le_compat; [apply near_mul; auto|].
  apply slots_small; [lia|apply Rmult_lt_0_compat; auto|]. intros i Hi. apply He. auto.
Qed.

Lemma carries_scale Q ct D x e w : 1 <= Q -> 0 <= w < 2 ^ 64 -> carries Q N s ct D x e ->
  exists ct', sq_mul_word Q N ct w = Ok ct' /\ carries Q N s ct' D (fun j => real (IZR w) * x j)%num (IZR w * e).
Proof.
  intros HQ Hw (m & Hm & Hs). pose proof HN. destruct (C36_mul_word Q N ct s m w HQ ltac:(lia) Hw Hm) as (ct' & E & H').
  exists ct'. split; [auto|]. eexists. split; [exact H'|]. intros j Hj.
  rewrite (slots_ext N D _ (fun i => w * m i)) by (intros; lia). rewrite slots_scale.
  match goal with |- (modulus ?z0 <= _)%R => replace z0 with (real (IZR w) * (slots N D m j - x j))%num by ring end.
  rewrite modulus_mul, modulus_real, Rabs_right by (apply Rle_ge, IZR_le; lia). apply Rmult_le_compat_l; [apply IZR_le; lia|auto].
Qed.
Lemma carries_raise Q ct D x e w : 1 <= Q -> 0 < w < 2 ^ 64 -> (0 < D)%R -> carries Q N s ct D x e ->
  exists ct', sq_mul_word Q N ct w = Ok ct' /\ carries Q N s ct' (D * IZR w) x e.
Proof.
  intros HQ Hw HD (m & Hm & Hs). pose proof HN. destruct (C36_mul_word Q N ct s m w HQ ltac:(lia) ltac:(lia) Hm) as (ct' & E & H').
  exists ct'. split; [auto|]. eexists. split; [exact H'|]. intros j Hj.
  rewrite (slots_ext N _ _ (fun i => w * m i)) by (intros; lia). rewrite slots_rescale; [auto| |lra]. apply IZR_neq; lia.
Qed.
Lemma carries_add Q ct1 ct2 D x1 x2 e1 e2 : 1 <= Q -> carries Q N s ct1 D x1 e1 -> carries Q N s ct2 D x2 e2 ->
  exists ct', sq_add Q N ct1 ct2 = Ok ct' /\ carries Q N s ct' D (fun j => x1 j + x2 j)%num (e1 + e2).
Proof.
  intros HQ (m1 & H1 & Hs1) (m2 & H2 & Hs2). pose proof HN. destruct (C36_add Q N ct1 ct2 s m1 m2 HQ ltac:(lia) H1 H2) as (ct' & E & H').
  exists ct'. split; [auto|]. eexists. split; [exact H'|]. intros j Hj. rewrite slots_add.
  match goal with |- (modulus ?z0 <= _)%R => replace z0 with ((slots N D m1 j - x1 j) + (slots N D m2 j - x2 j))%num by ring end.
  eapply Rle_trans; [apply modulus_add|]. apply Rplus_le_compat; auto.
Qed.
(** adding a polynomial to the first component *)
Lemma decrypts_plain Q ct m p : 1 <= Q -> decrypts Q N ct s m -> exists t0, rq_add Q N (fst ct) (repP Q N p) = Ok t0 /\ decrypts Q N (t0, snd ct) s (fun i => m i + p i).
Proof.
  intros HQ H. pose proof HN. apply decrypts_rep in H; try lia. destruct H as (a & b & -> & H). cbn [repS fst snd]. rewrite rq_add_rep by lia. eexists. split; [reflexivity|].
  apply decrypts_rep; try lia. exists (fun i => a i + p i), b. split; [reflexivity|].
  change (fun i => m i + p i) with (padd m p). rewrite <- H. apply pcong_peq. intros i Hi. unfold padd. lia.
Qed.
Lemma carries_const Q ct D x e c : 1 <= Q -> carries Q N s ct D x e ->
  exists t0, rq_add Q N (fst ct) (repP Q N (const c)) = Ok t0 /\ carries Q N s (t0, snd ct) D (fun j => x j + real (IZR c / D))%num e.
Proof.
  intros HQ (m & Hm & Hs). pose proof HN. destruct (decrypts_plain Q ct m (const c) HQ Hm) as (t0 & E & H'). exists t0. split; [auto|].
  eexists. split; [exact H'|]. intros j Hj. rewrite slots_add, slots_const by lia.
  match goal with |- (modulus ?z0 <= _)%R => replace z0 with (slots N D m j - x j)%num by ring end. auto.
Qed.
(** subtracting a constant from the first coefficient *)
Lemma carries_sub0 Q ct D x e c : 1 <= Q -> carries Q N s ct D x e ->
  exists t0, pupd (fst ct) 0 (fun A => zq_sub Q A (rep Q c)) = Ok t0 /\ carries Q N s (t0, snd ct) D (fun j => x j - real (IZR c / D))%num e.
Proof.
  intros HQ (m & Hm & Hs). pose proof HN. apply decrypts_rep in Hm; try lia. destruct Hm as (a & b & -> & Hm). cbn [repS fst snd].
  unfold repP at 1. rewrite (pupd_tab N _ _ _ (rep Q (a 0 - c))) by (try lia; apply zq_sub_rep; auto). eexists. split; [reflexivity|].
  exists (fun i => m i - const c i). split.
  - apply decrypts_rep; try lia. exists (fun i => a i - const c i), b. split.
    + unfold repS, repP. f_equal. apply tab_ext. intros i Hi. unfold const. destruct (Z.eqb_spec i 0) as [->|]; [reflexivity|]. f_equal. lia.
    + change (fun i => m i - const c i) with (psub m (const c)). rewrite <- Hm. apply pcong_peq. intros i Hi. unfold padd, psub. lia.
  - intros j Hj. rewrite slots_sub, slots_const by lia.
    match goal with |- (modulus ?z0 <= _)%R => replace z0 with (slots N D m j - x j)%num by ring end. auto.
Qed.
Lemma carries_add0 Q ct D x e c : 1 <= Q -> carries Q N s ct D x e ->
  exists t0, pupd (fst ct) 0 (fun A => zq_add Q A (rep Q c)) = Ok t0 /\ carries Q N s (t0, snd ct) D (fun j => x j + real (IZR c / D))%num e.
Proof.
  intros HQ (m & Hm & Hs). pose proof HN. apply decrypts_rep in Hm; try lia. destruct Hm as (a & b & -> & Hm). cbn [repS fst snd].
  unfold repP at 1. rewrite (pupd_tab N _ _ _ (rep Q (a 0 + c))) by (try lia; apply zq_add_rep; auto). eexists. split; [reflexivity|].
  exists (fun i => m i + const c i). split.
  - apply decrypts_rep; try lia. exists (fun i => a i + const c i), b. split.
    + unfold repS, repP. f_equal. apply tab_ext. intros i Hi. unfold const. destruct (Z.eqb_spec i 0) as [->|]; [reflexivity|]. f_equal. lia.
    + change (fun i => m i + const c i) with (padd m (const c)). rewrite <- Hm. apply pcong_peq. intros i Hi. unfold padd. lia.
  - intros j Hj. rewrite slots_add, slots_const by lia.
    match goal with |- (modulus ?z0 <= _)%R => replace z0 with (slots N D m j - x j)%num by ring end. auto.
Qed.
(** multiplying by a constant polynomial *)
Lemma carries_times Q ct D x e c D2 : widths Q -> (0 < D)%R -> (0 < D2)%R -> carries Q N s ct D x e ->
  exists ct', sq_mul Q N ct (repP Q N (const c)) = Ok ct' /\ carries Q N s ct' (D * D2) (fun j => x j * real (IZR c / D2))%num (Rabs (IZR c / D2) * e).
Proof.
  intros HW HD HD2 (m & Hm & Hs). pose proof HN. assert (HQ : 1 <= Q) by (unfold widths in HW; lia).
  destruct (C36_mul_plain LOGN Q ct s m _ (const c) HL HW Hm (repP_holds Q N (const c) HQ ltac:(lia))) as (ct' & E & H'). exists ct'. split; [auto|].
  eexists. split; [exact H'|]. fold N. intros j Hj. rewrite slots_negconv, slots_const by (try lia; lra).
  match goal with |- (modulus ?z0 <= _)%R => replace z0 with (real (IZR c / D2) * (slots N D m j - x j))%num by ring end.
  rewrite modulus_mul, modulus_real. apply Rmult_le_compat_l; [apply Rabs_pos|auto].
Qed.
Lemma carries_copy Q ct D x e C : 1 <= Q -> object2 Q N C -> carries Q N s ct D x e -> sq_copy Q N C ct = Ok ct.
Proof.
  intros HQ HC' (m & Hm & _). pose proof HN. apply decrypts_rep in Hm; try lia. destruct Hm as (a & b & -> & _). apply sq_copy_rep; try lia. apply object2_obj; auto; lia.
Qed.
Lemma carries_object Q ct D x e : 1 <= Q -> carries Q N s ct D x e -> object2 Q N ct.
Proof.
  intros HQ (m & (a & b & Ha & Hb & _) & _). split; eapply holdsP_is_object; eauto.
Qed.
End Ops.
