(** The evaluation of polynomials and EvalMod in floating-point arithmetic. *)
From Coq Require Import ZArith List Bool Lia Reals Lra Ring.
From Verif Require Import Base BaseFacts Sums ZQ ZQFacts RQ RQFacts Conv ConvFacts Rot Core CoreFacts Util UtilFacts GSum Matrix MatrixFacts DFT DFTTheory DFTFacts FFTFacts
  SpecZQ SpecPoly SpecPolyFacts SpecScheme SpecMat SpecDFT SpecEnc SlotFacts Encode EncodeFacts PolyRing PolyCong Noise Properties_DFT Properties_Conv Properties_Core Properties_Plain LinTrans LinTransFacts LinSlots BootSlots
  SpecCheb Poly ChebFacts SpecEval EvalFacts EvalPoly Properties_Poly PiBound CosTaylor PolyZ CosApprox SpecMod ModApprox EvalMod EvalModFacts Float SpecFloat.
From Verif Require Import FloatMod SpecFloatMod.
Import ListNotations.
Open Scope Z_scope.
Add Ring RCfm : HR.

(** ** Words *)
Lemma abs_inv x b : (Rabs x <= b)%R -> (- b <= x <= b)%R.
Proof. intros H. pose proof (Rle_abs x). pose proof (Rle_abs (- x)) as G. rewrite Rabs_Ropp in G. lra. Qed.
Lemma trunc_small x : (-1 < x < 1)%R -> trunc x = 0.
Proof.
  intros H. pose proof (trunc_abs x) as T. rewrite <- abs_IZR in T. assert (A : (Rabs x < 1)%R) by (apply Rabs_def1; lra).
  assert (Z.abs (trunc x) < 1); [apply lt_IZR; lra|lia].
Qed.
(** The word of y, which is c*Delta up to a relative error v and an absolute error eta, is that of c'*Delta *)
Lemma word_of Delta v eta c y : (1 <= Delta)%R -> (0 <= c)%R -> (0 <= v <= / 4)%R -> (0 <= eta <= / 1024)%R -> (Rabs (y - c * Delta) <= v * (c * Delta) + eta)%R ->
  exists c', (0 <= c')%R /\ (Rabs (c' - c) <= v * c + eta / Delta)%R /\ r_to_u64 y = r_to_u64 (c' * Delta) /\ ((0 < c)%R -> (0 < c')%R).
Proof.
  intros HD Hc Hv He Hy. assert (HcD : (0 <= c * Delta)%R) by (apply Rmult_le_pos; lra). assert (Hed : (0 <= eta / Delta)%R) by (apply Rmult_le_pos; [lra|apply Rlt_le, Rinv_0_lt_compat; lra]).
  apply abs_inv in Hy. assert (HvD : (v * (c * Delta) <= / 4 * (c * Delta))%R) by (apply Rmult_le_compat_r; lra).
  destruct (Rle_dec y 0) as [Hn|Hp].
  - exists c. split; [auto|]. split; [replace (c - c)%R with 0%R by ring; rewrite Rabs_R0; pose proof (Rmult_le_pos v c); lra|]. split; [|auto].
    unfold r_to_u64. fold (trunc y). fold (trunc (c * Delta)). rewrite !trunc_small by lra. reflexivity.
  - exists (y / Delta)%R. assert (HyD : (y / Delta * Delta = y)%R) by (field; lra).
    assert (Hi : (0 < / Delta)%R) by (apply Rinv_0_lt_compat; lra).
    split; [apply Rmult_le_pos; lra|]. split; [|split; [rewrite HyD; reflexivity|intros _; apply Rmult_lt_0_compat; lra]].
    replace (y / Delta - c)%R with ((y - c * Delta) * / Delta)%R by (field; lra). rewrite Rabs_mult, (Rabs_right (/ Delta)) by lra.
    replace (v * c + eta / Delta)%R with ((v * (c * Delta) + eta) * / Delta)%R by (field; lra). apply Rmult_le_compat_r; [lra|]. apply Rabs_le. lra.
Qed.

Section Ar.
Context (F : fpu) (u eta top t : R) (ar : arithmetic u eta top t (rnd F) (dpi F) (lcos F) (lsin F)).

(** ** The coefficients of polynomials *)
Lemma L0_as_exact sg LD x : 1 <= LD <= 63 -> (Rabs x * IZR (2 ^ LD) <= top)%R -> (sg = false -> (0 <= x)%R) ->
  exists x', (Rabs (x' - x) <= u * Rabs x + eta / IZR (2 ^ LD))%R /\ (sg = false -> (0 <= x')%R) /\
    forall LOGQ N n, f_L0_entry F sg LOGQ N LD n x = L0_entry sg LOGQ N LD n x'.
Proof.
  intros HLD Ht Hsg. pose proof (HDelta LD HLD) as HD. set (Delta := IZR (2 ^ LD)) in *. pose proof (ar_u _ _ _ _ _ _ _ _ ar) as Hu. pose proof (ar_eta _ _ _ _ _ _ _ _ ar) as Heta.
  pose proof (Rabs_pos x) as Hx0. assert (HxD : (0 <= Rabs x * Delta)%R) by (apply Rmult_le_pos; lra).
  destruct (word_of Delta u eta (Rabs x) (rnd F (Rabs x * Delta)) ltac:(lra) Hx0 ltac:(lra) Heta) as (c & Hc0 & Hc & Ew & Hcp).
  { pose proof (ar_rnd _ _ _ _ _ _ _ _ ar (Rabs x * Delta)) as A. rewrite (Rabs_right (Rabs x * Delta)) in A by lra. apply A. exact Ht. }
  destruct (Rlt_dec x 0) as [Hn|Hp].
  - exists (- c)%R. rewrite (Rabs_left x) in * by auto. specialize (Hcp ltac:(lra)). split; [|split].
    + replace (- c - x)%R with (- (c - - x))%R by ring. rewrite Rabs_Ropp. exact Hc.
    + intros E. specialize (Hsg E). lra.
    + intros LOGQ N n. destruct sg; [|specialize (Hsg eq_refl); lra]. unfold f_L0_entry, L0_entry. rewrite one_shl_ok by auto. cbn [bind]. fold Delta.
      rewrite (Rabs_left x), (Rabs_left (- c)) by lra. rewrite Ropp_involutive, Ew. destruct (Rlt_dec x 0); [|lra]. destruct (Rlt_dec (- c) 0); [|lra]. reflexivity.
  - exists c. rewrite (Rabs_right x) in * by lra. split; [exact Hc|]. split; [auto|].
    intros LOGQ N n. unfold f_L0_entry, L0_entry. rewrite one_shl_ok by auto. cbn [bind]. fold Delta.
    rewrite (Rabs_right x), (Rabs_right c) by lra. destruct (Rlt_dec x 0); [lra|]. destruct (Rlt_dec c 0); [lra|]. destruct sg; rewrite Ew; reflexivity.
Qed.
Lemma for_same {S} (b1 b2 : Z -> S -> res S) lo hi s : (forall i s, lo <= i < hi -> b1 i s = b2 i s) -> for_ lo hi b1 s = for_ lo hi b2 s.
Proof.
  intros H. unfold for_. remember (Z.to_nat (hi - lo)) as k eqn:Ek. revert lo s H Ek. induction k as [|k IH]; intros lo s H Ek; [reflexivity|].
  cbn [iter_up]. rewrite H by lia. destruct (b2 lo s); try reflexivity. cbn [bind]. apply IH; [intros; apply H; lia|lia].
Qed.
Lemma us_as_exact sg LD us : 1 <= LD <= 63 -> Forall (fun x => (Rabs x * IZR (2 ^ LD) <= top)%R /\ (sg = false -> (0 <= x)%R)) us ->
  exists vs, length vs = length us /\ Forall2 (fun x x' => (Rabs (x' - x) <= u * Rabs x + eta / IZR (2 ^ LD))%R /\ (sg = false -> (0 <= x')%R) /\
    forall LOGQ N n, f_L0_entry F sg LOGQ N LD n x = L0_entry sg LOGQ N LD n x') us vs.
Proof.
  intros HLD H. induction H as [|x us [Hx1 Hx2] _ (vs & Hl & IH)].
  - exists []. split; [reflexivity|constructor].
  - destruct (L0_as_exact sg LD x HLD Hx1 Hx2) as (x' & Hx'). exists (x' :: vs). split; [cbn; lia|]. constructor; auto.
Qed.
Lemma Forall2_len {A B} (P : A -> B -> Prop) l1 l2 : Forall2 P l1 l2 -> length l1 = length l2.
Proof. induction 1; cbn; congruence. Qed.
Lemma Forall2_nth {A B} (P : A -> B -> Prop) l1 l2 d1 d2 n : Forall2 P l1 l2 -> (n < length l1)%nat -> P (nth n l1 d1) (nth n l2 d2).
Proof. intros H. revert n. induction H as [|x y l1 l2 Hxy H IH]; intros n Hn; cbn in *; [lia|]. destruct n as [|n]; [auto|]. apply IH. lia. Qed.
Lemma eval_as_exact sg Q LOGN LD k us vs ct evk1 evks p : length us = (2 ^ S k)%nat -> length vs = length us ->
  Forall2 (fun x x' => forall LOGQ N n, f_L0_entry F sg LOGQ N LD n x = L0_entry sg LOGQ N LD n x') us vs ->
  f_eval_poly F sg Q (2 ^ LOGN) LD (2 ^ Z.of_nat k) (map Some us) ct evk1 evks p = eval_poly sg Q (2 ^ LOGN) LD (2 ^ Z.of_nat k) (map Some vs) ct evk1 evks p.
Proof.
  intros Hl Hl2 H2. unfold f_eval_poly, eval_poly. assert (E : f_L0_list F sg Q (2 ^ LOGN) LD (2 * 2 ^ Z.of_nat k) (map Some us) = L0_list sg Q (2 ^ LOGN) LD (2 * 2 ^ Z.of_nat k) (map Some vs)); [|rewrite E; reflexivity].
  rewrite (rlist_gtab us (S k) Hl), (rlist_gtab vs (S k)) by lia. unfold f_L0_list, L0_list.
  assert (E2 : 2 * 2 ^ Z.of_nat k = 2 ^ Z.of_nat (S k)) by (rewrite Nat2Z.inj_succ, Z.pow_succ_r by lia; reflexivity). rewrite E2.
  assert (Hlz : Z.of_nat (length us) = 2 ^ Z.of_nat (S k)) by (rewrite Hl, Nat2Z.inj_pow; reflexivity).
  apply for_same. intros i L Hi. rewrite !grd_gtab by lia. cbn [bind].
  replace (f_L0_entry F sg Q (2 ^ LOGN) LD i (rcoef us i)) with (L0_entry sg Q (2 ^ LOGN) LD i (rcoef vs i)); [reflexivity|].
  symmetry. unfold rcoef. apply (Forall2_nth (fun x x' => forall LOGQ N n, f_L0_entry F sg LOGQ N LD n x = L0_entry sg LOGQ N LD n x')); [exact H2|lia].
Qed.
Lemma product_value_near k a b (x : CC) (M : nat -> R) eps : (forall i, (i < k)%nat -> (modulus (cheb x (2 ^ i)) <= M i)%R) ->
  (forall n, 0 <= n < 2 ^ Z.of_nat k -> (Rabs (a n - b n) <= eps)%R) -> (modulus (product_value k a x - product_value k b x)%num <= part_bound M eps k)%R.
Proof.
  intros HM H. replace (product_value k a x - product_value k b x)%num with (product_value k (fun n => a n - b n)%R x); [apply part_bound_ok; auto|].
  unfold product_value. rewrite <- (gsum_sub HC). apply gsum_ext. intros n Hn. replace (real (a n - b n)) with (real (a n) - real (b n))%num by (apply RC_eq; cbn; ring). ring.
Qed.

(** In exact arithmetic the same functions with coefficients within [eps] *)
Lemma f_eval_poly_holds sg LOGN LD Q s evk1 evks M U V eps err us ws x ct p K :
  eval_setting sg LOGN LD Q s (evk1 :: evks) M U err ws x ct p -> (V * IZR (2 ^ LD) <= top)%R ->
  Forall2 (fun w x => (Rabs x <= V)%R /\ (sg = false -> (0 <= x)%R) /\ forall x', (Rabs (x' - x) <= u * V + eta / IZR (2 ^ LD))%R -> (Rabs (x' - w) <= eps)%R /\ (Rabs x' <= U)%R) ws us ->
  length evks = K -> (1 <= K)%nat -> length us = (2 ^ S K)%nat ->
  exists p', f_eval_poly F sg Q (2 ^ LOGN) LD (2 ^ Z.of_nat K) (map Some us) ct evk1 evks p = Ok p' /\
    carries (Q - LD * Z.of_nat (S K)) (2 ^ LOGN) s p' (IZR (2 ^ LD)) (fun j => product_value (S K) (rcoef ws) (x j))
      (poly_error (2 ^ LOGN) (norm1 (2 ^ LOGN) s) (IZR (2 ^ LD)) M U err (S K) + part_bound M eps (S K)).
Proof.
  intros ES HV H2 HK HK1 Hl. pose proof ES as [HL HLD HQ HW Hk Hus HU HM Hct Hp]. pose proof (HDelta LD HLD) as HD. set (Delta := IZR (2 ^ LD)) in *.
  pose proof (ar_u _ _ _ _ _ _ _ _ ar) as Hu.
  destruct (us_as_exact sg LD us HLD) as (vs & Hlv & Hvs).
  { apply Forall_forall. intros x0 Hx0. destruct (In_nth us x0 0%R Hx0) as (m & Hm & <-).
    pose proof (Forall2_len _ _ _ H2) as HL2. pose proof (Forall2_nth _ ws us 0%R 0%R m H2 ltac:(lia)) as (A & B & _). split; [|exact B]. fold Delta. eapply Rle_trans; [|exact HV]. apply Rmult_le_compat_r; lra. }
  fold Delta in Hvs.
  assert (Hlw : length ws = length us) by (apply (Forall2_len _ _ _ H2)).
  assert (Hv : forall m, (m < length us)%nat -> (Rabs (nth m vs 0 - nth m ws 0) <= eps)%R /\ (Rabs (nth m vs 0) <= U)%R /\ (sg = false -> (0 <= nth m vs 0)%R)).
  { intros m Hm. pose proof (Forall2_nth _ ws us 0%R 0%R m H2 ltac:(lia)) as (A & B & C). pose proof (Forall2_nth _ us vs 0%R 0%R m Hvs ltac:(lia)) as (A2 & B2 & _).
    destruct (C (nth m vs 0%R)) as [C1 C2]; [|auto]. eapply Rle_trans; [exact A2|]. apply Rplus_le_compat_r. apply Rmult_le_compat_l; lra. }
  assert (ES' : eval_setting sg LOGN LD Q s (evk1 :: evks) M U err vs x ct p).
  { constructor; auto. apply Forall_forall. intros x0 Hx0. destruct (In_nth vs x0 0%R Hx0) as (m & Hm & <-). destruct (Hv m ltac:(lia)) as (_ & B & C). split; [exact B|].
    intros E. specialize (C E). fold Delta. pose proof (Rmult_le_pos (nth m vs 0%R) Delta C ltac:(lra)). lra. }
  destruct (eval_poly_holds sg LOGN LD Q s evk1 evks M U err vs x ct p K ES' HK HK1 ltac:(lia)) as (p' & E & H'). exists p'. split.
  - rewrite (eval_as_exact sg Q LOGN LD K us vs); auto. clear - Hvs. induction Hvs as [|a b us vs (_ & _ & H) _ IH]; constructor; auto.
  - fold Delta in H'. apply (carries_near LOGN s _ _ _ _ (fun j => product_value (S K) (rcoef ws) (x j)) _ (part_bound M eps (S K))) in H'; [exact H'|].
    intros j Hj. apply product_value_near.
    + intros i Hi. apply HM; auto. cbn [length]. lia.
    + intros n Hn. unfold rcoef. apply Hv. rewrite Hl.
      replace (2 ^ S K)%nat with (Z.to_nat (2 ^ Z.of_nat (S K))) by (rewrite Z2Nat.inj_pow by lia; rewrite Nat2Z.id; reflexivity). lia.
Qed.

(** ** EvalMod *)
Section Mod.
Context (LOGN LD : Z) (HL : 1 <= LOGN <= 17) (HLD : 1 <= LD <= 61) (s : Z -> Z) (Htop : (IZR (2 ^ 62) <= top)%R).
Let N := 2 ^ LOGN. Let h := norm1 N s. Let Delta := IZR (2 ^ LD).
Local Lemma HN2 : 2 <= N.
Proof. unfold N. change 2 with (2 ^ 1) at 1. apply Z.pow_le_mono_r; lia. Qed.
Local Lemma HLD2 : 1 <= LD <= 63.
Proof. lia. Qed.
Local Lemma HD61 : (2 <= Delta <= IZR (2 ^ 61))%R.
Proof. split; [apply (HDelta LD HLD2)|]. apply IZR_le, Z.pow_le_mono_r; lia. Qed.

(** multiplication by a number y / Delta that is near c *)
Lemma f_carries_factor Q ct x e c v y X D : LD < Q -> (0 <= c <= 1)%R -> (0 <= v <= / 4)%R -> (Rabs (y - c * Delta) <= v * (c * Delta) + eta)%R ->
  (forall j, 0 <= j < N / 2 -> (modulus (x j) <= X)%R) -> (0 <= X)%R -> object2 (Q - LD) N D -> carries Q N s ct Delta x e ->
  exists w ct' ct'', r_to_u64 y = Ok w /\ sq_mul_word Q N ct w = Ok ct' /\ RS Q (Q - LD) N ct' D = Ok ct'' /\
    carries (Q - LD) N s ct'' Delta (fun j => real c * x j)%num (c * e + X / Delta + rescale_noise N h Delta + (v * c + eta / Delta) * (e + X)).
Proof.
  intros HQ Hc Hv Hy HX HX0 Ho H. pose proof HD61 as [HD HD2]. pose proof (ar_eta _ _ _ _ _ _ _ _ ar) as Heta. pose proof (err_nonneg LOGN HL s Q ct _ _ _ H) as He.
  destruct (word_of Delta v eta c y ltac:(lra) (proj1 Hc) Hv Heta Hy) as (c' & Hc0 & Hc' & Ew & _). rewrite Ew.
  assert (Hed : (0 <= eta / Delta <= / 1024)%R).
  { split; [apply Rmult_le_pos; [lra|apply Rlt_le, Rinv_0_lt_compat; lra]|]. apply (Rmult_le_reg_r Delta); [lra|]. unfold Rdiv. rewrite Rmult_assoc, Rinv_l by lra. lra. }
  assert (Hvc : (v * c <= / 4)%R) by (apply Rle_trans with (/ 4 * 1)%R; [apply Rmult_le_compat; lra|lra]). pose proof (abs_inv _ _ Hc') as Hc''.
  assert (HcD : (0 <= c' * Delta)%R) by (apply Rmult_le_pos; lra).
  assert (Hc64 : (c' * Delta < IZR (2 ^ 64))%R). { apply Rle_lt_trans with (2 * Delta)%R; [apply Rmult_le_compat_r; lra|]. change (IZR (2 ^ 64)) with 18446744073709551616%R. change (IZR (2 ^ 61)) with 2305843009213693952%R in HD2. lra. }
  destruct (r_to_u64_ok (c' * Delta) ltac:(lra) Hc64) as [E1 Hw]. set (w := trunc (c' * Delta)) in *.
  destruct (trunc_scaled LD HLD2 c') as [T1 T2]. fold Delta w in T1, T2.
  destruct (carries_word LOGN LD HL HLD s Q ct x e w ltac:(lia) Hw H) as (ct' & E2 & H2). fold N Delta in E2, H2.
  assert (Hw0 : (0 <= IZR w / Delta)%R) by (apply Rmult_le_pos; [apply IZR_le; lia|apply Rlt_le, Rinv_0_lt_compat; lra]).
  rewrite (Rabs_right c') in T2 by lra. rewrite (Rabs_right (IZR w / Delta)) in T2 by lra.
  set (dc := (v * c + eta / Delta)%R) in *. assert (Hdc : (0 <= dc)%R) by (eapply Rle_trans; [apply Rabs_pos|exact Hc']).
  assert (H3 : carries Q N s ct' (Delta * Delta) (fun j => real c * x j)%num (c' * e + (X / Delta + dc * X))).
  { eapply carries_ext; [intros; reflexivity| |apply (carries_near LOGN s Q ct' _ _ (fun j => real c * x j)%num _ (X / Delta + dc * X) ) with (2 := H2)].
    - apply Rplus_le_compat_r. apply Rmult_le_compat_r; lra.
    - intros j Hj. fold N in Hj. replace (real (IZR w / Delta) * x j - real c * x j)%num with (real (IZR w / Delta - c) * x j)%num.
      2: { replace (real (IZR w / Delta - c)) with (real (IZR w / Delta) - real c)%num by (apply RC_eq; cbn; ring). ring. }
      rewrite modulus_mul, modulus_real. specialize (HX j Hj). pose proof (modulus_nonneg (x j)).
      assert (A : (Rabs (IZR w / Delta - c) <= 1 / Delta + dc)%R) by (replace (IZR w / Delta - c)%R with ((IZR w / Delta - c') + (c' - c))%R by ring; eapply Rle_trans; [apply Rabs_triang|lra]).
      pose proof (Rabs_pos (IZR w / Delta - c)). apply Rle_trans with ((1 / Delta + dc) * X)%R; [apply Rmult_le_compat; lra|]. right. field. lra. }
  replace (Delta * Delta)%R with (Delta * IZR (2 ^ (Q - (Q - LD))))%R in H3 at 1 by (replace (Q - (Q - LD)) with LD by lia; reflexivity).
  destruct (carries_RS LOGN HL s Q (Q - LD) _ D Delta _ _ ltac:(lia) ltac:(lra) Ho H3) as (ct'' & E4 & H4). fold N h in E4, H4.
  exists w, ct', ct''. split; [exact E1|]. split; [exact E2|]. split; [exact E4|]. eapply carries_ext; [intros; reflexivity| |exact H4].
  assert (A : (c' * e <= (c + dc) * e)%R) by (apply Rmult_le_compat_r; lra). lra.
Qed.

Lemma quot_near K : 1 <= K -> (Rabs (rnd F (Delta / IZR K) - / IZR K * Delta) <= u * (/ IZR K * Delta) + eta)%R.
Proof.
  intros HK. pose proof HD61 as [HD HD2]. assert (HK1 : (1 <= IZR K)%R) by (apply IZR_le; lia).
  assert (Hi : (0 < / IZR K <= 1)%R) by (split; [apply Rinv_0_lt_compat; lra|rewrite <- Rinv_1; apply Rinv_le_contravar; lra]).
  assert (HiD : (0 <= / IZR K * Delta <= 1 * Delta)%R) by (split; [apply Rmult_le_pos; lra|apply Rmult_le_compat_r; lra]).
  replace (Delta / IZR K)%R with (/ IZR K * Delta)%R by (unfold Rdiv; ring). pose proof (ar_rnd _ _ _ _ _ _ _ _ ar (/ IZR K * Delta)%R) as A. rewrite (Rabs_right (/ IZR K * Delta)) in A by lra. apply A.
  change (IZR (2 ^ 61)) with 2305843009213693952%R in HD2. change (IZR (2 ^ 62)) with 4611686018427387904%R in Htop. lra.
Qed.

Lemma f_em_scale_ok Q K ct r e : LD < Q -> 1 <= K -> (forall j, 0 <= j < N / 2 -> (Rabs (r j) <= IZR K + 1)%R) -> carries Q N s ct Delta (fun j => real (r j)) e ->
  exists ct1, f_em_scale F Q N LD K ct = Ok ct1 /\
    carries (Q - LD) N s ct1 Delta (fun j => real (r j / IZR K)) (e / IZR K + (IZR K + 1) / Delta + rescale_noise N h Delta + (u / IZR K + eta / Delta) * (e + IZR K + 1)).
Proof.
  intros HQ HK HX H. pose proof HD61 as [HD HD2]. assert (HK1 : (1 <= IZR K)%R) by (apply IZR_le; lia). pose proof HN2. pose proof (ar_u _ _ _ _ _ _ _ _ ar) as Hu.
  destruct (f_carries_factor Q ct (fun j => real (r j)) e (/ IZR K) u (rnd F (Delta / IZR K)) (IZR K + 1) (sq_new (Q - LD) N) HQ) as (w & ct' & ct'' & E1 & E2 & E3 & H'); auto.
  - split; [apply Rlt_le, Rinv_0_lt_compat; lra|]. rewrite <- Rinv_1. apply Rinv_le_contravar; lra.
  - lra.
  - apply quot_near. exact HK.
  - intros j Hj. rewrite modulus_real. auto.
  - lra.
  - apply new_object2; lia.
  - exists ct''. split.
    + unfold f_em_scale. pose proof (carries_copy LOGN HL s Q ct _ _ _ (sq_new Q N) ltac:(lia) ltac:(apply new_object2; lia) H) as EC. fold N in EC. rewrite EC. cbn [bind].
      rewrite one_shl_ok by lia. cbn [bind]. unfold f_quot_d. destruct (Z.eqb_spec K 0); [lia|]. cbn [bind]. fold Delta.
      rewrite E1. cbn [bind]. rewrite E2. cbn [bind]. exact E3.
    + eapply carries_ext; [| |exact H'].
      * intros j Hj. apply RC_eq; cbn; unfold Rdiv; ring.
      * right. unfold Rdiv. ring.
Qed.
Lemma f_em_shift_ok Q K ct r e : LD < Q -> 1 <= K -> 4 * K < 2 ^ 31 -> carries Q N s ct Delta (fun j => real (r j)) e ->
  exists ct1, f_em_shift F Q LD K ct = Ok ct1 /\ carries Q N s ct1 Delta (fun j => real (r j - / (4 * IZR K))) (e + 1 / Delta + (u / IZR K + eta / Delta)).
Proof.
  intros HQ HK HK4 H. pose proof HD61 as [HD HD2]. assert (HK1 : (1 <= IZR K)%R) by (apply IZR_le; lia). pose proof HN2. pose proof (pow_LD LD HLD2) as Hp.
  pose proof (ar_u _ _ _ _ _ _ _ _ ar) as Hu. pose proof (ar_eta _ _ _ _ _ _ _ _ ar) as Heta.
  assert (Hi : (0 < / (4 * IZR K) <= / 4)%R). { split; [apply Rinv_0_lt_compat; lra|]. apply Rinv_le_contravar; lra. }
  pose proof (quot_near (4 * K) ltac:(lia)) as Hy. rewrite mult_IZR in Hy. set (c := (/ (4 * IZR K))%R) in *.
  destruct (word_of Delta u eta c _ ltac:(lra) ltac:(lra) ltac:(lra) Heta Hy) as (c' & Hc0 & Hc' & Ew & _).
  assert (Hed : (0 <= eta / Delta <= / 1024)%R).
  { split; [apply Rmult_le_pos; [lra|apply Rlt_le, Rinv_0_lt_compat; lra]|]. apply (Rmult_le_reg_r Delta); [lra|]. unfold Rdiv. rewrite Rmult_assoc, Rinv_l by lra. lra. }
  assert (Huc : (u * c <= / 1024)%R) by (apply Rle_trans with (/ 1024 * 1)%R; [apply Rmult_le_compat; lra|lra]). pose proof (abs_inv _ _ Hc') as Hc''.
  destruct (r_to_u64_ok (c' * Delta)) as [E1 Hw].
  { assert (0 <= c' * Delta)%R by (apply Rmult_le_pos; lra). lra. }
  { apply Rle_lt_trans with (1 * Delta)%R; [apply Rmult_le_compat_r; lra|]. rewrite Rmult_1_l. apply IZR_lt. lia. }
  destruct (trunc_scaled LD HLD2 c') as [T1 T2]. fold Delta in T1, T2. pose proof (trunc_abs (c' * Delta)) as TA. set (w := trunc (c' * Delta)) in *.
  assert (HwQ : 0 <= w < 2 ^ Q).
  { split; [lia|]. apply Z.lt_le_trans with (2 ^ LD + 1).
    - apply Z.lt_succ_r. apply le_IZR. fold Delta.
      rewrite !Rabs_right in TA; [nra|apply Rle_ge, Rmult_le_pos; lra|apply Rle_ge, IZR_le; lia].
    - assert (2 ^ LD * 2 <= 2 ^ Q); [|lia]. replace (2 ^ LD * 2) with (2 ^ (LD + 1)) by (rewrite Z.pow_add_r by lia; reflexivity). apply Z.pow_le_mono_r; lia. }
  destruct (carries_sub0 LOGN HL s Q ct Delta _ e w ltac:(lia) H) as (t0 & E2 & H2). fold N in H2.
  exists (t0, snd ct). split.
  - unfold f_em_shift. rewrite zq_setzero_ok by (try lia; unfold zq_new; apply fresh_length). cbn [bind]. rewrite one_shl_ok by lia. cbn [bind]. rewrite int_ok by lia. cbn [bind].
    unfold f_quot_d. destruct (Z.eqb_spec (4 * K) 0); [lia|]. cbn [bind]. fold Delta. rewrite mult_IZR.
    rewrite Ew, E1. cbn [bind].
    rewrite (first_word Q 2) by (try lia; unfold is_word, W; lia). cbn [bind]. rewrite raw_rep by lia. replace (pupd _ _ _) with (Ok t0) by (symmetry; exact E2). reflexivity.
  - rewrite Rplus_assoc. apply (carries_near LOGN s Q _ _ _ _ e (1 / Delta + (u / IZR K + eta / Delta))) with (2 := H2). intros j Hj.
    replace (real (r j) - real (IZR w / Delta) - real (r j - c))%num with (real (- ((IZR w / Delta - c') + (c' - c)))) by (apply RC_eq; cbn; ring).
    rewrite modulus_real, Rabs_Ropp. eapply Rle_trans; [apply Rabs_triang|]. assert (u * c <= u / IZR K)%R; [|lra].
    apply Rmult_le_compat_l; [lra|]. apply Rinv_le_contravar; lra.
Qed.

Lemma inv_pi_near : (Rabs (rnd F (Delta / rnd F (12 * dpi F)) - / (12 * PI) * Delta) <= (4 * u + 2 * eta) * (/ (12 * PI) * Delta) + eta)%R.
Proof.
  pose proof HD61 as [HD HD2]. pose proof (ar_u _ _ _ _ _ _ _ _ ar) as Hu. pose proof (ar_eta _ _ _ _ _ _ _ _ ar) as Heta. pose proof (ar_top _ _ _ _ _ _ _ _ ar) as H8.
  change (IZR (2 ^ 62)) with 4611686018427387904%R in Htop.
  pose proof PI_bounds as [P1 P2]. assert (P3 : (3 < PI < 4)%R). { change (10 ^ 25) with 10000000000000000000000000 in P1, P2. lra. }
  set (p12 := (12 * PI)%R). assert (Hp12 : (36 < p12 < 48)%R) by (unfold p12; lra).
  pose proof (abs_inv _ _ (ar_pi _ _ _ _ _ _ _ _ ar)) as Hpi.
  assert (Hup : (0 <= u * PI <= / 1024 * 4)%R) by (split; [apply Rmult_le_pos; lra|apply Rmult_le_compat; lra]).
  assert (H12 : (0 <= 12 * dpi F <= 49)%R) by lra.
  pose proof (ar_rnd _ _ _ _ _ _ _ _ ar (12 * dpi F)%R) as A. rewrite (Rabs_right (12 * dpi F)) in A by lra. specialize (A ltac:(lra)). apply abs_inv in A. set (q := rnd F (12 * dpi F)) in *.
  assert (Hq : (Rabs (q - p12) <= (21 / 10 * u + eta / 36) * p12)%R).
  { assert (B1 : (u * (12 * dpi F) <= u * ((1 + / 1024) * p12))%R) by (apply Rmult_le_compat_l; [lra|]; unfold p12; assert (u * PI <= / 1024 * PI)%R by (apply Rmult_le_compat_r; lra); lra).
    assert (B2 : (eta <= eta / 36 * p12)%R) by nra. assert (B3 : (12 * (u * PI) = u * p12)%R) by (unfold p12; ring).
    apply Rabs_le. assert (0 <= u * p12)%R by (apply Rmult_le_pos; lra). replace (12 * dpi F)%R with (12 * (dpi F - PI) + p12)%R in A by (unfold p12; ring). split; lra. }
  set (v := (21 / 10 * u + eta / 36)%R) in *. assert (Hv : (0 <= v <= / 400)%R) by (unfold v; lra). apply abs_inv in Hq.
  assert (Hqv : (0 <= v * p12 <= / 400 * p12)%R) by (split; [apply Rmult_le_pos; lra|apply Rmult_le_compat_r; lra]).
  assert (Hqp : (35 < q)%R) by lra.
  set (c := (/ p12)%R). assert (Hc : (0 < c < / 36)%R) by (split; [apply Rinv_0_lt_compat; lra|apply Rinv_lt_contravar; nra]).
  set (cD := (c * Delta)%R). assert (HcD : (0 < cD < Delta)%R) by (unfold cD; split; [apply Rmult_lt_0_compat; lra|nra]).
  (* Delta / q *)
  assert (Hz : (Rabs (Delta / q - cD) <= 11 / 10 * v * cD)%R).
  { replace (Delta / q - cD)%R with (cD * ((p12 - q) * / q))%R by (unfold cD, c; field; lra). rewrite Rabs_mult, (Rabs_right cD) by lra. rewrite (Rmult_comm (11 / 10 * v)). apply Rmult_le_compat_l; [lra|].
    rewrite Rabs_mult, (Rabs_right (/ q)) by (apply Rle_ge, Rlt_le, Rinv_0_lt_compat; lra). apply (Rmult_le_reg_r q); [lra|]. rewrite Rmult_assoc, Rinv_l, Rmult_1_r by lra.
    apply Rle_trans with (v * p12)%R; [apply Rabs_le; lra|]. replace (11 / 10 * v * q)%R with (v * (11 / 10 * q))%R by ring. apply Rmult_le_compat_l; lra. }
  apply abs_inv in Hz. assert (Hvc : (0 <= v * cD <= / 400 * cD)%R) by (split; [apply Rmult_le_pos; lra|apply Rmult_le_compat_r; lra]).
  assert (Hzp : (0 <= Delta / q <= 1003 / 1000 * cD)%R) by lra.
  pose proof (ar_rnd _ _ _ _ _ _ _ _ ar (Delta / q)%R) as B. rewrite (Rabs_right (Delta / q)) in B by lra. change (IZR (2 ^ 61)) with 2305843009213693952%R in HD2. specialize (B ltac:(lra)). apply abs_inv in B.
  set (y := rnd F (Delta / q)) in *. assert (Huz : (u * (Delta / q) <= u * (1003 / 1000 * cD))%R) by (apply Rmult_le_compat_l; lra).
  assert (Hvc2 : (v * cD = 21 / 10 * (u * cD) + / 36 * (eta * cD))%R) by (unfold v; field). assert (0 <= u * cD)%R by (apply Rmult_le_pos; lra). assert (0 <= eta * cD)%R by (apply Rmult_le_pos; lra).
  replace (11 / 10 * v * cD)%R with (11 / 10 * (v * cD))%R in Hz by ring. replace ((4 * u + 2 * eta) * cD)%R with (4 * (u * cD) + 2 * (eta * cD))%R by ring. apply Rabs_le. lra.
Qed.
Lemma f_em_times_ok Q ct r e : LD < Q -> (forall j, 0 <= j < N / 2 -> (Rabs (r j) <= 1)%R) -> carries Q N s ct Delta (fun j => real (r j)) e ->
  exists ct1, f_em_times F Q N LD ct = Ok ct1 /\ carries (Q - LD) N s ct1 Delta (fun j => real (r j / (12 * PI))) (f_em_times_error u eta N h Delta e).
Proof.
  intros HQ HX H. pose proof HD61 as [HD HD2]. pose proof HN2. pose proof (ar_u _ _ _ _ _ _ _ _ ar) as Hu. pose proof (ar_eta _ _ _ _ _ _ _ _ ar) as Heta.
  pose proof PI_bounds as [P1 P2]. assert (P3 : (3 < PI < 4)%R). { change (10 ^ 25) with 10000000000000000000000000 in P1, P2. lra. }
  pose proof (err_nonneg LOGN HL s Q ct _ _ _ H) as He.
  assert (Hc : (0 < / (12 * PI) < / 36)%R) by (split; [apply Rinv_0_lt_compat; lra|apply Rinv_lt_contravar; nra]).
  destruct (f_carries_factor Q ct (fun j => real (r j)) e (/ (12 * PI)) (4 * u + 2 * eta) (rnd F (Delta / rnd F (12 * dpi F))) 1 (sq_new (Q - LD) N) HQ) as (w & ct' & ct'' & E1 & E2 & E3 & H'); auto.
  - lra.
  - lra.
  - exact inv_pi_near.
  - intros j Hj. rewrite modulus_real. auto.
  - lra.
  - apply new_object2; lia.
  - exists ct''. split.
    + unfold f_em_times. pose proof (carries_copy LOGN HL s Q ct _ _ _ (sq_new Q N) ltac:(lia) ltac:(apply new_object2; lia) H) as EC. fold N in EC. rewrite EC. cbn [bind].
      rewrite one_shl_ok by lia. cbn [bind]. fold Delta. rewrite E1. cbn [bind]. rewrite E2. cbn [bind]. exact E3.
    + eapply carries_ext; [| |exact H'].
      * intros j Hj. apply RC_eq; cbn; unfold Rdiv; ring.
      * unfold f_em_times_error, em_times_error. fold N h.
        assert (A1 : (/ (12 * PI) * e <= e / 36)%R) by (unfold Rdiv; rewrite Rmult_comm; apply Rmult_le_compat_l; lra).
        assert (A2 : ((4 * u + 2 * eta) * / (12 * PI) + eta / Delta <= u + eta)%R).
        { assert (B1 : ((4 * u + 2 * eta) * / (12 * PI) <= (4 * u + 2 * eta) * / 36)%R) by (apply Rmult_le_compat_l; lra).
          assert (B2 : (eta / Delta <= eta * / 2)%R) by (apply Rmult_le_compat_l; [lra|]; apply Rinv_le_contravar; lra). lra. }
        apply (Rmult_le_compat_r (e + 1)) in A2; [|lra]. assert (0 < 1 / Delta)%R by (unfold Rdiv; rewrite Rmult_1_l; apply Rinv_0_lt_compat; lra).
        replace (2 / Delta)%R with (1 / Delta + 1 / Delta)%R by (field; lra). lra.
Qed.
End Mod.
End Ar.
