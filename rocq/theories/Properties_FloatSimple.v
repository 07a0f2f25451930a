(** C125: simple_plaintext.h and set_test_rounded_message in floating-point arithmetic. *)
From Coq Require Import ZArith List Bool Lia Reals Lra Ring.
From Verif Require Import Base BaseFacts GSum Matrix MatrixFacts MatMulFacts DFT DFTTheory DFTFacts FFTFacts Encode EncodeFacts SpecMat Properties_Mat Properties_Msg SpecDFT Properties_DFT SpecEnc SlotFacts
  Plain PlainFacts Properties_Plain SpecLin LinTrans LinSlots SupFacts BootFacts Measure UtilFacts SpecPoly.
From Verif Require Import Float SpecFloat FloatFacts FloatError FloatStage FloatMain FloatEnc FloatSlots Binary64 FloatNum Properties_Float.
From Verif Require Import FloatDot FloatMsg SpecFloatMsg FloatMsgFacts FloatDirect Properties_FloatMsg Properties_FloatDFT Properties_FloatDFT2 Properties_FloatMsg2 FloatModFacts FloatBootNum FloatSetup Properties_FloatSetup FloatTestBoot Properties_FloatTestBoot TestLayers Properties_MatErr.
From Verif Require Import FloatSimple.
Import ListNotations.
Open Scope Z_scope.
Add Ring RCfs : HR.

(** Error of a sum of n products of real numbers, if the absolute values of the exact products add up to at most X *)
Definition real_dot_error (u eta : R) (n : Z) (X : R) : R := (IZR n * (4 * u * X + 3 * eta))%R.

Lemma p2_1 : powerRZ 2 1 = 2%R.
Proof. exact (powerRZ_2 1 ltac:(lia)). Qed.
Lemma p2_2 : powerRZ 2 2 = 4%R.
Proof. exact (powerRZ_2 2 ltac:(lia)). Qed.

Section Any.
Context (F : fpu) (u eta top t : R) (ar : arithmetic u eta top t (rnd F) (dpi F) (lcos F) (lsin F)).
Let Hu : (0 <= u <= / 1024)%R := ar_u _ _ _ _ _ _ _ _ ar.
Let He : (0 <= eta <= / 1024)%R := ar_eta _ _ _ _ _ _ _ _ ar.
Let Hr : forall x, (Rabs x <= top -> Rabs (rnd F x - x) <= u * Rabs x + eta)%R := ar_rnd _ _ _ _ _ _ _ _ ar.

Theorem C125_add N (a b : Z -> R) D : 0 <= N -> cells N D -> (forall i, 0 <= i < N -> (Rabs (a i + b i) <= top)%R) ->
  exists c, f_simple_add F N (array N a) (array N b) D = Ok (array N c) /\ forall i, 0 <= i < N -> (Rabs (c i - (a i + b i)) <= u * Rabs (a i + b i) + eta)%R.
Proof.
  intros HN HD Ht. destruct (cells_tab _ _ HD) as [d ->]. exists (fun i => rnd F (a i + b i)). split; [|intros i Hi; apply Hr; auto].
  unfold f_simple_add. rewrite !array_gtab. apply fill_gtab; auto. intros i g Hi. rewrite !grd_gtab by lia. reflexivity.
Qed.
Theorem C125_sub N (a b : Z -> R) D : 0 <= N -> cells N D -> (forall i, 0 <= i < N -> (Rabs (a i - b i) <= top)%R) ->
  exists c, f_simple_sub F N (array N a) (array N b) D = Ok (array N c) /\ forall i, 0 <= i < N -> (Rabs (c i - (a i - b i)) <= u * Rabs (a i - b i) + eta)%R.
Proof.
  intros HN HD Ht. destruct (cells_tab _ _ HD) as [d ->]. exists (fun i => rnd F (a i - b i)). split; [|intros i Hi; apply Hr; auto].
  unfold f_simple_sub. rewrite !array_gtab. apply fill_gtab; auto. intros i g Hi. rewrite !grd_gtab by lia. reflexivity.
Qed.

(** a loop that adds products p k, rounded *)
Lemma real_dot n (f : Z -> R -> R) (p : Z -> R) X : 0 <= n -> (IZR n * u <= / 1024)%R -> (gsum (K := Rops) n (fun k => Rabs (p k)) <= X)%R -> (5 * X + IZR n + 1 <= top)%R ->
  (forall k c, 0 <= k < n -> f k c = rnd F (c + rnd F (p k)) \/ exists q, p k = (- q)%R /\ f k c = rnd F (c - rnd F q)) ->
  (Rabs (steps f n 0 - gsum (K := Rops) n p) <= real_dot_error u eta n X)%R.
Proof.
  intros Hn Hnu HX Ht Hf. assert (HX0 : (0 <= X)%R) by (eapply Rle_trans; [|exact HX]; apply gsum_nonneg; intros; apply Rabs_pos).
  assert (Hn0 : (0 <= IZR n)%R) by (apply IZR_le; lia).
  destruct (total_bound u eta Hu He (IZR n) X (31 / 10) (21 / 10) Hn0 Hnu HX0 ltac:(lra) ltac:(lra)) as (T1 & T2 & T3). set (Y := (101 / 100 * (X + IZR n * (21 / 10 * eta)))%R) in *.
  assert (Hne : (IZR n * eta <= IZR n * / 1024)%R) by (apply Rmult_le_compat_l; lra).
  assert (HY : (4 * Y + 1 <= top)%R) by (unfold Y; lra). assert (HuY : (0 <= u * Y)%R) by (apply Rmult_le_pos; lra). assert (HuX : (0 <= u * X)%R) by (apply Rmult_le_pos; lra).
  eapply Rle_trans; [apply (acc_real n f p (31 / 10 * (u * Y) + 21 / 10 * eta)%R Y Hn ltac:(lra))|].
  - lra.
  - intros i c Hi Hc. assert (HpY : (Rabs (p i) <= Y)%R).
    { apply Rle_trans with X; [|unfold Y; assert (0 <= IZR n * (21 / 10 * eta))%R by (apply Rmult_le_pos; lra); lra].
      pose proof (gsum_mono (i + 1) n (fun k => Rabs (p k)) ltac:(lia) ltac:(intros; apply Rabs_pos)) as G. rewrite gsum_S in G by lia. pose proof (gsum_nonneg i (fun k => Rabs (p k)) ltac:(intros; apply Rabs_pos)) as G3.
      eapply Rle_trans; [|exact HX]. eapply Rle_trans; [|exact G]. change (Rabs (p i) <= gsum (K := Rops) i (fun k => Rabs (p k)) + Rabs (p i))%R. lra. }
    destruct (Hf i c Hi) as [->|(q & Eq & ->)]; [apply (prod_acc u eta top (rnd F) Hu He Hr); auto|].
    rewrite Eq in HpY |- *. rewrite Rabs_Ropp in HpY.
    pose proof (small_mul u Y Hu T3) as F1. pose proof (small_mul u (u * Y)%R Hu ltac:(lra)) as F2. pose proof (small_mul u eta Hu ltac:(lra)) as F3.
    eapply Rle_trans; [apply (round_near u eta top (rnd F) Hu Hr _ (c + - q)%R (u * Y + eta)%R (2 * Y)%R)|].
    + replace (c - rnd F q - (c + - q))%R with (- (rnd F q - q))%R by ring. rewrite Rabs_Ropp. apply (rd_err u eta top (rnd F) Hu Hr); lra.
    + eapply Rle_trans; [apply Rabs_triang|]. rewrite Rabs_Ropp. lra.
    + lra.
    + rewrite !Rmult_plus_distr_l. lra.
  - unfold real_dot_error. apply Rmult_le_compat_l; [exact Hn0|]. lra.
Qed.
Theorem C125_conv N (a b : Z -> R) D X : 0 <= N -> (IZR N * u <= / 1024)%R -> cells N D -> (forall i, 0 <= i < N -> (gsum (K := Rops) N (fun k => Rabs (a k * b ((i - k) mod N))) <= X)%R) -> (5 * X + IZR N + 1 <= top)%R ->
  exists c, f_simple_conv F N (array N a) (array N b) D = Ok (array N c) /\ forall i, 0 <= i < N -> (Rabs (c i - rnegconv N a b i) <= real_dot_error u eta N X)%R.
Proof.
  intros HN Hnu HD HX Ht. destruct (cells_tab _ _ HD) as [d ->].
  pose (f := fun i k c => if k <=? i then rnd F (c + rnd F (a k * b (i - k)%Z))%R else rnd F (c - rnd F (a k * b (i + N - k)%Z))%R).
  exists (fun i => steps (f i) N 0%R). split.
  - unfold f_simple_conv. rewrite !array_gtab. apply fill_gtab; auto. intros i g Hi.
    rewrite (for_closed _ (fun k => steps (f i) k 0%R) _ _ _ (steps (f i) (i + 1) 0%R)); auto; try lia.
    + cbn [bind]. rewrite (for_closed _ (fun k => steps (f i) k 0%R) _ _ _ (steps (f i) N 0%R)); auto; try lia.
      intros k Hk. rewrite !grd_gtab by lia. cbn [bind]. rewrite steps_S by lia. unfold f at 2. destruct (Z.leb_spec k i); [lia|]. reflexivity.
    + intros k Hk. rewrite !grd_gtab by lia. cbn [bind]. rewrite steps_S by lia. unfold f at 2. destruct (Z.leb_spec k i); [|lia]. reflexivity.
  - intros i Hi. apply real_dot; auto.
    + eapply Rle_trans; [|apply (HX i Hi)]. apply gsum_le. intros k Hk. destruct (Z.leb_spec k i).
      * rewrite Z.mod_small by lia. apply Rle_refl.
      * replace (i - k) with (N + i - k + (-1) * N) by ring. rewrite Z.mod_add, Z.mod_small by lia. rewrite !Rabs_mult, Rabs_Ropp. apply Rle_refl.
    + intros k c Hk. unfold f. destruct (Z.leb_spec k i); [left; reflexivity|right]. exists (a k * b (N + i - k)%Z)%R. split; [ring|]. replace (i + N - k) with (N + i - k) by ring. reflexivity.
Qed.
Lemma squares N (a : Z -> R) : 0 <= N -> (IZR N * u <= / 1024)%R -> let S := gsum (K := Rops) N (fun i => a i * a i)%R in (5 * S + IZR N + 1 <= top)%R ->
  exists s, f_simple_square_sum F N (array N a) = Ok s /\ (Rabs (s - S) <= real_dot_error u eta N S)%R /\ (keeps_sign (rnd F) -> (0 <= s)%R) /\ (0 <= S)%R.
Proof.
  intros HN Hnu S Ht. set (f := fun i c => rnd F (c + rnd F (a i * a i))). exists (steps f N 0%R).
  assert (P : forall i, (0 <= a i * a i)%R) by (intros i; pose proof (Rle_0_sqr (a i)) as Q; unfold Rsqr in Q; exact Q).
  split; [|split; [|split]].
  - unfold f_simple_square_sum. apply for_steps; auto. intros i c Hi. rewrite array_gtab, grd_gtab by auto. reflexivity.
  - apply real_dot; auto. right. unfold S. apply (gsum_ext (K := Rops)). intros k Hk. apply Rabs_right. specialize (P k). lra.
  - intros Hk. refine (gsum_ind N (fun n => (0 <= steps f n 0)%R) _ _ HN); [rewrite steps_0; lra|]. intros m Hm IH. rewrite steps_S by lia. unfold f at 1. apply Hk. pose proof (Hk _ (P m)). lra.
  - apply gsum_nonneg. intros k _. apply P.
Qed.
Theorem C125_square_sum N (a : Z -> R) : 0 <= N -> (IZR N * u <= / 1024)%R -> let S := gsum (K := Rops) N (fun i => a i * a i)%R in (5 * S + IZR N + 1 <= top)%R ->
  exists s, f_simple_square_sum F N (array N a) = Ok s /\ (Rabs (s - S) <= real_dot_error u eta N S)%R.
Proof. intros HN Hnu S Ht. destruct (squares N a HN Hnu Ht) as (s & A & B & _). exists s. auto. Qed.
Theorem C125_norm N (a : Z -> R) : keeps_sign (rnd F) -> 0 < N -> (IZR N * u <= / 1024)%R -> let S := gsum (K := Rops) N (fun i => a i * a i)%R in (5 * S + IZR N + 1 <= top)%R ->
  exists r, f_simple_norm F N (array N a) = Ok r /\ (Rabs (r - sqrt S) <= root_error u eta N (sqrt S))%R.
Proof.
  intros Hk HN Hnu S Ht. destruct (squares N a ltac:(lia) Hnu Ht) as (s & A & B & C & D). fold S in B, D. unfold f_simple_norm. rewrite A. cbn [bind].
  assert (1 <= IZR N)%R by (apply IZR_le; lia). pose proof (ar_top _ _ _ _ _ _ _ _ ar).
  assert (sqrt S <= (S + 1) / 2)%R. { pose proof (sqrt_sqrt S D) as Q. pose proof (Rle_0_sqr (sqrt S - 1)) as Q2. unfold Rsqr in Q2. lra. }
  exact (f_sqrt_err F u eta top t ar s S (IZR N) 4 3 (C Hk) D ltac:(assumption) Hnu ltac:(lra) ltac:(lra) B ltac:(lra) ltac:(lra)).
Qed.

(** a number times the scale *)
Lemma scaled (x m E A D : R) : (1 <= D)%R -> (0 <= E)%R -> (Rabs m <= A)%R -> (Rabs (x - m) <= E)%R -> (2 * ((A + E) * D) + 1 <= top)%R -> (2 * D <= top)%R ->
  (Rabs (rnd F (x * rnd F D) - m * D) <= D * (2 * E + 3 * (u + eta) * A) + eta)%R.
Proof.
  intros HD HE Hm Hx Ht1 Ht2. set (v := (u + eta)%R). assert (Hv : (0 <= v <= / 512)%R) by (unfold v; lra). assert (HA : (0 <= A)%R) by (pose proof (Rabs_pos m); lra).
  assert (Hax : (Rabs x <= A + E)%R). { replace x with (m + (x - m))%R by ring. eapply Rle_trans; [apply Rabs_triang|]. lra. }
  pose proof (Hr D ltac:(rewrite Rabs_right; lra)) as R1. rewrite (Rabs_right D) in R1 by lra.
  assert (R1' : (Rabs (rnd F D - D) <= v * D)%R). { eapply Rle_trans; [exact R1|]. unfold v. rewrite Rmult_plus_distr_r. assert (eta * 1 <= eta * D)%R by (apply Rmult_le_compat_l; lra). lra. }
  set (q := ((A + E) * D)%R) in *. assert (Q0 : (0 <= q)%R) by (apply Rmult_le_pos; lra).
  assert (D1 : (Rabs (x * rnd F D - x * D) <= v * q)%R).
  { replace (x * rnd F D - x * D)%R with (x * (rnd F D - D))%R by ring. rewrite Rabs_mult. apply Rle_trans with ((A + E) * (v * D))%R; [apply Rmult_le_compat; auto using Rabs_pos|]. unfold q. apply Req_le. ring. }
  assert (D2 : (Rabs (x * D) <= q)%R) by (rewrite Rabs_mult, (Rabs_right D) by lra; apply Rmult_le_compat_r; lra).
  assert (D3 : (Rabs (x * D - m * D) <= E * D)%R) by (rewrite <- Rmult_minus_distr_r, Rabs_mult, (Rabs_right D) by lra; apply Rmult_le_compat_r; lra).
  assert (V1 : (0 <= v * q <= / 512 * q)%R) by (split; [apply Rmult_le_pos|apply Rmult_le_compat_r]; lra).
  assert (B2 : (Rabs (x * rnd F D) <= q + v * q)%R). { apply abs_le in D1, D2. apply Rabs_le. lra. }
  pose proof (Hr _ ltac:(eapply Rle_trans; [exact B2|]; lra)) as R2.
  assert (M2 : (u * Rabs (x * rnd F D) <= v * (q + v * q))%R) by (apply Rmult_le_compat; [lra|apply Rabs_pos|unfold v; lra|exact B2]).
  assert (M3 : (v * (v * q) <= / 512 * (v * q))%R) by (apply Rmult_le_compat_r; lra).
  assert (M5 : (0 <= v * (E * D) <= / 512 * (E * D))%R). { assert (0 <= E * D)%R by (apply Rmult_le_pos; lra). split; [apply Rmult_le_pos|apply Rmult_le_compat_r]; lra. }
  assert (M6 : (0 <= v * (A * D))%R) by (apply Rmult_le_pos; [lra|apply Rmult_le_pos; lra]). assert (M7 : (0 <= E * D)%R) by (apply Rmult_le_pos; lra).
  assert (EQ : (v * q = v * (A * D) + v * (E * D))%R) by (unfold q; ring).
  apply abs_le in D1, D3, R2. replace (D * (2 * E + 3 * v * A) + eta)%R with (2 * (E * D) + 3 * (v * (A * D)) + eta)%R by ring. apply Rabs_le. lra.
Qed.
(** a number over the scale *)
Lemma unscaled (x A D : R) : (1 <= D)%R -> (Rabs (x / D) <= A)%R -> (2 * A + 1 <= top)%R -> (2 * D <= top)%R ->
  exists y, f_div F x (rnd F D) = Ok y /\ (Rabs (y - x / D) <= 3 * (u + eta) * A + eta)%R.
Proof.
  intros HD Hx Ht1 Ht2. set (v := (u + eta)%R). assert (Hv : (0 <= v <= / 512)%R) by (unfold v; lra). assert (HA : (0 <= A)%R) by (pose proof (Rabs_pos (x / D)); lra).
  pose proof (Hr D ltac:(rewrite Rabs_right; lra)) as R1. rewrite (Rabs_right D) in R1 by lra.
  assert (R1' : (Rabs (rnd F D - D) <= v * D)%R). { eapply Rle_trans; [exact R1|]. unfold v. rewrite Rmult_plus_distr_r. assert (eta * 1 <= eta * D)%R by (apply Rmult_le_compat_l; lra). lra. }
  assert (VD : (v * D <= / 512 * D)%R) by (apply Rmult_le_compat_r; lra). pose proof (abs_le _ _ R1') as R1a. set (D' := rnd F D) in *. assert (P : (511 / 512 * D <= D')%R) by lra.
  unfold f_div. destruct (Req_EM_T D' 0); [lra|]. eexists. split; [reflexivity|]. set (q := (x / D)%R) in *.
  assert (E1 : (Rabs (x / D' - q) <= 102 / 100 * (v * A))%R).
  { replace (x / D' - q)%R with (q * ((D - D') * / D'))%R by (unfold q; field; lra). rewrite !Rabs_mult, (Rabs_right (/ D')) by (apply Rle_ge, Rlt_le, Rinv_0_lt_compat; lra). rewrite Rabs_minus_sym in R1'.
    apply Rle_trans with (A * (102 / 100 * v))%R; [|apply Req_le; ring]. apply Rmult_le_compat; auto using Rabs_pos.
    - apply Rmult_le_pos; [apply Rabs_pos|apply Rlt_le, Rinv_0_lt_compat; lra].
    - apply Rmult_le_reg_r with D'; [lra|]. rewrite Rmult_assoc, Rinv_l, Rmult_1_r by lra. eapply Rle_trans; [exact R1'|]. replace (102 / 100 * v * D')%R with (v * (102 / 100 * D'))%R by ring. apply Rmult_le_compat_l; lra. }
  assert (VA : (0 <= v * A <= / 512 * A)%R) by (split; [apply Rmult_le_pos|apply Rmult_le_compat_r]; lra).
  assert (B2 : (Rabs (x / D') <= A + 102 / 100 * (v * A))%R). { apply abs_le in E1, Hx. apply Rabs_le. lra. }
  pose proof (Hr _ ltac:(eapply Rle_trans; [exact B2|]; lra)) as R2.
  assert (M2 : (u * Rabs (x / D') <= v * (A + 102 / 100 * (v * A)))%R) by (apply Rmult_le_compat; [lra|apply Rabs_pos|unfold v; lra|exact B2]).
  assert (M3 : (v * (v * A) <= / 512 * (v * A))%R) by (apply Rmult_le_compat_r; lra).
  apply abs_le in E1, R2. apply Rabs_le. lra.
Qed.
End Any.

Section Double.
Context (F : fpu) (HF : double F).
Lemma real_dot_double n X : 0 <= n <= 2 ^ 17 -> (real_dot_error u64 eta64 n X <= IZR n * (powerRZ 2 (-51) * X) + powerRZ 2 (-1000))%R.
Proof.
  intros Hn. unfold real_dot_error. pose proof (u_is 2 ltac:(lia)) as U2. change (2 - 53) with (-51) in U2. change (IZR (2 ^ 2)) with 4%R in U2. rewrite ?U2, <- ?U2. rewrite Rmult_plus_distr_l. apply Rplus_le_compat_l. assert (0 <= IZR n <= IZR (2 ^ 17))%R by (split; apply IZR_le; lia). pose proof eta_pos.
  apply Rle_trans with (IZR (2 ^ 19) * eta64)%R; [|apply eta_scaled; lia]. change (2 ^ 19) with 524288. change (2 ^ 17) with 131072 in *. assert (IZR n * eta64 <= 131072 * eta64)%R by (apply Rmult_le_compat_r; lra). lra.
Qed.
Theorem C125_conv_double N (a b : Z -> R) D X : 0 <= N <= 2 ^ 17 -> cells N D -> (forall i, 0 <= i < N -> (gsum (K := Rops) N (fun k => Rabs (a k * b ((i - k) mod N))) <= X)%R) -> (X <= powerRZ 2 1019)%R ->
  exists c, f_simple_conv F N (array N a) (array N b) D = Ok (array N c) /\ forall i, 0 <= i < N -> (Rabs (c i - rnegconv N a b i) <= IZR N * (powerRZ 2 (-51) * X) + powerRZ 2 (-1000))%R.
Proof.
  intros HN HD HX Ht. destruct (C125_conv F u64 eta64 top64 t64 HF N a b D X ltac:(lia) (count_u N HN) HD HX (count_top N X HN Ht)) as (c & E & H). exists c. split; [exact E|]. intros i Hi. eapply Rle_trans; [apply (H i Hi)|apply real_dot_double; exact HN].
Qed.
Theorem C125_norm_double N (a : Z -> R) B : keeps_sign (rnd F) -> 0 < N <= 2 ^ 17 -> (0 <= B <= powerRZ 2 500)%R -> (forall i, 0 <= i < N -> (Rabs (a i) <= B)%R) -> let S := gsum (K := Rops) N (fun i => a i * a i)%R in
  exists r, f_simple_norm F N (array N a) = Ok r /\ (Rabs (r - sqrt S) <= IZR N * (powerRZ 2 (-50) * sqrt S) + powerRZ 2 (-500))%R.
Proof.
  intros Hk HN HB Ha S. destruct (C125_norm F u64 eta64 top64 t64 HF N a Hk ltac:(lia) (count_u N ltac:(lia))) as (r & E & H).
  - apply count_top; [lia|]. apply Rle_trans with (IZR N * (B * B))%R.
    + apply gsum_const_le; [lia|]. intros j Hj. rewrite <- (Rabs_right (a j * a j)) by (pose proof (Rle_0_sqr (a j)) as Q; unfold Rsqr in Q; lra). rewrite Rabs_mult. apply Rmult_le_compat; auto using Rabs_pos.
    + apply Rle_trans with (IZR (2 ^ 17) * (powerRZ 2 500 * powerRZ 2 500))%R.
      * apply Rmult_le_compat; [apply IZR_le; lia|apply Rmult_le_pos; lra|apply IZR_le; lia|apply Rmult_le_compat; lra].
      * rewrite <- powerRZ_2 by lia. rewrite <- !p2_add. apply p2_le. lia.
  - exists r. split; [exact E|]. fold S in H. eapply Rle_trans; [exact H|]. unfold root_error. rewrite p50. pose proof (sqrt_eta N ltac:(lia)). lra.
Qed.

Context (LOGN : Z) (HL : 2 <= LOGN <= 17).
Local Notation n := (2 ^ (LOGN - 1)).
Local Notation N := (2 ^ LOGN).
Local Notation L := (Z.to_nat (LOGN - 1)).
Lemma encoded Delta st (z : Z -> CC) (m : Z -> R) B : 0 < Delta < 2 ^ 64 -> f_ifft_static F LOGN st -> (0 <= B <= powerRZ 2 900)%R ->
  (forall j, 0 <= j < n -> (modulus (z j) <= B)%R) -> (forall j, 0 <= j < n -> slot N m j = z j) ->
  exists st' m', f_ifft F LOGN st (fst (carray n z)) (snd (carray n z)) (gfresh R N) = Ok (st', array N m') /\ f_ifft_static F LOGN st' /\
    forall i, 0 <= i < N -> (Rabs (rnd F (m' i * rnd F (IZR Delta)) - m i * IZR Delta) <= powerRZ 2 (-41) * (B * IZR Delta) + powerRZ 2 (-900))%R.
Proof.
  intros HD Hst HB Hz Hs. assert (HDR : (1 <= IZR Delta <= IZR (2 ^ 64))%R) by (split; apply IZR_le; lia).
  assert (P900 : (powerRZ 2 900 <= powerRZ 2 1000)%R) by (apply p2_le; lia).
  destruct (C82_ifft F u64 eta64 top64 t64 HF LOGN (HL27 LOGN HL) (num_small LOGN HL) st z m B (gfresh R N) Hst (repeat_length None (Z.to_nat N)) ltac:(lra) Hz Hs) as (st' & m' & E & Hst' & Hm').
  { apply (num_size_top LOGN HL); lra. }
  exists st', m'. split; [exact E|]. split; [exact Hst'|]. intros i Hi. specialize (Hm' i Hi). pose proof (num_encode_error LOGN HL B Delta ltac:(lra) HD) as NE. unfold encode_error in NE.
  assert (MB : (Rabs (m i) <= B)%R) by (apply (coef_slots LOGN m B (HL27 LOGN HL)); auto; intros j Hj; rewrite Hs by auto; auto).
  pose proof (num_ifft_error LOGN HL B ltac:(lra)) as NI. set (EE := ifft_error u64 eta64 t64 N L B) in *.
  assert (HE : (0 <= EE)%R) by (pose proof (Rabs_pos (m' i - m i)); lra). pose proof (num_uB B ltac:(lra)) as UB. pose proof eta_pos as Heta.
  assert (SM : (EE <= B + 1)%R). { pose proof u_small. pose proof (eta_scaled 0 30 ltac:(lia) ltac:(lia)) as E30. change (powerRZ 2 0) with 1%R in E30. change (2 ^ 30) with 1073741824 in E30. assert (u64 * B <= / 9007199254740992 * B)%R by (apply Rmult_le_compat_r; lra). lra. }
  assert (T1 : (2 * ((B + EE) * IZR Delta) + 1 <= top64)%R).
  { assert ((B + EE) * IZR Delta <= (powerRZ 2 902) * IZR (2 ^ 64))%R.
    { apply Rmult_le_compat; try lra. replace 902 with (2 + 900) by reflexivity. rewrite p2_add. rewrite p2_2. assert (1 <= powerRZ 2 900)%R by (apply (p2_le 0); lia). lra. }
    rewrite <- (powerRZ_2 64), <- p2_add in H by lia. change (902 + 64) with 966 in H. assert (powerRZ 2 966 * 4 <= top64)%R.
    { rewrite <- p2_2, <- p2_add. apply p2_le. lia. } assert (1 <= powerRZ 2 966)%R by (apply (p2_le 0); lia). lra. }
  assert (T2 : (2 * IZR Delta <= top64)%R). { apply Rle_trans with (IZR (2 ^ 65)); [change (2 ^ 65) with (2 * 2 ^ 64); rewrite mult_IZR; lra|apply top64_big; lia]. }
  eapply Rle_trans; [apply (scaled F u64 eta64 top64 t64 HF (m' i) (m i) EE B (IZR Delta)); auto; lra|]. eapply Rle_trans; [exact NE|]. rewrite (p41 0).
  assert (0 <= u64 * B * IZR Delta)%R by (apply Rmult_le_pos; lra). lra.
Qed.
Theorem C125_encode_raw Delta st (z : Z -> CC) (m : Z -> R) B pt : 0 < Delta < 2 ^ 64 -> f_ifft_static F LOGN st -> cells N pt -> (0 <= B <= powerRZ 2 900)%R ->
  (forall j, 0 <= j < n -> (modulus (z j) <= B)%R) -> (forall j, 0 <= j < n -> slot N m j = z j) ->
  exists st' p, f_simple_encode_raw F LOGN st (fst (carray n z)) (snd (carray n z)) Delta pt = Ok (st', array N p) /\ f_ifft_static F LOGN st' /\
    forall i, 0 <= i < N -> (Rabs (p i - m i * IZR Delta) <= powerRZ 2 (-41) * (B * IZR Delta) + powerRZ 2 (-900))%R.
Proof.
  intros HD Hst Hpt HB Hz Hs. destruct (encoded Delta st z m B HD Hst HB Hz Hs) as (st' & m' & E & Hst' & H). exists st', (fun i => rnd F (m' i * rnd F (IZR Delta))). split; [|split; [exact Hst'|exact H]].
  destruct (cells_tab _ _ Hpt) as [d ->]. unfold f_simple_encode_raw. rewrite E. cbn [bind]. rewrite !array_gtab.
  erewrite (fill_gtab N); [reflexivity|apply Z.pow_nonneg; lia|]. intros i g Hi. rewrite grd_gtab by auto. reflexivity.
Qed.
Theorem C125_encode Delta st (z : Z -> CC) (m : Z -> R) B pt : 0 < Delta < 2 ^ 64 -> f_ifft_static F LOGN st -> cells N pt -> (0 <= B <= powerRZ 2 900)%R ->
  (forall j, 0 <= j < n -> (modulus (z j) <= B)%R) -> (forall j, 0 <= j < n -> slot N m j = z j) ->
  exists st' c, f_simple_encode F LOGN st (fst (carray n z)) (snd (carray n z)) Delta pt = Ok (st', array N (fun i => IZR (c i))) /\ f_ifft_static F LOGN st' /\
    forall i, 0 <= i < N -> (Rabs (IZR (c i) - m i * IZR Delta) <= / 2 + powerRZ 2 (-41) * (B * IZR Delta) + powerRZ 2 (-900))%R.
Proof.
  intros HD Hst Hpt HB Hz Hs. destruct (encoded Delta st z m B HD Hst HB Hz Hs) as (st' & m' & E & Hst' & H). exists st', (fun i => rround (rnd F (m' i * rnd F (IZR Delta)))). split; [|split; [exact Hst'|]].
  - destruct (cells_tab _ _ Hpt) as [d ->]. unfold f_simple_encode. rewrite E. cbn [bind]. rewrite !array_gtab.
    erewrite (fill_gtab N); [reflexivity|apply Z.pow_nonneg; lia|]. intros i g Hi. rewrite grd_gtab by auto. reflexivity.
  - intros i Hi. specialize (H i Hi). pose proof (rround_near (rnd F (m' i * rnd F (IZR Delta)))) as RN. apply abs_le in H, RN. apply Rabs_le. lra.
Qed.
Theorem C125_decode Delta st (p : Z -> R) A zr zi : 0 < Delta < 2 ^ 64 -> f_fft_static F LOGN st -> cells n zr -> cells n zi ->
  (forall i, 0 <= i < N -> (Rabs (p i / IZR Delta) <= A)%R) -> (0 <= A <= powerRZ 2 900)%R ->
  exists st' z', f_simple_decode F LOGN st (array N p) Delta zr zi = Ok (st', carray (K := Rops) n z') /\ f_fft_static F LOGN st' /\
    forall j, 0 <= j < n -> (modulus (z' j - slot N (fun i => p i / IZR Delta)%R j)%num <= powerRZ 2 (-42) * (IZR N * A) + powerRZ 2 (-1000))%R.
Proof.
  intros HD Hst Hr Hi Hp HA. assert (HDR : (1 <= IZR Delta <= IZR (2 ^ 64))%R) by (split; apply IZR_le; lia). pose proof u_pos as Hu'. pose proof eta_pos as He'. pose proof (num_uB A ltac:(lra)) as UA. pose proof (num_etaB A ltac:(lra)) as EA.
  set (dc := (3 * (u64 + eta64) * A + eta64)%R). assert (Hdc : (0 <= dc <= 75 * (u64 * A) + 128 * eta64)%R) by (unfold dc; lra).
  destruct (dec_num LOGN HL A dc HA Hdc) as [D1 D2].
  assert (P : (2 * A + 1 <= top64)%R). { assert (powerRZ 2 900 * 4 <= top64)%R by (rewrite <- p2_2, <- p2_add; apply p2_le; lia). assert (1 <= powerRZ 2 900)%R by (apply (p2_le 0); lia). lra. }
  assert (T2 : (2 * IZR Delta <= top64)%R). { apply Rle_trans with (IZR (2 ^ 65)); [change (2 ^ 65) with (2 * 2 ^ 64); rewrite mult_IZR; lra|apply top64_big; lia]. }
  assert (G : forall i, 0 <= i < N -> exists y, f_div F (p i) (rnd F (IZR Delta)) = Ok y /\ (Rabs (y - p i / IZR Delta) <= dc)%R).
  { intros i Hi'. apply (unscaled F u64 eta64 top64 t64 HF); auto; lra. }
  set (y := fun i => match f_div F (p i) (rnd F (IZR Delta)) with Ok x => x | _ => 0%R end).
  assert (Hy : forall i, 0 <= i < N -> f_div F (p i) (rnd F (IZR Delta)) = Ok (y i) /\ (Rabs (y i - p i / IZR Delta) <= dc)%R) by (intros i Hi'; destruct (G i Hi') as (x & E & Hx); unfold y; rewrite E; auto).
  assert (HNn : N = 2 * n) by (apply N_is; lia). assert (N0 : 0 < N) by (apply Z.pow_pos_nonneg; lia).
  assert (YB : forall i, 0 <= i < N -> (Rabs (y i) <= A + dc)%R). { intros i Hi'. destruct (Hy i Hi') as [_ H]. specialize (Hp i Hi'). apply abs_le in H, Hp. apply Rabs_le. lra. }
  destruct (C81_fft F u64 eta64 top64 t64 HF LOGN (HL27 LOGN HL) (num_small LOGN HL) st y (2 * (A + dc))%R zr zi Hst Hr Hi ltac:(lra)) as (st' & z' & E & Hst' & Hz').
  { intros l Hl. apply modulus_le2; apply YB; lia. } { exact D1. }
  exists st', z'. split; [|split; [exact Hst'|]].
  - unfold f_simple_decode. rewrite array_gtab in *. destruct (cells_tab N (gfresh R N) (repeat_length _ _)) as [d Ed]. rewrite Ed.
    rewrite (fill_gtab N _ d y); [exact E|lia|]. intros i g Hi'. rewrite grd_gtab by auto. cbn [bind]. rewrite (proj1 (Hy i Hi')). reflexivity.
  - intros j Hj. specialize (Hz' j Hj).
    replace (z' j - slot N (fun i => p i / IZR Delta)%R j)%num with ((z' j - slot N y j) + slot N (fun i => y i - p i / IZR Delta)%R j)%num by (rewrite slot_sub; ring).
    assert (SB : (modulus (slot N (fun i => y i - p i / IZR Delta)%R j) <= IZR N * dc)%R) by (apply modulus_slot; [lia|]; intros k Hk; apply Hy; auto).
    eapply Rle_trans; [apply modulus_add|]. eapply Rle_trans; [apply Rplus_le_compat; [exact Hz'|exact SB]|]. rewrite Rplus_comm. eapply Rle_trans; [exact D2|].
    rewrite (p42 0). pose proof (tiny 0). assert (0 <= u64 * (IZR N * A))%R; [|lra]. apply Rmult_le_pos; [lra|]. apply Rmult_le_pos; [apply IZR_le; lia|lra].
Qed.
Local Lemma inv_sqrt2 : (/ sqrt 2 <= 709 / 1000)%R.
Proof.
  assert (0 < sqrt 2)%R by (apply sqrt_lt_R0; lra). apply Rmult_le_reg_r with (sqrt 2); [lra|]. rewrite Rinv_l by lra. pose proof (sqrt_sqrt 2 ltac:(lra)).
  assert (1000 / 709 <= sqrt 2)%R; [|lra]. apply Rnot_lt_le. intros HH. assert (sqrt 2 * sqrt 2 < 1000 / 709 * (1000 / 709))%R by (apply Rmult_le_0_lt_compat; lra). lra.
Qed.
(** set_test_rounded_message: the intended points up to the rounding to integers and the errors of the transforms *)
Theorem C125_test_rounded_message Delta st st2 p : 0 < Delta < 2 ^ 64 -> f_ifft_static F LOGN st -> f_fft_static F LOGN st2 -> carray_of (K := Rops) n p ->
  exists st' st2' z, f_set_test_rounded_message F LOGN st st2 Delta p = Ok (st', st2', carray (K := Rops) n z) /\ f_ifft_static F LOGN st' /\ f_fft_static F LOGN st2' /\
    exists c : Z -> Z, forall j, 0 <= j < n -> (modulus (z j - slots N (IZR Delta) c j)%num <= powerRZ 2 (-41) * IZR N)%R /\
      (modulus (z j - test_point LOGN j)%num <= IZR N * (/ (2 * IZR Delta) + powerRZ 2 (-40)))%R.
Proof.
  intros HD Hst Hst2 Hp. assert (Eq : Z.quot N 2 = n) by (apply half_quot; lia). assert (N0 : 4 <= N) by (change 4 with (2 ^ 2); apply Z.pow_le_mono_r; lia). assert (Hn : 0 < n) by (apply Z.pow_pos_nonneg; lia).
  unfold f_set_test_rounded_message. cbv zeta. rewrite Eq.
  destruct (C123_test_message_double F n p HF ltac:(lia) Hp) as (z & E1 & Hz). rewrite E1. cbn [bind].
  assert (HDR : (1 <= IZR Delta <= IZR (2 ^ 64))%R) by (split; apply IZR_le; lia).
  assert (P10 : (powerRZ 2 (-10) = / 1024)%R) by (change (powerRZ 2 (-10)) with (/ 2 ^ 10)%R; cbn [pow]; lra).
  assert (P48 : (powerRZ 2 (-48) <= / 1024)%R) by (rewrite <- P10; apply p2_le; lia).
  assert (ZB : forall j, 0 <= j < n -> (modulus (z j) <= 71 / 100)%R). { intros j Hj. destruct (Hz j Hj) as [_ A]. apply abs_le in A. pose proof inv_sqrt2. lra. }
  destruct (some_m LOGN ltac:(lia) z) as [m Hm]. assert (P900 : (1 <= powerRZ 2 900)%R) by (apply (p2_le 0); lia).
  destruct (C125_encode Delta st z m (71 / 100)%R (repeat (Some 0%R) (Z.to_nat N)) HD Hst (repeat_length _ _) ltac:(lra) ZB Hm) as (st' & c & E2 & Hst' & Hc).
  match type of E2 with ?l = _ => match goal with |- context[f_simple_encode ?a ?b ?c ?d ?e ?f ?g] => change (f_simple_encode a b c d e f g) with l end end.
  rewrite E2. cbn [bind].
  assert (P41 : (0 < powerRZ 2 (-41) <= / 1024)%R). { split; [apply p2_pos|rewrite <- P10; apply p2_le; lia]. }
  assert (PM : (powerRZ 2 (-900) <= / 1024 * powerRZ 2 (-41))%R). { rewrite <- P10, <- p2_add. apply p2_le. lia. } assert (PM0 : (0 < powerRZ 2 (-900))%R) by apply p2_pos.
  assert (ID : (0 < / IZR Delta <= 1)%R). { split; [apply Rinv_0_lt_compat; lra|]. rewrite <- Rinv_1. apply Rinv_le_contravar; lra. }
  set (ee := (/ (2 * IZR Delta) + 72 / 100 * powerRZ 2 (-41))%R).
  assert (CE : forall i, 0 <= i < N -> (Rabs (IZR (c i) / IZR Delta - m i) <= ee)%R).
  { intros i Hi. replace (IZR (c i) / IZR Delta - m i)%R with ((IZR (c i) - m i * IZR Delta) * / IZR Delta)%R by (field; lra). rewrite Rabs_mult, (Rabs_right (/ IZR Delta)) by lra.
    eapply Rle_trans; [apply Rmult_le_compat_r; [lra|apply (Hc i Hi)]|]. unfold ee. rewrite Rinv_mult by lra.
    replace ((/ 2 + powerRZ 2 (-41) * (71 / 100 * IZR Delta) + powerRZ 2 (-900)) * / IZR Delta)%R with (/ 2 * / IZR Delta + 71 / 100 * powerRZ 2 (-41) + powerRZ 2 (-900) * / IZR Delta)%R by (field; lra).
    assert (powerRZ 2 (-900) * / IZR Delta <= powerRZ 2 (-900) * 1)%R by (apply Rmult_le_compat_l; lra). lra. }
  assert (EE : (0 <= ee <= 51 / 100)%R). { unfold ee. rewrite Rinv_mult by lra. lra. }
  assert (MB : forall i, 0 <= i < N -> (Rabs (m i) <= 71 / 100)%R). { apply (coef_slots LOGN m _ (HL27 LOGN HL)). intros j Hj. rewrite (Hm j Hj). apply ZB. exact Hj. }
  destruct (carray_of_carray n z) as [Ca Cb].
  destruct (C125_decode Delta st2 (fun i => IZR (c i)) (3 / 2)%R (fst (carray n z)) (snd (carray n z)) HD Hst2 Ca Cb) as (st2' & z' & E3 & Hst2' & Hz').
  { intros i Hi. specialize (CE i Hi). specialize (MB i Hi). apply abs_le in CE, MB. apply Rabs_le. lra. }
  { assert (2 <= powerRZ 2 900)%R by (rewrite <- p2_1 at 1; apply p2_le; lia). lra. }
  match type of E3 with ?l = _ => match goal with |- context[f_simple_decode ?a ?b ?c ?d ?e ?f ?g] => change (f_simple_decode a b c d e f g) with l end end.
  rewrite E3. cbn [bind]. exists st', st2', z'. split; [reflexivity|]. split; [exact Hst'|]. split; [exact Hst2'|]. exists c. intros j Hj. specialize (Hz' j Hj).
  assert (NR : (4 <= IZR N)%R) by (apply IZR_le; lia).
  assert (Q42 : (powerRZ 2 (-41) = 2 * powerRZ 2 (-42))%R) by (change (-41) with (1 + -42); rewrite p2_add; rewrite p2_1; ring).
  assert (P1000 : (0 < powerRZ 2 (-1000) <= / 1024 * powerRZ 2 (-42))%R). { split; [apply p2_pos|]. rewrite <- P10, <- p2_add. apply p2_le. lia. }
  assert (P42 : (0 < powerRZ 2 (-42))%R) by apply p2_pos. assert (PN : (4 * powerRZ 2 (-42) <= IZR N * powerRZ 2 (-42))%R) by (apply Rmult_le_compat_r; lra).
  assert (A1 : (modulus (z' j - slots N (IZR Delta) c j)%num <= powerRZ 2 (-41) * IZR N)%R).
  { unfold slots. eapply Rle_trans; [exact Hz'|]. rewrite Q42. lra. }
  split; [exact A1|].
  assert (A2 : (modulus (slots N (IZR Delta) c j - z j)%num <= IZR N * ee)%R).
  { unfold slots. rewrite <- (Hm j Hj), <- slot_sub. apply modulus_slot; [lia|]. exact CE. }
  destruct (Hz j Hj) as [A3 _]. fold (test_point LOGN j) in A3.
  replace (z' j - test_point LOGN j)%num with ((z' j - slots N (IZR Delta) c j) + ((slots N (IZR Delta) c j - z j) + (z j - test_point LOGN j)))%num by ring.
  eapply Rle_trans; [apply modulus_add|]. eapply Rle_trans; [apply Rplus_le_compat_l, modulus_add|].
  assert (P48' : (powerRZ 2 (-48) <= / 32 * powerRZ 2 (-42))%R). { replace (/ 32)%R with (powerRZ 2 (-5)) by (change (powerRZ 2 (-5)) with (/ 2 ^ 5)%R; cbn [pow]; lra). rewrite <- p2_add. apply p2_le. lia. }
  assert (Q40 : (powerRZ 2 (-40) = 2 * powerRZ 2 (-41))%R) by (change (-40) with (1 + -41); rewrite p2_add; rewrite p2_1; ring).
  unfold ee in A2. rewrite Rmult_plus_distr_l in A2 |- *. rewrite Q40. set (NP := (IZR N * powerRZ 2 (-41))%R). replace (IZR N * (72 / 100 * powerRZ 2 (-41)))%R with (72 / 100 * NP)%R in A2 by (unfold NP; ring).
  replace (IZR N * (2 * powerRZ 2 (-41)))%R with (2 * NP)%R by (unfold NP; ring). assert (NP = 2 * (IZR N * powerRZ 2 (-42)))%R by (unfold NP; rewrite Q42; ring). replace (powerRZ 2 (-41) * IZR N)%R with NP in A1 by (unfold NP; ring). clearbody NP. lra.
Qed.
End Double.

(** ** Instances: IEEE double precision *)
Example C125_case : exists c, f_simple_conv F64 4 (array 4 (fun k => IZR (k + 1) / 10)%R) (array 4 (fun k => IZR (k + 1) / 3)%R) (gfresh R 4) = Ok (array 4 c) /\ (Rabs (c 3%Z - 2 / 3) <= / IZR (10 ^ 14))%R.
Proof.
  destruct (C125_conv_double F64 C87_binary64 4 (fun k => IZR (k + 1) / 10)%R (fun k => IZR (k + 1) / 3)%R (gfresh R 4) 3 ltac:(lia) eq_refl) as (c & E & H).
  - intros i Hi. assert (R4 : forall k, 0 <= k < 4 -> (1 <= IZR (k + 1) <= 4)%R) by (intros k Hk; split; apply IZR_le; lia).
    apply Rle_trans with (IZR 4 * (3 / 4))%R; [|lra]. apply gsum_const_le; [lia|]. intros k Hk. pose proof (R4 k Hk). pose proof (R4 ((i - k) mod 4) ltac:(apply Z.mod_pos_bound; lia)).
    rewrite Rabs_mult. rewrite !Rabs_right by lra. apply Rle_trans with (4 / 10 * (4 / 3))%R; [apply Rmult_le_compat; lra|lra].
  - assert (4 <= powerRZ 2 1019)%R; [|lra]. rewrite <- p2_2. apply p2_le. lia.
  - exists c. split; [exact E|]. specialize (H 3 ltac:(lia)). replace (rnegconv 4 (fun k => IZR (k + 1) / 10)%R (fun k => IZR (k + 1) / 3)%R 3) with (2 / 3)%R in H.
    + eapply Rle_trans; [exact H|]. pose proof (u_is 2 ltac:(lia)) as U2. change (2 - 53) with (-51) in U2. change (IZR (2 ^ 2)) with 4%R in U2. rewrite ?U2, <- ?U2. pose proof u_small. assert (powerRZ 2 (-1000) <= u64)%R by (unfold u64; apply p2_le; lia). change (10 ^ 14) with 100000000000000. lra.
    + unfold rnegconv. assert (G : forall f, gsum (K := Rops) 4 f = (f 0%Z + f 1%Z + f 2%Z + f 3%Z)%R).
      { intros f. change 4 with (0 + 1 + 1 + 1 + 1). rewrite !(gsum_S (K := Rops)) by lia. cbn [Z.add Pos.add]. rewrite (gsum_0 (K := Rops)) by lia. change (0 + f 0%Z + f 1%Z + f 2%Z + f 3%Z = f 0%Z + f 1%Z + f 2%Z + f 3%Z)%R. ring. }
      rewrite G. cbn [Z.leb Z.compare Pos.compare Pos.compare_cont Z.add Z.sub Z.opp Pos.add Pos.sub Z.pos_sub Pos.pred_double Pos.succ]. cbn. lra.
Qed.
Example C125_rounded_case : exists st st2 z, f_set_test_rounded_message F64 9 None None (2 ^ 30) (carray (K := Rops) 256 (fun _ => (0%R, 0%R))) = Ok (st, st2, carray (K := Rops) 256 z) /\
  (modulus (z 100%Z - test_point 9 100)%num <= powerRZ 2 (-21))%R.
Proof.
  destruct (C125_test_rounded_message F64 C87_binary64 9 ltac:(lia) (2 ^ 30) None None (carray (K := Rops) 256 (fun _ => (0%R, 0%R)))) as (st & st2 & z & E & _ & _ & c & H); try lia; try constructor.
  - apply carray_of_carray.
  - apply carray_of_carray.
  - exists st, st2, z. split; [exact E|]. eapply Rle_trans; [apply (H 100); change (2 ^ (9 - 1)) with 256; lia|].
    replace (powerRZ 2 (-40)) with (/ 1099511627776)%R by (change (powerRZ 2 (-40)) with (/ 2 ^ 40)%R; cbn [pow]; lra). replace (powerRZ 2 (-21)) with (/ 2097152)%R by (change (powerRZ 2 (-21)) with (/ 2 ^ 21)%R; cbn [pow]; lra).
    change (2 ^ 9) with 512. change (2 ^ 30) with 1073741824. lra.
Qed.
