(** C130: what lemma_conv_error.cpp prints, in floating-point arithmetic. *)
From Coq Require Import ZArith List Bool Lia Reals Lra Ring.
From Verif Require Import Base BaseFacts Sums ZQ ZQFacts ZQFacts2 RQ RQFacts Conv Rot Util GSum Core CoreFacts Matrix MatrixFacts MatMulFacts
  DFT DFTTheory DFTFacts FFTFacts SpecZQ SpecPoly SpecPolyFacts SpecScheme ConvFacts SpecMat Properties_Mat Properties_Msg SpecDFT Properties_DFT SpecEnc Properties_Core Properties_Rot Properties_Conv
  GroupFacts SlotFacts Encode EncodeFacts Plain BootFacts Properties_Enc Properties_Plain SpecLin LinTrans LinTransFacts LinSlots GroupSlots SpecBoot BootSlots PlainFacts SpecStat StatFacts Section3 Properties_Stat Properties_MatErr Properties_Serial
  Properties_Lin Properties_Boot Poly EvalMod SpecMod EvalModFacts PiBound EvalModBound Properties_EvalMod SpecPipe Pipeline PipeFacts Properties_Pipe Bootstrap SpecEval EvalFacts Section4 SupFacts MeasFacts Measure UtilFacts Properties_ZQ CtsMeasure CtsProps Messages SupRatio TestProg TestLayers EmTest TestLinT TestBoot TestBootP.
From Verif Require Import Float SpecFloat FloatNum Binary64 Properties_Float SpecFloatLin FloatLin FloatSerial FloatGrouped SpecFloatBoot FloatBoot FloatBootSlots FloatBootNum Properties_FloatLin FloatMod SpecFloatMod FloatModFacts FloatModBound Properties_FloatMod.
From Verif Require Import FloatDot FloatMsg Properties_FloatMsg Properties_FloatMsg2 FloatDirect Properties_FloatDFT Properties_FloatDFT2 FloatSetup Properties_FloatSetup FloatTestBoot Properties_FloatTestBoot.
From Verif Require Import FloatSimple Properties_FloatSimple FloatTests Properties_FloatTests FloatEnc2.
From Verif Require Import Properties_FloatTests2 SpecFloatMsg.
From Verif Require Import FloatStat.
Import ListNotations.
Open Scope Z_scope.
Add Ring RCfst : HR.

(** The second call of ifft with the same arguments gives the same result *)
Lemma f_ifft_again F LOGN st zr zi D st' m : f_ifft F LOGN st zr zi D = Ok (st', m) -> f_ifft F LOGN st' zr zi D = Ok (st', m).
Proof.
  unfold f_ifft. cbv zeta. intros H. destruct (f_ifftNR F LOGN st zr zi (gfresh R (2 ^ LOGN))) as [[t r]| | |] eqn:E; try discriminate H. cbn [bind] in H.
  match type of H with bind ?x _ = _ => destruct x as [m1| | |] eqn:E1; try discriminate H end. cbn [bind] in H. injection H as <- <-.
  assert (E2 : f_ifftNR F LOGN t zr zi (gfresh R (2 ^ LOGN)) = Ok (t, r)).
  { clear E1. revert E. unfold f_ifftNR. cbv zeta. destruct (match st with Some t0 => Ok t0 | None => f_inv_tables F LOGN end) as [[U V]| | |]; try discriminate. cbn [bind].
    match goal with |- bind ?x _ = _ -> _ => destruct x as [y1| | |] eqn:Q1; try discriminate end. cbn [bind].
    match goal with |- bind ?x _ = _ -> _ => destruct x as [[[y2 a2] b2]| | |] eqn:Q2; try discriminate end. cbn [bind].
    match goal with |- bind ?x _ = _ -> _ => destruct x as [y3| | |] eqn:Q3; try discriminate end. cbn [bind].
    intros E. injection E as <- <-. cbn [bind]. try rewrite Q1. cbn [bind]. try rewrite Q2. cbn [bind]. try rewrite Q3. reflexivity. }
  rewrite E2. cbn [bind]. rewrite E1. reflexivity.
Qed.

(** ** Sums *)
Lemma squares_le N (a b c : Z -> R) t : 0 <= N -> (0 < t)%R -> (forall i, 0 <= i < N -> a i = (b i + c i)%R) ->
  (Properties_Stat.squares N a <= (1 + t) * Properties_Stat.squares N b + (1 + / t) * Properties_Stat.squares N c)%R.
Proof.
  intros HN Ht H. unfold Properties_Stat.squares. rewrite <- !rsum_scale, <- rsum_add. apply rsum_le. intros i Hi. rewrite (H i Hi). set (x := b i). set (y := c i).
  assert (Q : (0 <= (t * x - y) * (t * x - y) * / t)%R). { apply Rmult_le_pos; [|apply Rlt_le, Rinv_0_lt_compat; lra]. pose proof (Rle_0_sqr (t * x - y)) as Q. unfold Rsqr in Q. exact Q. }
  replace ((t * x - y) * (t * x - y) * / t)%R with (t * (x * x) - 2 * (x * y) + / t * (y * y))%R in Q by (field; lra). lra.
Qed.
Lemma squares_const N (a : Z -> R) d : 0 <= N -> (forall i, 0 <= i < N -> (Rabs (a i) <= d)%R) -> (Properties_Stat.squares N a <= IZR N * (d * d))%R.
Proof.
  intros HN H. unfold Properties_Stat.squares. rewrite <- (rsum_const N (d * d)%R) by lia. apply rsum_le. intros i Hi. specialize (H i Hi).
  replace (a i * a i)%R with (Rabs (a i) * Rabs (a i))%R by (rewrite <- Rabs_mult; apply Rabs_right; nra). pose proof (Rabs_pos (a i)). apply Rmult_le_compat; lra.
Qed.
Lemma shifted_sum N (b : Z -> R) i : 0 <= i < N -> rsum N (fun k => b ((i - k) mod N)) = rsum N b.
Proof.
  intros Hi. apply (GSum.gsum_reindex Rlawful N (fun k => (i - k) mod N) (fun k => (i - k) mod N)); intros k Hk; (split; [apply Z.mod_pos_bound; lia|]); rewrite Zminus_mod_idemp_r; replace (i - (i - k)) with k by ring; apply Z.mod_small; lia.
Qed.

(** The numbers *)
Lemma stat_square (N u h S A e : R) : (0 <= N <= 131072)%R -> (0 <= u <= / 9007199254740992)%R -> (0 <= h <= / 2 + / 1000000000000)%R -> (0 <= S)%R -> (A * A <= N * S)%R -> (0 <= e)%R -> (e <= / 1000000000000000000000000000000000000)%R ->
  let d := (N * (4 * u * (h * A) + 3 * e))%R in
  (h * N * (h * N) * S <= N * N * S / 4 * (1 + / 100000000000))%R /\ ((1 + 1073741824) * (N * (d * d)) <= N * N * S / 4 * / 1000000000 + e)%R.
Proof.
  intros HN Hu Hh HS HA He He2 d. set (w := (N * u)%R). assert (Hw : (0 <= w <= / 68719476736)%R) by (unfold w; split; [apply Rmult_le_pos; lra|]; apply Rle_trans with (131072 * / 9007199254740992)%R; [apply Rmult_le_compat; lra|lra]).
  set (Q := (N * N * S)%R). assert (HQ : (0 <= Q)%R) by (unfold Q; apply Rmult_le_pos; [apply Rmult_le_pos; lra|lra]).
  assert (Hhh : (0 <= h * h <= / 4 * (1 + / 100000000000))%R). { split; [apply Rmult_le_pos; lra|]. apply Rle_trans with ((/ 2 + / 1000000000000) * (/ 2 + / 1000000000000))%R; [apply Rmult_le_compat; lra|lra]. }
  assert (Hww : (0 <= w * w <= / 1000000000000000000000)%R). { split; [apply Rmult_le_pos; lra|]. apply Rle_trans with (/ 68719476736 * / 68719476736)%R; [apply Rmult_le_compat; lra|lra]. }
  assert (Hd : (d * d <= 32 * (w * w) * (h * h) * (A * A) + 18 * (N * N) * (e * e))%R).
  { set (a := (4 * w * h * A)%R). set (b := (3 * N * e)%R). replace d with (a + b)%R by (unfold d, a, b, w; ring). replace (32 * (w * w) * (h * h) * (A * A))%R with (2 * (a * a))%R by (unfold a; ring). replace (18 * (N * N) * (e * e))%R with (2 * (b * b))%R by (unfold b; ring).
    pose proof (Rle_0_sqr (a - b)) as R0. unfold Rsqr in R0. lra. }
  assert (K0 : (0 <= w * w * (h * h) <= / 1000000000000000000000 * 1)%R) by (split; [apply Rmult_le_pos; lra|apply Rmult_le_compat; lra]).
  assert (K1 : (N * (w * w * (h * h) * (A * A)) <= / 1000000000000000000000 * Q)%R).
  { apply Rle_trans with (N * (/ 1000000000000000000000 * (N * S)))%R; [|right; unfold Q; ring]. apply Rmult_le_compat_l; [lra|]. assert (0 <= A * A)%R by (pose proof (Rle_0_sqr A) as R0; unfold Rsqr in R0; exact R0). apply Rmult_le_compat; lra. }
  assert (K2 : (N * (N * N) * (e * e) <= / 100000000000000000000 * e)%R).
  { assert (N * N <= 131072 * 131072)%R by (apply Rmult_le_compat; lra). assert (0 <= N * N)%R by (apply Rmult_le_pos; lra). assert (N * (N * N) <= 131072 * (131072 * 131072))%R by (apply Rmult_le_compat; lra). assert (0 <= N * (N * N))%R by (apply Rmult_le_pos; lra).
    rewrite <- Rmult_assoc. apply Rmult_le_compat_r; [lra|]. apply Rle_trans with (131072 * (131072 * 131072) * / 1000000000000000000000000000000000000)%R; [apply Rmult_le_compat; lra|lra]. }
  assert (K3 : (N * (d * d) <= 32 * (/ 1000000000000000000000 * Q) + 18 * (/ 100000000000000000000 * e))%R).
  { eapply Rle_trans; [apply Rmult_le_compat_l; [lra|exact Hd]|]. replace (N * (32 * (w * w) * (h * h) * (A * A) + 18 * (N * N) * (e * e)))%R with (32 * (N * (w * w * (h * h) * (A * A))) + 18 * (N * (N * N) * (e * e)))%R by ring. lra. }
  assert (K4 : (h * N * (h * N) * S <= / 4 * (1 + / 100000000000) * Q)%R). { replace (h * N * (h * N) * S)%R with (h * h * Q)%R by (unfold Q; ring). apply Rmult_le_compat_r; lra. }
  split; lra.
Qed.
Lemma stat_compare (N u e S T T0 d q x y : R) : (4 <= N <= 131072)%R -> (0 <= u <= / 9007199254740992)%R -> (0 <= e)%R -> (e <= u)%R -> (0 <= S)%R -> (0 <= T)%R -> (0 <= T0)%R ->
  (Rabs (d - N / 12) <= u * (N / 12) + e)%R -> (Rabs (q - S) <= N * (4 * u * S + 3 * e))%R -> (Rabs (x - d * q) <= u * Rabs (d * q) + e)%R -> (Rabs (y - T) <= N * (4 * u * T + 3 * e))%R ->
  (T0 <= N * N * S / 4 * (1 + / 100000000000))%R -> (T <= (1 + / 1073741824) * T0 + (N * N * S / 4 * / 1000000000 + e))%R -> (T0 <= (1 + / 1073741824) * T + (N * N * S / 4 * / 1000000000 + e))%R ->
  (Rabs (x - N / 12 * S) <= / 1000000000 * (N / 12 * S) + 10000000000000000000 * e)%R /\ (Rabs (y - T0) <= / 100000000 * (N * N * S / 4) + 10000000000000000000 * e)%R /\ (y <= (1 + / 100000000) * (3 * N * x) + 10000000000000000000 * e)%R.
Proof.
  intros HN Hu He Heu HS HT HT0 Hd Hq Hx Hy HQ0 HT1 HT2. apply abs_inv in Hd, Hq, Hy.
  set (w := (N * u)%R). assert (Hw : (0 <= w <= / 68719476736)%R) by (unfold w; split; [apply Rmult_le_pos; lra|]; apply Rle_trans with (131072 * / 9007199254740992)%R; [apply Rmult_le_compat; lra|lra]).
  assert (NE : (0 <= N * e <= 131072 * e)%R) by (split; [apply Rmult_le_pos; lra|apply Rmult_le_compat_r; lra]).
  assert (Y : (T * (1 - / 10000000000) - 400000 * e <= y <= T * (1 + / 10000000000) + 400000 * e)%R). { replace (N * (4 * u * T + 3 * e))%R with (4 * (w * T) + 3 * (N * e))%R in Hy by (unfold w; ring). assert (w * T <= / 68719476736 * T)%R by (apply Rmult_le_compat_r; lra). lra. }
  replace (N * (4 * u * S + 3 * e))%R with (4 * (w * S) + 3 * (N * e))%R in Hq by (unfold w; ring).
  assert (WS : (0 <= w * S <= / 68719476736 * S)%R) by (split; [apply Rmult_le_pos; lra|apply Rmult_le_compat_r; lra]).
  assert (D : (N / 12 * (1 - / 1000000000000) <= d <= N / 12 * (1 + / 1000000000000))%R). { assert (u * (N / 12) <= / 9007199254740992 * (N / 12))%R by (apply Rmult_le_compat_r; lra). lra. }
  assert (DN : (0 <= d <= 11000)%R) by lra.
  set (r := (q - S)%R). assert (Rr : (Rabs r <= / 10000000000 * S + 400000 * e)%R) by (unfold r; apply Rabs_le; lra).
  assert (DR : (Rabs (d * r) <= / 10000000000 * (d * S) + 4400000000 * e)%R). { rewrite Rabs_mult, (Rabs_right d) by lra. eapply Rle_trans; [apply Rmult_le_compat_l; [lra|exact Rr]|]. assert (d * e <= 11000 * e)%R by (apply Rmult_le_compat_r; lra). lra. }
  assert (DS : (0 <= d * S)%R) by (apply Rmult_le_pos; lra).
  assert (DQ : (d * q = d * S + d * r)%R) by (unfold r; ring). apply abs_inv in DR.
  assert (AQ : (Rabs (d * q) <= 2 * (d * S) + 4400000000 * e)%R) by (rewrite DQ; apply Rabs_le; lra).
  assert (UQ : (u * Rabs (d * q) <= / 9007199254740992 * (2 * (d * S) + 4400000000 * e))%R) by (apply Rmult_le_compat; try lra; apply Rabs_pos).
  apply abs_inv in Hx.
  assert (X : (d * S * (1 - / 5000000000) - 4400100000 * e <= x)%R) by lra.
  set (Q := (N * N * S)%R) in *. assert (HQ : (0 <= Q)%R) by (unfold Q; apply Rmult_le_pos; [apply Rmult_le_pos; lra|lra]).
  assert (NDS : (Q / 12 * (1 - / 1000000000000) <= N * (d * S))%R).
  { replace (Q / 12 * (1 - / 1000000000000))%R with (N * (N / 12 * (1 - / 1000000000000) * S))%R by (unfold Q; field). apply Rmult_le_compat_l; [lra|]. apply Rmult_le_compat_r; lra. }
  assert (NX : (N * (d * S) * (1 - / 5000000000) - 4400100000 * (N * e) <= N * x)%R). { replace (N * (d * S) * (1 - / 5000000000) - 4400100000 * (N * e))%R with (N * (d * S * (1 - / 5000000000) - 4400100000 * e))%R by ring. apply Rmult_le_compat_l; lra. }
  assert (DS2 : (Rabs (d * S - N / 12 * S) <= / 1000000000000 * (N / 12 * S))%R). { replace (d * S - N / 12 * S)%R with ((d - N / 12) * S)%R by ring. rewrite Rabs_mult, (Rabs_right S) by lra. rewrite <- Rmult_assoc. apply Rmult_le_compat_r; [lra|]. apply Rabs_le. lra. }
  apply abs_inv in DS2. split; [|split].
  - apply Rabs_le. split; lra.
  - apply Rabs_le. split; lra.
  - lra.
Qed.

Section Run.
Context (F : fpu) (HF : double F) (LOGN : Z) (HL : 2 <= LOGN <= 17).
Local Notation N := (2 ^ LOGN).
Local Notation n := (2 ^ (LOGN - 1)).
Local Notation sq2 := Properties_Stat.squares.

(** The sum of the squares of a product with a polynomial of small coefficients *)
Lemma product_squares (e p : Z -> R) h : (forall i, 0 <= i < N -> (Rabs (e i) <= h)%R) -> (sq2 N (rnegconv N e p) <= h * IZR N * (h * IZR N) * sq2 N p)%R.
Proof.
  intros He. assert (Hn : (0 < IZR n)%R) by (apply IZR_lt, Z.pow_pos_nonneg; lia). assert (HN : 0 < N) by (apply Z.pow_pos_nonneg; lia).
  assert (K : (energy n (slot N (rnegconv N e p)) <= (h * IZR N * (h * IZR N)) * energy n (slot N p))%R).
  { unfold energy. rewrite <- rsum_scale. apply rsum_le. intros j Hj. rewrite slot_negconv by lia. rewrite modulus_mul.
    assert (M : (modulus (slot N e j) <= h * IZR N)%R) by (rewrite Rmult_comm; apply modulus_slot; [lia|exact He]).
    pose proof (modulus_nonneg (slot N e j)). pose proof (modulus_nonneg (slot N p j)). set (a := modulus (slot N e j)) in *. set (b := modulus (slot N p j)) in *. clearbody a b.
    replace (a * b * (a * b))%R with ((a * a) * (b * b))%R by ring. apply Rmult_le_compat_r; [nra|]. apply Rmult_le_compat; auto. }
  rewrite !(parseval LOGN ltac:(lia)) in K. apply (Rmult_le_reg_l (IZR n)); [exact Hn|]. eapply Rle_trans; [exact K|]. right. ring.
Qed.

(** lemma_conv_error.cpp: the number measured is at most 3 N times the number expected, up to rounding, as in exact arithmetic (C88_conv_error_max) *)
Theorem C130_conv_error Delta st (z V : Z -> CC) (m v : Z -> R) B : keeps_sign (rnd F) -> 0 < Delta < 2 ^ 64 -> f_ifft_static F LOGN st -> (0 <= B <= powerRZ 2 100)%R ->
  (forall j, 0 <= j < n -> (modulus (z j) <= B)%R) -> (forall j, 0 <= j < n -> slot N m j = z j) -> (forall j, 0 <= j < n -> (modulus (V j) <= B)%R) -> (forall j, 0 <= j < n -> slot N v j = V j) ->
  let rho := (powerRZ 2 (-41) * (B * IZR Delta) + powerRZ 2 (-900))%R in
  exists st' (c k : Z -> Z) (e : Z -> R) expected measured, f_conv_error F LOGN Delta st (carray (K := Rops) n z) (carray (K := Rops) n V) = Ok (st', (expected, measured)) /\ f_ifft_static F LOGN st' /\
    (forall i, 0 <= i < N -> (Rabs (IZR (c i) - m i * IZR Delta) <= / 2 + rho)%R) /\
    (forall i, 0 <= i < N -> (Rabs (e i - (v i * IZR Delta - IZR (k i))) <= rho + u64)%R /\ (Rabs (e i) <= / 2 + / 1000000000000)%R) /\
    let S := rsum N (fun i => IZR (c i) * IZR (c i))%R in
    (Rabs (expected - IZR N / 12 * S) <= / 1000000000 * (IZR N / 12 * S) + powerRZ 2 (-1000))%R /\
    (Rabs (measured - rsum N (fun i => rnegconv N e (fun i => IZR (c i)) i * rnegconv N e (fun i => IZR (c i)) i)%R) <= / 100000000 * (IZR N * IZR N * S / 4) + powerRZ 2 (-1000))%R /\
    (0 <= expected)%R /\ (0 <= measured <= (1 + / 100000000) * (3 * IZR N * expected) + powerRZ 2 (-1000))%R.
Proof.
  intros Hks HD Hst HB Hz Hm HV Hv rho. assert (HN0 : 0 < N) by (apply Z.pow_pos_nonneg; lia).
  assert (HN17 : 4 <= N <= 2 ^ 17) by (split; [change 4 with (2 ^ 2)|]; apply Z.pow_le_mono_r; lia). assert (NR : (4 <= IZR N <= 131072)%R) by (split; apply IZR_le; lia).
  pose proof u_small as Hu. pose proof u_pos as Hu0. pose proof eta_pos as He.
  assert (U53 : (u64 <= / 9007199254740992)%R) by (destruct u_pos as [_ P]; change (2 ^ 53) with 9007199254740992 in P; exact P).
  assert (EU : (eta64 <= u64)%R) by (pose proof (eta_u 0 ltac:(lia) ltac:(lia)) as P; change (2 ^ 0) with 1 in P; lra).
  assert (ET : (eta64 <= / 1000000000000000000000000000000000000)%R). { apply Rle_trans with (powerRZ 2 (-120)); [apply p2_le; lia|]. change (powerRZ 2 (-120)) with (/ 2 ^ 120)%R. apply Rinv_le_contravar; [lra|]. rewrite pow_IZR. apply IZR_le. vm_compute. discriminate. }
  assert (NU : (IZR N * u64 <= / 1024)%R). { apply Rle_trans with (131072 * / 9007199254740992)%R; [apply Rmult_le_compat; lra|lra]. }
  assert (HDR : (1 <= IZR Delta <= IZR (2 ^ 64))%R) by (split; apply IZR_le; lia). rewrite <- (powerRZ_2 64) in HDR by lia.
  assert (B9 : (0 <= B <= powerRZ 2 900)%R) by (split; [lra|]; apply Rle_trans with (powerRZ 2 100); [lra|apply p2_le; lia]).
  unfold f_conv_error. cbv zeta.
  destruct (C125_encode F HF LOGN HL Delta st z m B (simple_new N) HD Hst (new_cells N) B9 Hz Hm) as (st1 & c & E1 & Hst1 & Hc).
  match goal with |- context [f_simple_encode F LOGN st ?a ?b Delta ?d] => replace (f_simple_encode F LOGN st a b Delta d) with (Ok (st1, array N (fun i => IZR (c i)))) by (symmetry; exact E1) end. cbn [bind].
  set (p := fun i => IZR (c i)) in *.
  assert (PB : forall i, 0 <= i < N -> (Rabs (p i) <= powerRZ 2 166)%R).
  { intros i Hi. specialize (Hc i Hi). fold (p i) in Hc. assert (MB : (Rabs (m i) <= B)%R) by (apply (coef_slots LOGN m B ltac:(lia)); auto; intros j Hj; rewrite Hm by auto; auto).
    assert (BD : (0 <= B * IZR Delta <= powerRZ 2 164)%R). { split; [apply Rmult_le_pos; lra|]. change 164 with (100 + 64). rewrite p2_add. apply Rmult_le_compat; lra. }
    assert (MD : (Rabs (m i * IZR Delta) <= B * IZR Delta)%R) by (rewrite Rabs_mult, (Rabs_right (IZR Delta)) by lra; apply Rmult_le_compat_r; lra).
    pose proof (small_p (-41) ltac:(lia)). pose proof (small_p (-900) ltac:(lia)). assert (powerRZ 2 (-41) * (B * IZR Delta) <= / 1024 * (B * IZR Delta))%R by (apply Rmult_le_compat_r; lra).
    assert (P166 : powerRZ 2 166 = (4 * powerRZ 2 164)%R) by (change 166 with (2 + 164); rewrite p2_add; change (powerRZ 2 2) with (2 * (2 * 1))%R; ring). assert (1 <= powerRZ 2 164)%R by (apply (p2_le 0); lia).
    apply abs_inv in Hc, MD. rewrite P166. apply Rabs_le. split; lra. }
  set (S := sq2 N p). assert (HS : (0 <= S)%R) by apply squares_pos. assert (S1 : (S <= powerRZ 2 349)%R).
  { unfold S. eapply Rle_trans; [apply (squares_const N p (powerRZ 2 166)); [lia|exact PB]|]. change 349 with (17 + (166 + 166)). rewrite !p2_add. apply Rmult_le_compat_r; [rewrite <- p2_add; apply Rlt_le, p2_pos|]. rewrite powerRZ_2 by lia. change (2 ^ 17) with 131072. lra. }
  unfold f_div at 1. destruct (Req_EM_T 12 0) as [Q|_]; [lra|]. cbn [bind]. set (d := rnd F (IZR N / 12)).
  assert (Hd : (Rabs (d - IZR N / 12) <= u64 * (IZR N / 12) + eta64)%R).
  { pose proof (ar_rnd _ _ _ _ _ _ _ _ HF (IZR N / 12)) as A. rewrite (Rabs_right (IZR N / 12)) in A by lra. apply A. pose proof (top64_big 62 ltac:(lia)). assert (131072 <= IZR (2 ^ 62))%R by (apply IZR_le; lia). lra. }
  destruct (Properties_FloatSimple.squares F u64 eta64 top64 t64 HF N p ltac:(lia) NU) as (q & E2 & Hq & Hq0 & _). { apply count_top; [lia|]. change (S <= powerRZ 2 1019)%R. pose proof (p2_le 349 1019 ltac:(lia)). lra. }
  change (GSum.gsum (K := Rops) N (fun i => p i * p i)%R) with S in Hq. unfold real_dot_error in Hq.
  rewrite E2. cbn [bind].
  destruct (encoded F HF LOGN HL Delta st1 V v B HD Hst1 B9 HV Hv) as (st2 & m' & E3 & Hst2 & Hx3). pose proof (f_ifft_again _ _ _ _ _ _ _ _ E3) as E4.
  set (x := fun i => rnd F (m' i * rnd F (IZR Delta))).
  assert (E5 : f_simple_encode_raw F LOGN st1 (fst (carray (K := Rops) n V)) (snd (carray (K := Rops) n V)) Delta (simple_new N) = Ok (st2, array N x)).
  { destruct (cells_tab _ _ (new_cells N)) as [dd Ed]. rewrite Ed. unfold f_simple_encode_raw. rewrite E3. cbn [bind]. rewrite !array_gtab. erewrite (fill_gtab N); [reflexivity|lia|]. intros i g Hi. rewrite grd_gtab by auto. reflexivity. }
  assert (E6 : f_simple_encode F LOGN st2 (fst (carray (K := Rops) n V)) (snd (carray (K := Rops) n V)) Delta (simple_new N) = Ok (st2, array N (fun i => IZR (rround (x i))))).
  { destruct (cells_tab _ _ (new_cells N)) as [dd Ed]. rewrite Ed. unfold f_simple_encode. rewrite E4. cbn [bind]. rewrite !array_gtab. erewrite (fill_gtab N); [reflexivity|lia|]. intros i g Hi. rewrite grd_gtab by auto. reflexivity. }
  match goal with |- context [f_simple_encode_raw F LOGN st1 ?a ?b Delta ?d] => replace (f_simple_encode_raw F LOGN st1 a b Delta d) with (Ok (st2, array N x)) by (symmetry; exact E5) end. cbn [bind].
  match goal with |- context [f_simple_encode F LOGN st2 ?a ?b Delta ?d] => replace (f_simple_encode F LOGN st2 a b Delta d) with (Ok (st2, array N (fun i => IZR (rround (x i))))) by (symmetry; exact E6) end. cbn [bind].
  assert (XR : forall i, (Rabs (x i - IZR (rround (x i))) <= / 2)%R) by (intros i; rewrite Rabs_minus_sym; apply rround_near).
  destruct (C125_sub F u64 eta64 top64 t64 HF N x (fun i => IZR (rround (x i))) (simple_new N) ltac:(lia) (new_cells N)) as (e & E7 & He7).
  { intros i Hi. specialize (XR i). pose proof (top64_big 62 ltac:(lia)). assert (1 <= IZR (2 ^ 62))%R by (apply IZR_le; lia). lra. }
  rewrite E7. cbn [bind]. set (h := (/ 2 + / 1000000000000)%R).
  assert (HE : forall i, 0 <= i < N -> (Rabs (e i) <= h)%R).
  { intros i Hi. specialize (He7 i Hi). specialize (XR i). assert (u64 * Rabs (x i - IZR (rround (x i))) <= u64 * / 2)%R by (apply Rmult_le_compat_l; lra).
    replace (e i) with ((e i - (x i - IZR (rround (x i)))) + (x i - IZR (rround (x i))))%R by ring. eapply Rle_trans; [apply Rabs_triang|]. unfold h. lra. }
  set (A := rsum N (fun k => Rabs (p k))).
  assert (A2 : (A * A <= IZR N * S)%R). { eapply Rle_trans; [apply cauchy; lia|]. apply Rmult_le_compat_l; [lra|]. apply rsum_le. intros i Hi. right. cbv beta. rewrite <- Rabs_mult. apply Rabs_right. nra. }
  assert (A1 : (0 <= A <= powerRZ 2 183)%R).
  { split; [apply rsum_nonneg; [lia|]; intros; apply Rabs_pos|]. unfold A. apply Rle_trans with (rsum N (fun _ => powerRZ 2 166)); [apply rsum_le; intros i Hi; apply PB; exact Hi|]. rewrite rsum_const by lia. change 183 with (17 + 166). rewrite p2_add. apply Rmult_le_compat_r; [apply Rlt_le, p2_pos|]. rewrite powerRZ_2 by lia. change (2 ^ 17) with 131072. lra. }
  assert (HX : (h * A <= powerRZ 2 183)%R). { unfold h. assert ((/ 2 + / 1000000000000) * A <= 1 * A)%R by (apply Rmult_le_compat_r; lra). lra. }
  destruct (C125_conv F u64 eta64 top64 t64 HF N e p (simple_new N) (h * A)%R ltac:(lia) NU (new_cells N)) as (r & E8 & Hr).
  { intros i Hi. apply Rle_trans with (rsum N (fun k => h * Rabs (p ((i - k) mod N)))%R).
    - apply rsum_le. intros k Hk. rewrite Rabs_mult. apply Rmult_le_compat_r; [apply Rabs_pos|]. apply HE. exact Hk.
    - rewrite rsum_scale. rewrite (shifted_sum N (fun k => Rabs (p k)) i Hi). apply Rle_refl. }
  { apply count_top; [lia|]. pose proof (p2_le 183 1019 ltac:(lia)). lra. }
  match goal with |- context [f_simple_conv F N ?a ?b ?d] => replace (f_simple_conv F N a b d) with (Ok (array N r)) by (symmetry; exact E8) end. cbn [bind].
  set (T := sq2 N r). assert (HT : (0 <= T)%R) by apply squares_pos.
  set (T0 := sq2 N (rnegconv N e p)). assert (HT0 : (0 <= T0)%R) by apply squares_pos.
  assert (TS : (T0 <= IZR N * IZR N * S / 4 * (1 + / 100000000000))%R /\ (T <= (1 + / 1073741824) * T0 + (IZR N * IZR N * S / 4 * / 1000000000 + eta64))%R /\ (T0 <= (1 + / 1073741824) * T + (IZR N * IZR N * S / 4 * / 1000000000 + eta64))%R).
  { pose proof (squares_le N r (rnegconv N e p) (fun i => r i - rnegconv N e p i)%R (/ 1073741824) ltac:(lia) ltac:(lra) ltac:(intros; cbv beta; ring)) as SL. rewrite Rinv_inv in SL.
    pose proof (squares_le N (rnegconv N e p) r (fun i => rnegconv N e p i - r i)%R (/ 1073741824) ltac:(lia) ltac:(lra) ltac:(intros; cbv beta; ring)) as SL2. rewrite Rinv_inv in SL2.
    pose proof (product_squares e p h HE) as PS. fold S in PS.
    pose proof (squares_const N (fun i => r i - rnegconv N e p i)%R (real_dot_error u64 eta64 N (h * A)) ltac:(lia) Hr) as SC.
    pose proof (squares_const N (fun i => rnegconv N e p i - r i)%R (real_dot_error u64 eta64 N (h * A)) ltac:(lia) ltac:(intros i Hi; cbv beta; rewrite Rabs_minus_sym; exact (Hr i Hi))) as SC2.
    destruct (stat_square (IZR N) u64 h S A eta64 ltac:(lra) ltac:(lra) ltac:(unfold h; lra) HS A2 ltac:(lra) ET) as [SS1 SS2]. unfold real_dot_error in SC, SC2. fold T T0 in SL, SL2. fold T0 in PS. split; [|split]; lra. }
  destruct TS as (TS0 & TS1 & TS2).
  assert (T1 : (T <= powerRZ 2 1019)%R).
  { assert (NN : (IZR N * IZR N * S <= powerRZ 2 383)%R). { change 383 with (34 + 349). rewrite p2_add. apply Rmult_le_compat; [apply Rmult_le_pos; lra|exact HS| |exact S1]. rewrite powerRZ_2 by lia. change (2 ^ 34) with (131072 * 131072). rewrite mult_IZR. apply Rmult_le_compat; lra. }
    pose proof (p2_le 384 1019 ltac:(lia)). assert (powerRZ 2 384 = 2 * powerRZ 2 383)%R by (change 384 with (1 + 383); rewrite p2_add; change (powerRZ 2 1) with (2 * 1)%R; ring). assert (1 <= powerRZ 2 383)%R by (apply (p2_le 0); lia). assert (0 <= IZR N * IZR N * S)%R by (apply Rmult_le_pos; [apply Rmult_le_pos; lra|lra]). lra. }
  destruct (Properties_FloatSimple.squares F u64 eta64 top64 t64 HF N r ltac:(lia) NU) as (y & E9 & Hy & Hy0 & _). { apply count_top; [lia|]. exact T1. }
  change (GSum.gsum (K := Rops) N (fun i => r i * r i)%R) with T in Hy. unfold real_dot_error in Hy. rewrite E9. cbn [bind].
  assert (DQ : (Rabs (d * q) <= top64)%R).
  { rewrite Rabs_mult. apply abs_inv in Hd, Hq. assert (D1 : (Rabs d <= 131072)%R). { assert (u64 * (IZR N / 12) <= 1 * (IZR N / 12))%R by (apply Rmult_le_compat_r; lra). apply Rabs_le. lra. }
    assert (NS : (IZR N * (4 * u64 * S + 3 * eta64) <= S + 1)%R). { replace (IZR N * (4 * u64 * S + 3 * eta64))%R with (4 * (IZR N * u64) * S + 3 * (IZR N * eta64))%R by ring. assert (4 * (IZR N * u64) * S <= 1 * S)%R by (apply Rmult_le_compat_r; lra). assert (IZR N * eta64 <= IZR N * u64)%R by (apply Rmult_le_compat_l; lra). lra. }
    assert (Q1 : (Rabs q <= powerRZ 2 351)%R). { assert (powerRZ 2 351 = 4 * powerRZ 2 349)%R by (change 351 with (2 + 349); rewrite p2_add; change (powerRZ 2 2) with (2 * (2 * 1))%R; ring). assert (1 <= powerRZ 2 349)%R by (apply (p2_le 0); lia). apply Rabs_le. lra. }
    apply Rle_trans with (powerRZ 2 17 * powerRZ 2 351)%R; [|rewrite <- p2_add; apply p2_le; lia]. apply Rmult_le_compat; try apply Rabs_pos; auto. rewrite powerRZ_2 by lia. change (2 ^ 17) with 131072. exact D1. }
  pose proof (ar_rnd _ _ _ _ _ _ _ _ HF (d * q)%R DQ) as Hx.
  destruct (stat_compare (IZR N) u64 eta64 S T T0 d q (rnd F (d * q)) y NR ltac:(lra) ltac:(lra) EU HS HT HT0 Hd Hq Hx Hy TS0 TS1 TS2) as (C1 & C2 & C3).
  assert (ES : (10000000000000000000 * eta64 <= powerRZ 2 (-1000))%R). { apply Rle_trans with (IZR (2 ^ 64) * eta64)%R; [|apply eta_scaled; lia]. apply Rmult_le_compat_r; [lra|]. apply IZR_le. vm_compute. discriminate. }
  assert (D0 : (0 <= d)%R) by (apply Hks; lra).
  exists st2, c, (fun i => rround (x i)), e, (rnd F (d * q)), y. split; [reflexivity|]. split; [exact Hst2|]. split; [intros i Hi; specialize (Hc i Hi); unfold rho; lra|]. split.
  { intros i Hi. split; [|exact (HE i Hi)]. specialize (He7 i Hi). specialize (XR i). specialize (Hx3 i Hi). fold (x i) in Hx3. assert (u64 * Rabs (x i - IZR (rround (x i))) <= u64 * / 2)%R by (apply Rmult_le_compat_l; lra). fold rho in Hx3.
    pose proof (eta_u 1 ltac:(lia) ltac:(lia)) as P1. change (2 ^ 1) with 2 in P1.
    replace (e i - (v i * IZR Delta - IZR (rround (x i))))%R with ((e i - (x i - IZR (rround (x i)))) + (x i - v i * IZR Delta))%R by ring. eapply Rle_trans; [apply Rabs_triang|]. lra. }
  split; [|split; [|split; [apply Hks, Rmult_le_pos; auto|split; [auto|lra]]]].
  - apply Rle_trans with (/ 1000000000 * (IZR N / 12 * S) + 10000000000000000000 * eta64)%R; [exact C1|apply Rplus_le_compat_l; exact ES].
  - apply Rle_trans with (/ 100000000 * (IZR N * IZR N * S / 4) + 10000000000000000000 * eta64)%R; [exact C2|apply Rplus_le_compat_l; exact ES].
Qed.
End Run.

(** N = 512, Delta = 2^30, the message 1 and a message with rounding errors *)
Example C130_case : exists st expected measured, f_conv_error F64 9 (2 ^ 30) None (carray (K := Rops) 256 (fun _ => real 1)) (carray (K := Rops) 256 (fun j => real (IZR (j mod 5) / 7))) = Ok (st, (expected, measured)) /\
  (0 <= measured <= 1537 * expected + powerRZ 2 (-1000))%R.
Proof.
  destruct (some_m 9 ltac:(lia) (fun _ => real 1)) as [m Hm]. destruct (some_m 9 ltac:(lia) (fun j => real (IZR (j mod 5) / 7))) as [v Hv].
  destruct (C130_conv_error F64 C87_binary64 9 ltac:(lia) (2 ^ 30) None (fun _ => real 1) (fun j => real (IZR (j mod 5) / 7)) m v 1%R C118_sign_binary64 ltac:(lia) (f_ifft_first _ 9)) as (st & c & k & e & x & y & E & _ & _ & _ & H).
  - split; [lra|]. apply (p2_le 0). lia.
  - intros j Hj. rewrite modulus_real, Rabs_right; lra.
  - exact Hm.
  - intros j Hj. rewrite modulus_real. pose proof (Z.mod_pos_bound j 5 ltac:(lia)) as [L U]. apply IZR_le in L. assert (U' : j mod 5 <= 4) by lia. apply IZR_le in U'. rewrite Rabs_right; lra.
  - exact Hv.
  - cbv zeta in H. destruct H as (_ & _ & X & H1 & H2). exists st, x, y. split; [exact E|]. split; [exact H1|]. change (2 ^ 9) with 512 in H2. lra.
Qed.
