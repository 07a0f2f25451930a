(** C131: what lemma_conv_sum_error.cpp prints, in floating-point arithmetic. *)
From Coq Require Import ZArith List Bool Lia Reals Lra Ring.
From Verif Require Import Base BaseFacts Sums ZQ ZQFacts ZQFacts2 RQ RQFacts Conv Rot Util GSum Core CoreFacts Matrix MatrixFacts MatMulFacts
  DFT DFTTheory DFTFacts FFTFacts SpecZQ SpecPoly SpecPolyFacts SpecScheme ConvFacts SpecMat Properties_Mat Properties_Msg SpecDFT Properties_DFT SpecEnc Properties_Core Properties_Rot Properties_Conv
  GroupFacts SlotFacts Encode EncodeFacts Plain BootFacts Properties_Enc Properties_Plain SpecLin LinTrans LinTransFacts LinSlots GroupSlots SpecBoot BootSlots PlainFacts SpecStat StatFacts Section3 Properties_Stat Properties_MatErr Properties_Serial
  Properties_Lin Properties_Boot Poly EvalMod SpecMod EvalModFacts PiBound EvalModBound Properties_EvalMod SpecPipe Pipeline PipeFacts Properties_Pipe Bootstrap SpecEval EvalFacts Section4 SupFacts MeasFacts Measure UtilFacts Properties_ZQ CtsMeasure CtsProps Messages SupRatio TestProg TestLayers EmTest TestLinT TestBoot TestBootP.
From Verif Require Import Float SpecFloat FloatNum Binary64 Properties_Float SpecFloatLin FloatLin FloatSerial FloatGrouped SpecFloatBoot FloatBoot FloatBootSlots FloatBootNum Properties_FloatLin FloatMod SpecFloatMod FloatModFacts FloatModBound Properties_FloatMod.
From Verif Require Import FloatDot FloatMsg Properties_FloatMsg Properties_FloatMsg2 FloatDirect Properties_FloatDFT Properties_FloatDFT2 FloatSetup Properties_FloatSetup FloatTestBoot Properties_FloatTestBoot.
From Verif Require Import FloatSimple Properties_FloatSimple FloatTests Properties_FloatTests FloatEnc2.
From Verif Require Import Properties_FloatTests2 SpecFloatMsg.
From Verif Require Import FloatStat Properties_FloatStat.
Import ListNotations.
Open Scope Z_scope.
Add Ring RCfst : HR.


(** The numbers *)
Lemma sum_square (N P D u h S A e : R) : (0 <= N <= 131072)%R -> (0 <= P <= 135000)%R -> (0 <= D <= 1024)%R -> (0 <= u <= / 9007199254740992)%R -> (0 <= h <= / 2 + / 1000000000000)%R -> (0 <= S)%R -> (A * A <= N * S)%R -> (0 <= e)%R -> (e <= / 1000000000000000000000000000000000000)%R ->
  let d := (D * (P * (4 * u * (h * A) + 3 * e)))%R in let M := (D * N)%R in
  (D * D * (h * N * (h * N) * S) <= M * M * S / 4 * (1 + / 100000000000))%R /\ ((1 + 1073741824) * (N * (d * d)) <= M * M * S / 4 * / 1000000000 + e)%R.
Proof.
  intros HN HP HD Hu Hh HS HA He He2 d M. set (w := (P * u)%R). assert (Hw : (0 <= w <= / 60000000000)%R) by (unfold w; split; [apply Rmult_le_pos; lra|]; apply Rle_trans with (135000 * / 9007199254740992)%R; [apply Rmult_le_compat; lra|lra]).
  set (Q := (M * M * S)%R). assert (HM : (0 <= M)%R) by (unfold M; apply Rmult_le_pos; lra). assert (HQ : (0 <= Q)%R) by (unfold Q; apply Rmult_le_pos; [apply Rmult_le_pos; lra|lra]).
  assert (Hhh : (0 <= h * h <= / 4 * (1 + / 100000000000))%R). { split; [apply Rmult_le_pos; lra|]. apply Rle_trans with ((/ 2 + / 1000000000000) * (/ 2 + / 1000000000000))%R; [apply Rmult_le_compat; lra|lra]. }
  assert (Hww : (0 <= w * w <= / 1000000000000000000000)%R). { split; [apply Rmult_le_pos; lra|]. apply Rle_trans with (/ 60000000000 * / 60000000000)%R; [apply Rmult_le_compat; lra|lra]. }
  assert (Hd : (d * d <= D * D * (32 * (w * w) * (h * h) * (A * A) + 18 * (P * P) * (e * e)))%R).
  { set (a := (4 * w * h * A)%R). set (b := (3 * P * e)%R). replace (d * d)%R with (D * D * ((a + b) * (a + b)))%R by (unfold d, a, b, w; ring). replace (32 * (w * w) * (h * h) * (A * A))%R with (2 * (a * a))%R by (unfold a; ring). replace (18 * (P * P) * (e * e))%R with (2 * (b * b))%R by (unfold b; ring).
    pose proof (Rle_0_sqr (a - b)) as R0. unfold Rsqr in R0. apply Rmult_le_compat_l; [apply Rmult_le_pos; lra|lra]. }
  assert (K0 : (0 <= w * w * (h * h) <= / 1000000000000000000000 * 1)%R) by (split; [apply Rmult_le_pos; lra|apply Rmult_le_compat; lra]).
  assert (DD : (0 <= D * D <= 1024 * 1024)%R) by (split; [apply Rmult_le_pos; lra|apply Rmult_le_compat; lra]).
  assert (NDD : (0 <= N * (D * D) <= 131072 * (1024 * 1024))%R) by (split; [apply Rmult_le_pos; lra|apply Rmult_le_compat; lra]).
  assert (PP : (0 <= P * P <= 135000 * 135000)%R) by (split; [apply Rmult_le_pos; lra|apply Rmult_le_compat; lra]).
  assert (K1 : (N * (D * D) * (w * w * (h * h) * (A * A)) <= / 1000000000000000000000 * Q)%R).
  { apply Rle_trans with (N * (D * D) * (/ 1000000000000000000000 * (N * S)))%R; [|right; unfold Q, M; ring]. apply Rmult_le_compat_l; [lra|]. assert (0 <= A * A)%R by (pose proof (Rle_0_sqr A) as R0; unfold Rsqr in R0; exact R0). apply Rmult_le_compat; lra. }
  assert (K2 : (N * (D * D) * (P * P) * (e * e) <= / 1000000000000 * e)%R).
  { assert (0 <= N * (D * D) * (P * P) <= 131072 * (1024 * 1024) * (135000 * 135000))%R by (split; [apply Rmult_le_pos; lra|apply Rmult_le_compat; lra]).
    rewrite <- Rmult_assoc. apply Rmult_le_compat_r; [lra|]. apply Rle_trans with (131072 * (1024 * 1024) * (135000 * 135000) * / 1000000000000000000000000000000000000)%R; [apply Rmult_le_compat; lra|lra]. }
  assert (K3 : (N * (d * d) <= 32 * (/ 1000000000000000000000 * Q) + 18 * (/ 1000000000000 * e))%R).
  { eapply Rle_trans; [apply Rmult_le_compat_l; [lra|exact Hd]|]. replace (N * (D * D * (32 * (w * w) * (h * h) * (A * A) + 18 * (P * P) * (e * e))))%R with (32 * (N * (D * D) * (w * w * (h * h) * (A * A))) + 18 * (N * (D * D) * (P * P) * (e * e)))%R by ring. lra. }
  assert (K4 : (D * D * (h * N * (h * N) * S) <= / 4 * (1 + / 100000000000) * Q)%R). { replace (D * D * (h * N * (h * N) * S))%R with (h * h * Q)%R by (unfold Q, M; ring). apply Rmult_le_compat_r; lra. }
  split; lra.
Qed.
Lemma sum_compare (N M u e S T T0 d q x y : R) : (4 <= N <= 131072)%R -> (4 <= M <= 134217728)%R -> (0 <= u <= / 9007199254740992)%R -> (0 <= e)%R -> (e <= u)%R -> (0 <= S)%R -> (0 <= T)%R -> (0 <= T0)%R ->
  (Rabs (d - M / 12) <= u * (M / 12) + e)%R -> (Rabs (q - S) <= N * (4 * u * S + 3 * e))%R -> (Rabs (x - d * q) <= u * Rabs (d * q) + e)%R -> (Rabs (y - T) <= N * (4 * u * T + 3 * e))%R ->
  (T0 <= M * M * S / 4 * (1 + / 100000000000))%R -> (T <= (1 + / 1073741824) * T0 + (M * M * S / 4 * / 1000000000 + e))%R -> (T0 <= (1 + / 1073741824) * T + (M * M * S / 4 * / 1000000000 + e))%R ->
  (Rabs (x - M / 12 * S) <= / 1000000000 * (M / 12 * S) + 10000000000000000000000 * e)%R /\ (Rabs (y - T0) <= / 100000000 * (M * M * S / 4) + 10000000000000000000000 * e)%R /\ (y <= (1 + / 100000000) * (3 * M * x) + 10000000000000000000000 * e)%R.
Proof.
  intros HN HM Hu He Heu HS HT HT0 Hd Hq Hx Hy HQ0 HT1 HT2. apply abs_inv in Hd, Hq, Hy.
  set (w := (N * u)%R). assert (Hw : (0 <= w <= / 68719476736)%R) by (unfold w; split; [apply Rmult_le_pos; lra|]; apply Rle_trans with (131072 * / 9007199254740992)%R; [apply Rmult_le_compat; lra|lra]).
  assert (NE : (0 <= N * e <= 131072 * e)%R) by (split; [apply Rmult_le_pos; lra|apply Rmult_le_compat_r; lra]).
  assert (ME : (0 <= M * e <= 134217728 * e)%R) by (split; [apply Rmult_le_pos; lra|apply Rmult_le_compat_r; lra]).
  assert (Y : (T * (1 - / 10000000000) - 400000 * e <= y <= T * (1 + / 10000000000) + 400000 * e)%R). { replace (N * (4 * u * T + 3 * e))%R with (4 * (w * T) + 3 * (N * e))%R in Hy by (unfold w; ring). assert (w * T <= / 68719476736 * T)%R by (apply Rmult_le_compat_r; lra). lra. }
  replace (N * (4 * u * S + 3 * e))%R with (4 * (w * S) + 3 * (N * e))%R in Hq by (unfold w; ring).
  assert (WS : (0 <= w * S <= / 68719476736 * S)%R) by (split; [apply Rmult_le_pos; lra|apply Rmult_le_compat_r; lra]).
  assert (D : (M / 12 * (1 - / 1000000000000) <= d <= M / 12 * (1 + / 1000000000000))%R). { assert (u * (M / 12) <= / 9007199254740992 * (M / 12))%R by (apply Rmult_le_compat_r; lra). lra. }
  assert (DN : (0 <= d <= 12000000)%R) by lra.
  set (r := (q - S)%R). assert (Rr : (Rabs r <= / 10000000000 * S + 400000 * e)%R) by (unfold r; apply Rabs_le; lra).
  assert (DR : (Rabs (d * r) <= / 10000000000 * (d * S) + 4800000000000 * e)%R). { rewrite Rabs_mult, (Rabs_right d) by lra. eapply Rle_trans; [apply Rmult_le_compat_l; [lra|exact Rr]|]. assert (d * e <= 12000000 * e)%R by (apply Rmult_le_compat_r; lra). lra. }
  assert (DS : (0 <= d * S)%R) by (apply Rmult_le_pos; lra).
  assert (DQ : (d * q = d * S + d * r)%R) by (unfold r; ring). apply abs_inv in DR.
  assert (AQ : (Rabs (d * q) <= 2 * (d * S) + 4800000000000 * e)%R) by (rewrite DQ; apply Rabs_le; lra).
  assert (UQ : (u * Rabs (d * q) <= / 9007199254740992 * (2 * (d * S) + 4800000000000 * e))%R) by (apply Rmult_le_compat; try lra; apply Rabs_pos).
  apply abs_inv in Hx.
  assert (X : (d * S * (1 - / 5000000000) - 4900000000000 * e <= x)%R) by lra.
  set (Q := (M * M * S)%R) in *. assert (HQ : (0 <= Q)%R) by (unfold Q; apply Rmult_le_pos; [apply Rmult_le_pos; lra|lra]).
  assert (NDS : (Q / 12 * (1 - / 1000000000000) <= M * (d * S))%R).
  { replace (Q / 12 * (1 - / 1000000000000))%R with (M * (M / 12 * (1 - / 1000000000000) * S))%R by (unfold Q; field). apply Rmult_le_compat_l; [lra|]. apply Rmult_le_compat_r; lra. }
  assert (NX : (M * (d * S) * (1 - / 5000000000) - 4900000000000 * (M * e) <= M * x)%R). { replace (M * (d * S) * (1 - / 5000000000) - 4900000000000 * (M * e))%R with (M * (d * S * (1 - / 5000000000) - 4900000000000 * e))%R by ring. apply Rmult_le_compat_l; lra. }
  assert (DS2 : (Rabs (d * S - M / 12 * S) <= / 1000000000000 * (M / 12 * S))%R). { replace (d * S - M / 12 * S)%R with ((d - M / 12) * S)%R by ring. rewrite Rabs_mult, (Rabs_right S) by lra. rewrite <- Rmult_assoc. apply Rmult_le_compat_r; [lra|]. apply Rabs_le. lra. }
  apply abs_inv in DS2. split; [|split].
  - apply Rabs_le. split; lra.
  - apply Rabs_le. split; lra.
  - lra.
Qed.
(** One more term of the sum, in floating-point arithmetic *)
Lemma sum_step (k D N P u e X f s t r v : R) : (0 <= k)%R -> (k + 1 <= D)%R -> (1 <= D)%R -> P = (N + D)%R -> (0 <= N)%R -> (0 <= u)%R -> (P * u <= / 1024)%R -> (0 <= e)%R -> (0 <= X)%R ->
  (Rabs (s - t) <= k * (P * (4 * u * X + 3 * e)))%R -> (Rabs t <= k * X)%R -> (Rabs f <= X)%R -> (Rabs (r - f) <= N * (4 * u * X + 3 * e))%R -> (Rabs (v - (r + s)) <= u * Rabs (r + s) + e)%R ->
  (Rabs (v - (t + f)) <= (k + 1) * (P * (4 * u * X + 3 * e)))%R.
Proof.
  intros Hk HkD HD HP HN Hu HPu He HX Hs Ht Hf Hr Hv. set (E := (P * (4 * u * X + 3 * e))%R) in *. set (w := (P * u)%R) in *. assert (P0 : (0 <= P)%R) by lra. assert (W0 : (0 <= w)%R) by (apply Rmult_le_pos; lra).
  assert (EE : E = (4 * (w * X) + 3 * (P * e))%R) by (unfold E, w; ring).
  assert (WX : (0 <= w * X <= / 1024 * X)%R) by (split; [apply Rmult_le_pos; lra|apply Rmult_le_compat_r; lra]).
  assert (PE : (0 <= P * e)%R) by (apply Rmult_le_pos; lra). assert (UX : (0 <= u * X)%R) by (apply Rmult_le_pos; lra).
  assert (RS : (Rabs (r + s) <= D * (X + E))%R).
  { assert (NE : (N * (4 * u * X + 3 * e) <= E)%R) by (unfold E; apply Rmult_le_compat_r; [|lra]; assert (0 <= u * X)%R by (apply Rmult_le_pos; lra); lra).
    assert (E0 : (0 <= X + E)%R) by lra. assert ((k + 1) * (X + E) <= D * (X + E))%R by (apply Rmult_le_compat_r; lra).
    replace (r + s)%R with ((r - f) + f + ((s - t) + t))%R by ring. eapply Rle_trans; [apply Rabs_triang|]. pose proof (Rabs_triang (r - f) f). pose proof (Rabs_triang (s - t) t). lra. }
  assert (UD : (u * Rabs (r + s) <= D * (u * X + u * E))%R). { eapply Rle_trans; [apply Rmult_le_compat_l; [exact Hu|exact RS]|]. right. ring. }
  assert (UE : (u * E <= u * X + e)%R). { rewrite EE. replace (u * (4 * (w * X) + 3 * (P * e)))%R with (4 * w * (u * X) + 3 * w * e)%R by (unfold w; ring). assert (4 * w * (u * X) <= 1 * (u * X))%R by (apply Rmult_le_compat_r; lra). assert (3 * w * e <= 1 * e)%R by (apply Rmult_le_compat_r; lra). lra. }
  assert (UDE : (D * (u * X + u * E) <= D * (2 * (u * X) + e))%R) by (apply Rmult_le_compat_l; lra).
  assert (DE : (e <= D * e)%R) by (rewrite <- (Rmult_1_l e) at 1; apply Rmult_le_compat_r; lra).
  assert (DUX : (0 <= D * (u * X))%R) by (apply Rmult_le_pos; lra).
  assert (NE : (N * (4 * u * X + 3 * e) + D * (4 * u * X + 3 * e) = E)%R) by (unfold E; rewrite HP; ring).
  replace (v - (t + f))%R with ((v - (r + s)) + ((r - f) + (s - t)))%R by ring. eapply Rle_trans; [apply Rabs_triang|]. pose proof (Rabs_triang (r - f) (s - t)). lra.
Qed.

Lemma f_add_to_ok F N (a b : Z -> R) : 0 <= N -> f_simple_add_to F N (gtab N a) (gtab N b) = Ok (gtab N (fun i => rnd F (a i + b i))).
Proof.
  intros HN. unfold f_simple_add_to. rewrite (for_closed _ (fun k => gtab N (fun i => if i <? k then rnd F (a i + b i) else b i)) _ _ _ (gtab N (fun i => rnd F (a i + b i)))); auto.
  - apply gtab_ext. intros i Hi. destruct (Z.ltb_spec i 0); [lia|reflexivity].
  - apply gtab_ext. intros i Hi. destruct (Z.ltb_spec i N); [reflexivity|lia].
  - intros k Hk. rewrite !grd_gtab by auto. cbn [bind]. rewrite gwr_gtab by auto. f_equal. apply gtab_ext. intros i Hi.
    destruct (Z.ltb_spec k k); [lia|]. destruct (Z.eqb_spec i k) as [->|]; [destruct (Z.ltb_spec k (k + 1)); [reflexivity|lia]|].
    destruct (Z.ltb_spec i k), (Z.ltb_spec i (k + 1)); try lia; reflexivity.
Qed.
Lemma negconv_le N (e p : Z -> R) h i : 0 <= i < N -> (0 <= h)%R -> (forall k, 0 <= k < N -> (Rabs (e k) <= h)%R) -> (Rabs (rnegconv N e p i) <= h * rsum N (fun k => Rabs (p k)))%R.
Proof.
  intros Hi Hh He. rewrite <- (shifted_sum N (fun k => Rabs (p k)) i Hi), <- rsum_scale. apply gsum_rabs; [lia|]. intros k Hk. rewrite Rabs_mult. cbv beta. apply Rmult_le_compat; try apply Rabs_pos; auto.
  destruct (Z.leb_spec k i).
  - rewrite Z.mod_small by lia. apply Rle_refl.
  - rewrite Rabs_Ropp. replace ((i - k) mod N) with (N + i - k); [apply Rle_refl|]. rewrite <- (Z_mod_plus_full (i - k) 1 N). rewrite Z.mod_small by lia. lia.
Qed.

Lemma splits (a b : R) : a = (b + (a - b))%R. Proof. ring. Qed.

Section Run.
Context (F : fpu) (HF : double F) (LOGN : Z) (HL : 2 <= LOGN <= 17).
Local Notation N := (2 ^ LOGN).
Local Notation n := (2 ^ (LOGN - 1)).
Local Notation sq2 := Properties_Stat.squares.
Local Notation h := (/ 2 + / 1000000000000)%R.

(** The squares of a sum of products *)
Lemma sum_squares D (e : Z -> Z -> R) p : 0 <= D -> (forall k i, 0 <= k < D -> 0 <= i < N -> (Rabs (e k i) <= h)%R) ->
  (sq2 N (fun i => rsum D (fun k => rnegconv N (e k) p i)) <= IZR D * IZR D * (h * IZR N * (h * IZR N) * sq2 N p))%R.
Proof.
  intros HD He. unfold Properties_Stat.squares at 1. eapply Rle_trans; [apply rsum_le; intros i Hi; apply (cauchy D (fun k => rnegconv N (e k) p i) HD)|].
  rewrite rsum_scale. rewrite rsum_swap. rewrite (Rmult_assoc (IZR D) (IZR D)). apply Rmult_le_compat_l; [apply IZR_le; lia|]. rewrite <- rsum_const by lia. apply rsum_le. intros k Hk.
  apply (product_squares LOGN HL (e k) p h). intros i Hi. apply He; lia.
Qed.

(** One pass of the loop, without the rotation and the addition *)
Lemma one_term Delta st (V : Z -> CC) (v p : Z -> R) B Da Db Dc Dd : 0 < Delta < 2 ^ 64 -> f_ifft_static F LOGN st -> (0 <= B <= powerRZ 2 100)%R -> cells N Da -> cells N Db -> cells N Dc -> cells N Dd ->
  (forall j, 0 <= j < n -> (modulus (V j) <= B)%R) -> (forall j, 0 <= j < n -> slot N v j = V j) -> (rsum N (fun k => Rabs (p k)) <= powerRZ 2 183)%R ->
  exists st' (x e r : Z -> R) (k : Z -> Z), f_simple_encode_raw F LOGN st (fst (carray (K := Rops) n V)) (snd (carray (K := Rops) n V)) Delta Da = Ok (st', array N x) /\
    f_simple_encode F LOGN st' (fst (carray (K := Rops) n V)) (snd (carray (K := Rops) n V)) Delta Db = Ok (st', array N (fun i => IZR (k i))) /\
    f_simple_sub F N (array N x) (array N (fun i => IZR (k i))) Dc = Ok (array N e) /\ f_simple_conv F N (array N e) (array N p) Dd = Ok (array N r) /\ f_ifft_static F LOGN st' /\
    (forall i, 0 <= i < N -> (Rabs (e i - (v i * IZR Delta - IZR (k i))) <= powerRZ 2 (-41) * (B * IZR Delta) + powerRZ 2 (-900) + u64)%R) /\
    (forall i, 0 <= i < N -> (Rabs (e i) <= h)%R) /\
    (forall i, 0 <= i < N -> (Rabs (r i - rnegconv N e p i) <= IZR N * (4 * u64 * (h * rsum N (fun k => Rabs (p k))) + 3 * eta64))%R).
Proof.
  intros HD Hst HB Ca Cb Cc Cd HV Hv HA. assert (HN0 : 0 < N) by (apply Z.pow_pos_nonneg; lia).
  assert (HN17 : 4 <= N <= 2 ^ 17) by (split; [change 4 with (2 ^ 2)|]; apply Z.pow_le_mono_r; lia). assert (NR : (4 <= IZR N <= 131072)%R) by (split; apply IZR_le; lia).
  pose proof u_small as Hu. pose proof u_pos as Hu0. pose proof eta_pos as He.
  assert (U53 : (u64 <= / 9007199254740992)%R) by (destruct u_pos as [_ P]; change (2 ^ 53) with 9007199254740992 in P; exact P).
  assert (EU : (eta64 <= u64)%R) by (pose proof (eta_u 0 ltac:(lia) ltac:(lia)) as P; change (2 ^ 0) with 1 in P; lra).
  assert (NU : (IZR N * u64 <= / 1024)%R). { apply Rle_trans with (131072 * / 9007199254740992)%R; [apply Rmult_le_compat; lra|lra]. }
  assert (B9 : (0 <= B <= powerRZ 2 900)%R) by (split; [lra|]; apply Rle_trans with (powerRZ 2 100); [lra|apply p2_le; lia]).
  destruct (encoded F HF LOGN HL Delta st V v B HD Hst B9 HV Hv) as (st2 & m' & E3 & Hst2 & Hx3). pose proof (f_ifft_again _ _ _ _ _ _ _ _ E3) as E4.
  set (x := fun i => rnd F (m' i * rnd F (IZR Delta))).
  assert (XR : forall i, (Rabs (x i - IZR (rround (x i))) <= / 2)%R) by (intros i; rewrite Rabs_minus_sym; apply rround_near).
  destruct (C125_sub F u64 eta64 top64 t64 HF N x (fun i => IZR (rround (x i))) Dc ltac:(lia) Cc) as (e & E7 & He7).
  { intros i Hi. specialize (XR i). pose proof (top64_big 62 ltac:(lia)). assert (1 <= IZR (2 ^ 62))%R by (apply IZR_le; lia). lra. }
  assert (HE : forall i, 0 <= i < N -> (Rabs (e i) <= h)%R).
  { intros i Hi. specialize (He7 i Hi). specialize (XR i). assert (u64 * Rabs (x i - IZR (rround (x i))) <= u64 * / 2)%R by (apply Rmult_le_compat_l; lra).
    replace (e i) with ((e i - (x i - IZR (rround (x i)))) + (x i - IZR (rround (x i))))%R by ring. eapply Rle_trans; [apply Rabs_triang|]. lra. }
  set (A := rsum N (fun k => Rabs (p k))) in *. assert (A0 : (0 <= A)%R) by (apply rsum_nonneg; [lia|]; intros; apply Rabs_pos).
  destruct (C125_conv F u64 eta64 top64 t64 HF N e p Dd (h * A)%R ltac:(lia) NU Cd) as (r & E8 & Hr).
  { intros i Hi. apply Rle_trans with (rsum N (fun k => h * Rabs (p ((i - k) mod N)))%R).
    - apply rsum_le. intros k Hk. rewrite Rabs_mult. apply Rmult_le_compat_r; [apply Rabs_pos|]. apply HE. exact Hk.
    - rewrite rsum_scale. rewrite (shifted_sum N (fun k => Rabs (p k)) i Hi). apply Rle_refl. }
  { apply count_top; [lia|]. pose proof (p2_le 183 1019 ltac:(lia)). assert (h * A <= 1 * A)%R by (apply Rmult_le_compat_r; lra). lra. }
  exists st2, x, e, r, (fun i => rround (x i)). split; [|split; [|split; [exact E7|split; [exact E8|split; [exact Hst2|split; [|split; [exact HE|exact Hr]]]]]]].
  - destruct (cells_tab _ _ Ca) as [dd Ed]. rewrite Ed. unfold f_simple_encode_raw. rewrite E3. cbn [bind]. rewrite !array_gtab. erewrite (fill_gtab N); [reflexivity|lia|]. intros i g Hi. rewrite grd_gtab by auto. reflexivity.
  - destruct (cells_tab _ _ Cb) as [dd Ed]. rewrite Ed. unfold f_simple_encode. rewrite E4. cbn [bind]. rewrite !array_gtab. erewrite (fill_gtab N); [reflexivity|lia|]. intros i g Hi. rewrite grd_gtab by auto. reflexivity.
  - intros i Hi. specialize (He7 i Hi). specialize (XR i). specialize (Hx3 i Hi). fold (x i) in Hx3. assert (u64 * Rabs (x i - IZR (rround (x i))) <= u64 * / 2)%R by (apply Rmult_le_compat_l; lra).
    pose proof (eta_u 1 ltac:(lia) ltac:(lia)) as P1. change (2 ^ 1) with 2 in P1.
    replace (e i - (v i * IZR Delta - IZR (rround (x i))))%R with ((e i - (x i - IZR (rround (x i)))) + (x i - v i * IZR Delta))%R by ring. eapply Rle_trans; [apply Rabs_triang|]. lra.
Qed.

(** lemma_conv_sum_error.cpp: the number measured is close to the sum of the squares of the coefficients of sum_k e_k * pt, and at most 3 Diag N times the number
    expected, up to rounding *)
Theorem C131_conv_sum_error Diag Delta st (z : Z -> CC) (V : Z -> Z -> CC) (m : Z -> R) (v : Z -> Z -> R) B : keeps_sign (rnd F) -> 1 <= Diag <= 1024 -> 0 < Delta < 2 ^ 64 -> f_ifft_static F LOGN st -> (0 <= B <= powerRZ 2 100)%R ->
  (forall j, 0 <= j < n -> (modulus (z j) <= B)%R) -> (forall j, 0 <= j < n -> slot N m j = z j) ->
  (forall k j, 0 <= k < Diag -> 0 <= j < n -> (modulus (V k j) <= B)%R) -> (forall k j, 0 <= k < Diag -> 0 <= j < n -> slot N (v k) j = V k j) ->
  let rho := (powerRZ 2 (-41) * (B * IZR Delta) + powerRZ 2 (-900))%R in
  exists st' (c : Z -> Z) (t : Z -> Z -> Z) (e : Z -> Z -> R) expected measured,
    f_conv_sum_error F LOGN Diag Delta st (carray (K := Rops) n z) (map (fun k => carray (K := Rops) n (V k)) (range Diag)) = Ok (st', (expected, measured)) /\ f_ifft_static F LOGN st' /\
    (forall i, 0 <= i < N -> (Rabs (IZR (c i) - m i * IZR Delta) <= / 2 + rho)%R) /\
    (forall k i, 0 <= k < Diag -> 0 <= i < N -> (Rabs (e k i - (v k i * IZR Delta - IZR (t k i))) <= rho + u64)%R /\ (Rabs (e k i) <= / 2 + / 1000000000000)%R) /\
    let S := rsum N (fun i => IZR (c i) * IZR (c i))%R in let M := IZR (Diag * N) in let f i := rsum Diag (fun k => rnegconv N (e k) (fun i => IZR (c i)) i) in
    (Rabs (expected - M / 12 * S) <= / 1000000000 * (M / 12 * S) + powerRZ 2 (-1000))%R /\
    (Rabs (measured - rsum N (fun i => f i * f i)%R) <= / 100000000 * (M * M * S / 4) + powerRZ 2 (-1000))%R /\
    (0 <= expected)%R /\ (0 <= measured <= (1 + / 100000000) * (3 * M * expected) + powerRZ 2 (-1000))%R.
Proof.
  intros Hks HDg HD Hst HB Hz Hm HV Hv rho. assert (HN0 : 0 < N) by (apply Z.pow_pos_nonneg; lia).
  assert (HN17 : 4 <= N <= 2 ^ 17) by (split; [change 4 with (2 ^ 2)|]; apply Z.pow_le_mono_r; lia). assert (NR : (4 <= IZR N <= 131072)%R) by (split; apply IZR_le; lia).
  change (2 ^ 17) with 131072 in HN17. assert (DNZ : 4 <= Diag * N <= 134217728) by nia. assert (MR : (4 <= IZR (Diag * N) <= 134217728)%R) by (split; apply IZR_le; lia).
  assert (DR : (1 <= IZR Diag <= 1024)%R) by (split; apply IZR_le; lia).
  pose proof u_small as Hu. pose proof u_pos as Hu0. pose proof eta_pos as He.
  assert (U53 : (u64 <= / 9007199254740992)%R) by (destruct u_pos as [_ P]; change (2 ^ 53) with 9007199254740992 in P; exact P).
  assert (EU : (eta64 <= u64)%R) by (pose proof (eta_u 0 ltac:(lia) ltac:(lia)) as P; change (2 ^ 0) with 1 in P; lra).
  assert (ET : (eta64 <= / 1000000000000000000000000000000000000)%R). { apply Rle_trans with (powerRZ 2 (-120)); [apply p2_le; lia|]. change (powerRZ 2 (-120)) with (/ 2 ^ 120)%R. apply Rinv_le_contravar; [lra|]. rewrite pow_IZR. apply IZR_le. vm_compute. discriminate. }
  assert (NU : (IZR N * u64 <= / 1024)%R). { apply Rle_trans with (131072 * / 9007199254740992)%R; [apply Rmult_le_compat; lra|lra]. }
  assert (HDR : (1 <= IZR Delta <= IZR (2 ^ 64))%R) by (split; apply IZR_le; lia). rewrite <- (powerRZ_2 64) in HDR by lia.
  assert (B9 : (0 <= B <= powerRZ 2 900)%R) by (split; [lra|]; apply Rle_trans with (powerRZ 2 100); [lra|apply p2_le; lia]).
  unfold f_conv_sum_error. cbv zeta.
  destruct (C125_encode F HF LOGN HL Delta st z m B (simple_new N) HD Hst (new_cells N) B9 Hz Hm) as (st1 & c & E1 & Hst1 & Hc).
  match goal with |- context [f_simple_encode F LOGN st ?a ?b Delta ?d] => replace (f_simple_encode F LOGN st a b Delta d) with (Ok (st1, array N (fun i => IZR (c i)))) by (symmetry; exact E1) end. cbn [bind].
  set (p := fun i => IZR (c i)) in *.
  assert (PB : forall i, 0 <= i < N -> (Rabs (p i) <= powerRZ 2 166)%R).
  { intros i Hi. specialize (Hc i Hi). fold (p i) in Hc. assert (MB : (Rabs (m i) <= B)%R) by (apply (coef_slots LOGN m B ltac:(lia)); auto; intros j Hj; rewrite Hm by auto; auto).
    assert (BD : (0 <= B * IZR Delta <= powerRZ 2 164)%R). { split; [apply Rmult_le_pos; lra|]. change 164 with (100 + 64). rewrite p2_add. apply Rmult_le_compat; lra. }
    assert (MD : (Rabs (m i * IZR Delta) <= B * IZR Delta)%R) by (rewrite Rabs_mult, (Rabs_right (IZR Delta)) by lra; apply Rmult_le_compat_r; lra).
    pose proof (small_p (-41) ltac:(lia)). pose proof (small_p (-900) ltac:(lia)). assert (powerRZ 2 (-41) * (B * IZR Delta) <= / 1024 * (B * IZR Delta))%R by (apply Rmult_le_compat_r; lra).
    assert (P166 : powerRZ 2 166 = (4 * powerRZ 2 164)%R) by (change 166 with (2 + 164); rewrite p2_add; change (powerRZ 2 2) with (2 * (2 * 1))%R; ring). assert (1 <= powerRZ 2 164)%R by (apply (p2_le 0); lia).
    apply abs_inv in Hc, MD. rewrite P166. apply Rabs_le. split; lra. }
  set (S := sq2 N p). assert (HS : (0 <= S)%R) by apply squares_pos. assert (S1 : (S <= powerRZ 2 349)%R).
  { unfold S. eapply Rle_trans; [apply (squares_const N p (powerRZ 2 166)); [lia|exact PB]|]. change 349 with (17 + (166 + 166)). rewrite !p2_add. apply Rmult_le_compat_r; [rewrite <- p2_add; apply Rlt_le, p2_pos|]. rewrite powerRZ_2 by lia. change (2 ^ 17) with 131072. lra. }
  rewrite int_ok by (change (2 ^ 31) with 2147483648; lia). cbn [bind].
  unfold f_div at 1. destruct (Req_EM_T 12 0) as [Q|_]; [lra|]. cbn [bind]. set (M := IZR (Diag * N)) in *. set (d := rnd F (M / 12)).
  assert (Hd : (Rabs (d - M / 12) <= u64 * (M / 12) + eta64)%R).
  { pose proof (ar_rnd _ _ _ _ _ _ _ _ HF (M / 12)%R) as A. rewrite (Rabs_right (M / 12)) in A by lra. apply A. pose proof (top64_big 62 ltac:(lia)). assert (134217728 <= IZR (2 ^ 62))%R by (apply IZR_le; lia). lra. }
  destruct (Properties_FloatSimple.squares F u64 eta64 top64 t64 HF N p ltac:(lia) NU) as (q & E2 & Hq & Hq0 & _). { apply count_top; [lia|]. change (S <= powerRZ 2 1019)%R. pose proof (p2_le 349 1019 ltac:(lia)). lra. }
  change (GSum.gsum (K := Rops) N (fun i => p i * p i)%R) with S in Hq. unfold real_dot_error in Hq. rewrite E2. cbn [bind].
  set (A := rsum N (fun k => Rabs (p k))).
  assert (A2 : (A * A <= IZR N * S)%R). { eapply Rle_trans; [apply cauchy; lia|]. apply Rmult_le_compat_l; [lra|]. apply rsum_le. intros i Hi. right. cbv beta. rewrite <- Rabs_mult. apply Rabs_right. nra. }
  assert (A1 : (0 <= A <= powerRZ 2 183)%R).
  { split; [apply rsum_nonneg; [lia|]; intros; apply Rabs_pos|]. unfold A. apply Rle_trans with (rsum N (fun _ => powerRZ 2 166)); [apply rsum_le; intros i Hi; apply PB; exact Hi|]. rewrite rsum_const by lia. change 183 with (17 + 166). rewrite p2_add. apply Rmult_le_compat_r; [apply Rlt_le, p2_pos|]. rewrite powerRZ_2 by lia. change (2 ^ 17) with 131072. lra. }
  set (X := (h * A)%R). assert (HX : (0 <= X <= powerRZ 2 183)%R). { unfold X. split; [apply Rmult_le_pos; lra|]. assert (h * A <= 1 * A)%R by (apply Rmult_le_compat_r; lra). lra. }
  set (P := (IZR N + IZR Diag)%R). assert (PU : (P * u64 <= / 1024)%R). { apply Rle_trans with (135000 * / 9007199254740992)%R; [apply Rmult_le_compat; unfold P; lra|lra]. }
  match goal with |- context [for_ 0 Diag ?body ?s0] =>
    destruct (for_inv body (fun k (w : tables * rarr * rarr * rarr * rarr * rarr * rarr) => let '(st, a, b, c, d, e, rs) := w in
       f_ifft_static F LOGN st /\ cells N a /\ cells N b /\ cells N c /\ cells N d /\ cells N e /\
       exists (t : Z -> Z -> Z) (g : Z -> Z -> R) (s : Z -> R), rs = gtab N s /\
         (forall l i, 0 <= l < k -> 0 <= i < N -> (Rabs (g l i - (v l i * IZR Delta - IZR (t l i))) <= rho + u64)%R /\ (Rabs (g l i) <= h)%R) /\
         (forall i, 0 <= i < N -> (Rabs (s i - rsum k (fun l => rnegconv N (g l) p i)) <= IZR k * (P * (4 * u64 * X + 3 * eta64)))%R)) 0 Diag s0 ltac:(lia)) as (w & E & H)
  end.
  - repeat split; auto; try apply new_cells. exists (fun _ _ => 0), (fun _ _ => 0%R), (fun _ => 0%R). split; [apply new_gtab|]. split; [intros; lia|].
    intros i Hi. rewrite gsum_0 by lia. cbn [o0 Rops]. rewrite Rminus_0_r, Rabs_R0. lra.
  - intros k [[[[[[st2 a] b] c'] d'] e'] rs] Hk (H2 & Ca & Cb & Cc & Cd & Ce & t & g & s & -> & Hg & Hs). rewrite map_range, lget_tab by auto. cbn [bind].
    destruct (one_term Delta st2 (V k) (v k) p B a b e' d' HD H2 HB Ca Cb Ce Cd ltac:(intros; apply HV; lia) ltac:(intros; apply Hv; lia) ltac:(apply A1)) as (st3 & x & e & r & tk & E3 & E4 & E5 & E6 & H3 & Hn1 & Hn2 & Hn3).
    match goal with |- context [f_simple_encode_raw F LOGN st2 ?a ?b Delta ?d] => replace (f_simple_encode_raw F LOGN st2 a b Delta d) with (Ok (st3, array N x)) by (symmetry; exact E3) end. cbn [bind].
    match goal with |- context [f_simple_encode F LOGN st3 ?a ?b Delta ?d] => replace (f_simple_encode F LOGN st3 a b Delta d) with (Ok (st3, array N (fun i => IZR (tk i)))) by (symmetry; exact E4) end. cbn [bind].
    rewrite E5. cbn [bind].
    destruct (pow2_27 LOGN ltac:(lia)) as [_ Hb27]. destruct (inv5 LOGN ltac:(lia) 1 ltac:(lia)) as (u & u' & Eu). change (5 ^ 1) with 5 in Eu.
    destruct (rotate_ok N u u' p c' k ltac:(lia) Hb27 Eu Cc ltac:(lia)) as (pr & Er & _). rewrite (array_gtab N p), Er. rewrite <- (array_gtab N p). cbn [bind].
    rewrite E6. cbn [bind]. rewrite (array_gtab N r), f_add_to_ok by lia. cbn [bind]. eexists. split; [reflexivity|].
    split; [exact H3|]. rewrite !array_gtab. repeat (split; [apply gtab_cells|]).
    exists (fun l => if l =? k then tk else t l), (fun l => if l =? k then e else g l), (fun i => rnd F (r i + s i)). split; [reflexivity|]. split.
    + intros l i Hl Hi. destruct (Z.eqb_spec l k) as [->|]; [split; [apply Hn1|apply Hn2]; auto|apply Hg; lia].
    + intros i Hi. rewrite gsum_S by lia. rewrite Z.eqb_refl. cbn [oadd Rops].
      assert (Eg : rsum k (fun l => rnegconv N (if l =? k then e else g l) p i) = rsum k (fun l => rnegconv N (g l) p i)). { apply rsum_ext. intros l Hl. destruct (Z.eqb_spec l k); [lia|reflexivity]. }
      rewrite Eg. specialize (Hs i Hi). specialize (Hn3 i Hi). change (h * rsum N (fun k => Rabs (p k)))%R with X in Hn3.
      assert (T1 : (Rabs (rsum k (fun l => rnegconv N (g l) p i)) <= IZR k * X)%R). { rewrite <- rsum_const by lia. apply gsum_rabs; [lia|]. intros l Hl. apply negconv_le; [auto|lra|]. intros j Hj. apply Hg; lia. }
      assert (T2 : (Rabs (rnegconv N e p i) <= X)%R) by (apply negconv_le; [auto|lra|exact Hn2]).
      assert (KR : (0 <= IZR k)%R) by (apply IZR_le; lia). assert (KD : (IZR k + 1 <= IZR Diag)%R) by (rewrite <- plus_IZR; apply IZR_le; lia).
      rewrite plus_IZR. apply (sum_step (IZR k) (IZR Diag) (IZR N) P u64 eta64 X (rnegconv N e p i) (s i) (rsum k (fun l => rnegconv N (g l) p i)) (r i) (rnd F (r i + s i))); try lra; auto.
      apply (ar_rnd _ _ _ _ _ _ _ _ HF).
      assert (SZ : (Rabs (r i + s i) <= powerRZ 2 220)%R).
      { assert (UX : (P * (4 * u64 * X + 3 * eta64) <= X + 1)%R). { replace (P * (4 * u64 * X + 3 * eta64))%R with (4 * (P * u64) * X + 3 * (P * eta64))%R by ring. assert (P * eta64 <= P * u64)%R by (apply Rmult_le_compat_l; [unfold P; lra|lra]). assert (4 * (P * u64) * X <= 1 * X)%R by (apply Rmult_le_compat_r; lra). lra. }
        assert (NX : (IZR N * (4 * u64 * X + 3 * eta64) <= X + 1)%R). { eapply Rle_trans; [|exact UX]. apply Rmult_le_compat_r; [|unfold P; lra]. assert (0 <= u64 * X)%R by (apply Rmult_le_pos; lra). lra. }
        assert (KU : (IZR k * (P * (4 * u64 * X + 3 * eta64)) <= 1024 * (X + 1))%R). { apply Rmult_le_compat; try lra. apply Rmult_le_pos; [unfold P; lra|]. assert (0 <= u64 * X)%R by (apply Rmult_le_pos; lra). lra. }
        assert (KX : (IZR k * X <= 1024 * X)%R) by (apply Rmult_le_compat_r; lra).
        set (ff := rnegconv N e p i) in *. set (tt := rsum k (fun l => rnegconv N (g l) p i)) in *.
        replace (r i + s i)%R with ((r i - ff) + ff + ((s i - tt) + tt))%R by ring. eapply Rle_trans; [apply Rabs_triang|]. pose proof (Rabs_triang (r i - ff) ff). pose proof (Rabs_triang (s i - tt) tt).
        assert (P220 : powerRZ 2 220 = (powerRZ 2 37 * powerRZ 2 183)%R) by (change 220 with (37 + 183); apply p2_add). rewrite (powerRZ_2 37) in P220 by lia. change (2 ^ 37) with 137438953472 in P220. assert (1 <= powerRZ 2 183)%R by (apply (p2_le 0); lia). lra. }
      eapply Rle_trans; [exact SZ|]. apply p2_le. lia.
  - rewrite E. destruct w as [[[[[[st2 a] b] c'] d'] e'] rs]. destruct H as (Hst2 & _ & _ & _ & _ & _ & t & g & r & -> & Hg & Hr). cbn [bind]. rewrite <- array_gtab.
    set (G := fun i => rsum Diag (fun l => rnegconv N (g l) p i)). set (T := sq2 N r). assert (HT : (0 <= T)%R) by apply squares_pos. set (T0 := sq2 N G). assert (HT0 : (0 <= T0)%R) by apply squares_pos.
    assert (MM : M = (IZR Diag * IZR N)%R) by (unfold M; apply mult_IZR).
    assert (TS : (T0 <= M * M * S / 4 * (1 + / 100000000000))%R /\ (T <= (1 + / 1073741824) * T0 + (M * M * S / 4 * / 1000000000 + eta64))%R /\ (T0 <= (1 + / 1073741824) * T + (M * M * S / 4 * / 1000000000 + eta64))%R).
    { pose proof (squares_le N r G (fun i => r i - G i)%R (/ 1073741824) ltac:(lia) ltac:(lra) ltac:(intros; apply splits)) as SL. rewrite Rinv_inv in SL.
      pose proof (squares_le N G r (fun i => G i - r i)%R (/ 1073741824) ltac:(lia) ltac:(lra) ltac:(intros; apply splits)) as SL2. rewrite Rinv_inv in SL2.
      pose proof (sum_squares Diag g p ltac:(lia) ltac:(intros; apply Hg; auto)) as PS. fold S in PS. fold G in PS. fold T0 in PS.
      pose proof (squares_const N (fun i => r i - G i)%R (IZR Diag * (P * (4 * u64 * X + 3 * eta64))) ltac:(lia) Hr) as SC.
      pose proof (squares_const N (fun i => G i - r i)%R (IZR Diag * (P * (4 * u64 * X + 3 * eta64))) ltac:(lia) ltac:(intros i Hi; cbv beta; rewrite Rabs_minus_sym; exact (Hr i Hi))) as SC2.
      destruct (sum_square (IZR N) P (IZR Diag) u64 h S A eta64 ltac:(lra) ltac:(unfold P; lra) ltac:(lra) ltac:(lra) ltac:(lra) HS A2 ltac:(lra) ET) as [SS1 SS2]. fold X in SS2. rewrite <- MM in SS1, SS2. fold T T0 in SL, SL2. split; [|split]; lra. }
    destruct TS as (TS0 & TS1 & TS2).
    assert (T1 : (T <= powerRZ 2 1019)%R).
    { assert (NN : (M * M * S <= powerRZ 2 403)%R). { change 403 with (54 + 349). rewrite p2_add. apply Rmult_le_compat; [apply Rmult_le_pos; lra|exact HS| |exact S1]. rewrite powerRZ_2 by lia. change (2 ^ 54) with (134217728 * 134217728). rewrite mult_IZR. apply Rmult_le_compat; lra. }
      pose proof (p2_le 404 1019 ltac:(lia)). assert (powerRZ 2 404 = 2 * powerRZ 2 403)%R by (change 404 with (1 + 403); rewrite p2_add; change (powerRZ 2 1) with (2 * 1)%R; ring). assert (1 <= powerRZ 2 403)%R by (apply (p2_le 0); lia). assert (0 <= M * M * S)%R by (apply Rmult_le_pos; [apply Rmult_le_pos; lra|lra]). lra. }
    destruct (Properties_FloatSimple.squares F u64 eta64 top64 t64 HF N r ltac:(lia) NU) as (y & E9 & Hy & Hy0 & _). { apply count_top; [lia|]. exact T1. }
    change (GSum.gsum (K := Rops) N (fun i => r i * r i)%R) with T in Hy. unfold real_dot_error in Hy. rewrite E9. cbn [bind].
    assert (DQ : (Rabs (d * q) <= top64)%R).
    { rewrite Rabs_mult. apply abs_inv in Hd, Hq. assert (D1 : (Rabs d <= 134217728)%R). { assert (u64 * (M / 12) <= 1 * (M / 12))%R by (apply Rmult_le_compat_r; lra). apply Rabs_le. lra. }
      assert (NS : (IZR N * (4 * u64 * S + 3 * eta64) <= S + 1)%R). { replace (IZR N * (4 * u64 * S + 3 * eta64))%R with (4 * (IZR N * u64) * S + 3 * (IZR N * eta64))%R by ring. assert (4 * (IZR N * u64) * S <= 1 * S)%R by (apply Rmult_le_compat_r; lra). assert (IZR N * eta64 <= IZR N * u64)%R by (apply Rmult_le_compat_l; lra). lra. }
      assert (Q1 : (Rabs q <= powerRZ 2 351)%R). { assert (powerRZ 2 351 = 4 * powerRZ 2 349)%R by (change 351 with (2 + 349); rewrite p2_add; change (powerRZ 2 2) with (2 * (2 * 1))%R; ring). assert (1 <= powerRZ 2 349)%R by (apply (p2_le 0); lia). apply Rabs_le. lra. }
      apply Rle_trans with (powerRZ 2 27 * powerRZ 2 351)%R; [|rewrite <- p2_add; apply p2_le; lia]. apply Rmult_le_compat; try apply Rabs_pos; auto. rewrite powerRZ_2 by lia. change (2 ^ 27) with 134217728. exact D1. }
    pose proof (ar_rnd _ _ _ _ _ _ _ _ HF (d * q)%R DQ) as Hx.
    destruct (sum_compare (IZR N) M u64 eta64 S T T0 d q (rnd F (d * q)) y NR MR ltac:(lra) ltac:(lra) EU HS HT HT0 Hd Hq Hx Hy TS0 TS1 TS2) as (C1 & C2 & C3).
    assert (ES : (10000000000000000000000 * eta64 <= powerRZ 2 (-1000))%R). { apply Rle_trans with (IZR (2 ^ 75) * eta64)%R; [|apply eta_scaled; lia]. apply Rmult_le_compat_r; [lra|]. apply IZR_le. vm_compute. discriminate. }
    assert (D0 : (0 <= d)%R) by (apply Hks; lra).
    exists st2, c, t, g, (rnd F (d * q)), y. split; [reflexivity|]. split; [exact Hst2|]. split; [intros i Hi; specialize (Hc i Hi); unfold rho; lra|]. split; [intros k i Hk Hi; exact (Hg k i Hk Hi)|].
    split; [|split; [|split; [apply Hks, Rmult_le_pos; auto|split; [auto|lra]]]].
    + apply Rle_trans with (/ 1000000000 * (M / 12 * S) + 10000000000000000000000 * eta64)%R; [exact C1|apply Rplus_le_compat_l; exact ES].
    + apply Rle_trans with (/ 100000000 * (M * M * S / 4) + 10000000000000000000000 * eta64)%R; [exact C2|apply Rplus_le_compat_l; exact ES].
Qed.
End Run.

(** N = 512, three messages, Delta = 2^30 *)
Example C131_case : exists st expected measured, f_conv_sum_error F64 9 3 (2 ^ 30) None (carray (K := Rops) 256 (fun _ => real 1)) (map (fun k => carray (K := Rops) 256 (fun j => real (IZR ((j + k) mod 5) / 7))) (range 3)) = Ok (st, (expected, measured)) /\
  (0 <= measured <= 4609 * expected + powerRZ 2 (-1000))%R.
Proof.
  destruct (some_m 9 ltac:(lia) (fun _ => real 1)) as [m Hm].
  assert (SV : exists v : Z -> Z -> R, forall k j, 0 <= k < 3 -> 0 <= j < 2 ^ (9 - 1) -> slot (2 ^ 9) (v k) j = real (IZR ((j + k) mod 5) / 7)).
  { destruct (some_m 9 ltac:(lia) (fun j => real (IZR ((j + 0) mod 5) / 7))) as [v0 H0]. destruct (some_m 9 ltac:(lia) (fun j => real (IZR ((j + 1) mod 5) / 7))) as [v1 H1]. destruct (some_m 9 ltac:(lia) (fun j => real (IZR ((j + 2) mod 5) / 7))) as [v2 H2].
    exists (fun k => if k =? 0 then v0 else if k =? 1 then v1 else v2). intros k j Hk Hj. assert (K : k = 0 \/ k = 1 \/ k = 2) by lia. destruct K as [-> | [-> | ->]]; [apply H0|apply H1|apply H2]; exact Hj. }
  destruct SV as [v Hv].
  destruct (C131_conv_sum_error F64 C87_binary64 9 ltac:(lia) 3 (2 ^ 30) None (fun _ => real 1) (fun k j => real (IZR ((j + k) mod 5) / 7)) m v 1%R C118_sign_binary64 ltac:(lia) ltac:(lia) (f_ifft_first _ 9)) as (st & c & t & e & x & y & E & _ & _ & _ & H).
  - split; [lra|]. apply (p2_le 0). lia.
  - intros j Hj. rewrite modulus_real, Rabs_right; lra.
  - exact Hm.
  - intros k j Hk Hj. rewrite modulus_real. pose proof (Z.mod_pos_bound (j + k) 5 ltac:(lia)) as [L U]. apply IZR_le in L. assert (U' : (j + k) mod 5 <= 4) by lia. apply IZR_le in U'. rewrite Rabs_right; lra.
  - exact Hv.
  - cbv zeta in H. destruct H as (_ & _ & X & H1 & H2). exists st, x, y. split; [exact E|]. split; [exact H1|]. change (3 * 2 ^ 9) with 1536 in H2. lra.
Qed.
