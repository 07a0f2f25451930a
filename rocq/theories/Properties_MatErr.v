(** C90 and C91: the errors of matrix-vector products of section 3. *)
From Coq Require Import ZArith List Bool Lia Reals Lra Ring Znumtheory.
From Verif Require Import Base BaseFacts Sums ZQ ZQFacts ZQFacts2 ZQFacts3 RQ RQFacts Conv ConvFacts Rot RotFacts Util UtilFacts GSum Matrix MatrixFacts MatMulFacts
  DFT DFTTheory DFTFacts FFTFacts PolyRing SpecZQ SpecPoly SpecPolyFacts SpecMat Properties_Mat Properties_Msg SpecDFT Properties_DFT SpecEnc SlotFacts
  Encode EncodeFacts Plain PlainFacts LinSlots Properties_Conv Properties_Rot Properties_Enc Properties_Plain.
From Verif Require Import Section3 SpecStat StatFacts Properties_Stat.
Import ListNotations.
Open Scope Z_scope.
Add Ring RCm : HR.

Lemma rround_int k : rround (IZR k) = k.
Proof.
  pose proof (rround_near (IZR k)) as H. rewrite <- minus_IZR, <- abs_IZR in H.
  assert (Z.abs (rround (IZR k) - k) < 1) by (apply lt_IZR; lra). lia.
Qed.
Lemma rround_le x B : (Rabs x <= IZR B)%R -> Z.abs (rround x) <= B.
Proof.
  intros H. pose proof (rround_near x) as Hn. assert (K : (IZR (Z.abs (rround x)) < IZR (B + 1))%R).
  { rewrite abs_IZR, plus_IZR. replace (IZR (rround x)) with ((IZR (rround x) - x) + x)%R by ring. pose proof (Rabs_triang (IZR (rround x) - x) x). lra. }
  apply lt_IZR in K. lia.
Qed.
Lemma carray_of_carray n (f : Z -> CC) : carray_of (K := Rops) n (carray n f).
Proof. unfold carray. split; cbn [fst snd]; rewrite array_gtab; apply gtab_cells. Qed.
Lemma msg_norm_ok n (z : Z -> CC) : 0 <= n -> msg_norm n (carray n z) = Ok (sqrt (energy n z)).
Proof. intros Hn. unfold msg_norm. rewrite square_sum_energy by auto. reflexivity. Qed.
Lemma energy_ext n (x y : Z -> CC) : (forall j, 0 <= j < n -> x j = y j) -> energy n x = energy n y.
Proof. intros H. apply rsum_ext. intros j Hj. rewrite H by auto. reflexivity. Qed.
Lemma energy_scale n (c : R) (x : Z -> CC) : energy n (fun j => (real c * x j)%num) = (c * c * energy n x)%R.
Proof.
  unfold energy. rewrite <- rsum_scale. apply rsum_ext. intros j Hj. rewrite modulus_mul, modulus_real.
  replace (Rabs c * modulus (x j) * (Rabs c * modulus (x j)))%R with (Rabs c * Rabs c * (modulus (x j) * modulus (x j)))%R by ring.
  rewrite <- Rabs_mult, Rabs_right by nra. reflexivity.
Qed.
Lemma energy_shift n k (x : Z -> CC) : 0 < n -> energy n (fun j => x ((j + k) mod n)) = energy n x.
Proof. intros Hn. exact (gsum_shift Rlawful n k (fun j => modulus (x j) * modulus (x j))%R). Qed.

Lemma fft_then LOGN st m zr zi st' out : fft_static LOGN st -> fft LOGN st m zr zi = Ok (st', out) -> fft_static LOGN st'.
Proof. intros. eapply fft_next; eauto. Qed.
Lemma simple_decode_static LOGN st pt D zr zi st' out : fft_static LOGN st -> simple_decode LOGN st pt D zr zi = Ok (st', out) -> fft_static LOGN st'.
Proof.
  intros Hst E. unfold simple_decode in E. match type of E with bind ?x _ = _ => destruct x as [q| | |]; try discriminate E end. cbn [bind] in E. eapply fft_then; eauto.
Qed.
Lemma decode_log_static LOGQ LOGN st pt D zr zi st' out : fft_static LOGN st -> decode_log LOGQ LOGN st pt D zr zi = Ok (st', out) -> fft_static LOGN st'.
Proof.
  intros Hst E. unfold decode_log in E. match type of E with bind ?x _ = _ => destruct x as [q| | |]; try discriminate E end. cbn [bind] in E. eapply fft_then; eauto.
Qed.
Lemma slot_zero N j : 0 < N -> 0 <= j -> slot N (fun _ => 0%R) j = 0%num.
Proof. intros HN Hj. rewrite slot_at by auto. unfold at_. apply (gsum_zero HC). intros k Hk. apply RC_eq; cbn; ring. Qed.
Lemma slot_rsum N S (f : Z -> Z -> R) j : 0 < N -> 0 <= S -> 0 <= j -> slot N (fun i => rsum S (fun k => f k i)) j = gsum S (fun k => slot N (f k) j).
Proof.
  intros HN HS Hj. apply (GSum.gsum_ind S (fun S => slot N (fun i => rsum S (fun k => f k i)) j = gsum S (fun k => slot N (f k) j))); auto.
  - rewrite gsum_0 by lia. rewrite <- (slot_zero N j) by auto. apply slot_ext. intros i Hi. rewrite gsum_0 by lia. reflexivity.
  - intros m Hm IH. rewrite gsum_S by lia. rewrite <- IH. rewrite <- slot_add. apply slot_ext. intros i Hi. rewrite gsum_S by lia. reflexivity.
Qed.

Lemma cauchy D (x : Z -> R) : 0 <= D -> (rsum D x * rsum D x <= IZR D * rsum D (fun k => x k * x k))%R.
Proof.
  intros HD. assert (H : (rsum D x * rsum D x <= IZR D * rsum D (fun k => x k * x k))%R /\ (D = 0 -> rsum D x = 0%R) /\ (0 <= rsum D (fun k => x k * x k))%R); [|apply H].
  apply (GSum.gsum_ind D (fun D => (rsum D x * rsum D x <= IZR D * rsum D (fun k => x k * x k))%R /\ (D = 0 -> rsum D x = 0%R) /\ (0 <= rsum D (fun k => x k * x k))%R)); auto.
  - rewrite !gsum_0 by lia. cbn [o0 Rops]. split; [lra|]. split; [reflexivity|lra].
  - intros m Hm (C & Z0 & Q0). rewrite !gsum_S by lia. cbn [oadd Rops]. rewrite plus_IZR.
    set (s := rsum m x : R) in *. set (q := rsum m (fun k => x k * x k)%R : R) in *. set (y := x m). clearbody s q y. split; [|split; [lia|pose proof (Rle_0_sqr y); unfold Rsqr in *; lra]].
    destruct (Z.eq_dec m 0) as [->|Hm0]. { rewrite Z0 by auto. nra. }
    assert (HmR : (0 < IZR m)%R) by (apply IZR_lt; lia). set (d := IZR m) in *. clearbody d.
    assert (K : (0 <= q + d * (y * y) - 2 * s * y)%R).
    { apply (Rmult_le_reg_l d); auto. rewrite Rmult_0_r. apply Rle_trans with ((s - d * y) * (s - d * y))%R; [apply Rle_0_sqr|].
      replace ((s - d * y) * (s - d * y))%R with (s * s + d * (d * (y * y) - 2 * s * y))%R by ring. lra. }
    lra.
Qed.
(** the mean is at most the root of the mean square *)
Lemma mean_le_root {Omega} (I : (Omega -> R) -> Prop) E f c : expectation I E -> I f -> I (fun w => f w * f w)%R -> E (fun w => f w * f w)%R = (c * c)%R -> (0 <= c)%R -> (E f <= c)%R.
Proof.
  intros HE If If2 E2 Hc. set (a := E f).
  destruct (mean_scale I E HE (- 2 * a)%R f If) as [I1 E1]. destruct (mean_const I E HE (a * a)%R) as [I0 E0].
  destruct (mean_plus I E HE _ _ If2 I1) as [I3 E3]. destruct (mean_plus I E HE _ _ I3 I0) as [I4 E4].
  pose proof (mean_positive I E HE _ I4) as P. cbv beta in P. rewrite E4, E3, E1, E0, E2 in P. fold a in P.
  assert (Q : (0 <= c * c + - 2 * a * a + a * a)%R). { apply P. intros w. replace (f w * f w + - 2 * a * f w + a * a)%R with ((f w - a) * (f w - a))%R by ring. exact (Rle_0_sqr (f w - a)). }
  destruct (Rle_or_lt a c); [auto|nra].
Qed.

Lemma delta_word LD : 0 <= LD <= 63 -> 1 <= 2 ^ LD <= 2 ^ 63.
Proof. intros HLD. split; [|apply Z.pow_le_mono_r; lia]. assert (0 < 2 ^ LD) by (apply Z.pow_pos_nonneg; lia). lia. Qed.
Lemma some_diags LOGN (HL : 2 <= LOGN <= 17) D (A : Z -> Z -> CC) : 0 <= D ->
  exists v : Z -> Z -> R, forall k j, 0 <= k < D -> 0 <= j < 2 ^ (LOGN - 1) -> slot (2 ^ LOGN) (v k) j = A k j.
Proof.
  intros HD. pattern D. apply natlike_ind; auto; [exists (fun _ _ => 0%R); intros; lia|]. intros d Hd [v Hv]. destruct (some_m LOGN ltac:(lia) (A d)) as [m Hm].
  exists (fun k => if k =? d then m else v k). intros k j Hk Hj. destruct (Z.eqb_spec k d) as [->|]; [apply Hm; auto|apply Hv; auto; lia].
Qed.

Section MatErr.
Context (LOGQ LOGN : Z) (HQ : widths LOGQ) (HL : 2 <= LOGN <= 17).
Let N := 2 ^ LOGN.
Let n := 2 ^ (LOGN - 1).
Lemma HL' : 2 <= LOGN <= 27.
Proof. clear - HL. lia. Qed.

(** setup.h:59-65: the slots of the rounded coefficients *)
Lemma rounded_message_ok Delta st st2 (z : Z -> CC) m : ifft_static LOGN st -> fft_static LOGN st2 -> (forall j, 0 <= j < n -> slot N m j = z j) ->
  exists st' st2', rounded_message LOGN Delta st st2 (carray n z) = Ok (st', st2', carray n (slots N (IZR Delta) (fun i => rround (m i * IZR Delta)))) /\
    ifft_static LOGN st' /\ fft_static LOGN st2'.
Proof.
  intros Hst Hst2 Hz. unfold rounded_message. cbv zeta. fold N.
  destruct (enc_ok LOGN HL' Delta st z m (simple_new N) Hst (new_cells N) Hz) as (st1 & Ee & H1). fold N n in Ee. use Ee.
  destruct (carray_of_carray n z) as [Ha Hb].
  destruct (simple_decode_ok LOGN HL' st2 (fun i => IZR (rround (m i * IZR Delta))) Delta _ _ Hst2 Ha Hb) as [st2' E]. fold N n in E.
  pose proof (simple_decode_static _ _ _ _ _ _ _ _ Hst2 E) as H2. use E.
  exists st1, st2'. split; [reflexivity|]. auto.
Qed.

Lemma encode_rounded Delta st (p : Z -> Z) B : 0 < Delta < 2 ^ 64 -> ifft_static LOGN st -> (forall i, 0 <= i < N -> Z.abs (p i) <= B) -> B < 2 ^ 64 -> B < 2 ^ LOGQ ->
  exists st', encode LOGQ LOGN st (fst (carray n (slots N (IZR Delta) p))) (snd (carray n (slots N (IZR Delta) p))) Delta (rq_new LOGQ N) = Ok (st', repP LOGQ N p) /\
    ifft_static LOGN st'.
Proof.
  intros HD Hst Hp HB HBQ. assert (HQ1 : 1 <= LOGQ) by (unfold widths in HQ; lia). pose proof (HN3 LOGN HL') as HN. fold N in HN.
  assert (HDR : (0 < IZR Delta)%R) by (apply IZR_lt; lia).
  destruct (C54_encode LOGQ LOGN HQ1 HL' Delta st (slots N (IZR Delta) p) (fun i => IZR (p i) / IZR Delta)%R (rq_new LOGQ N) HD Hst) as (st' & pt & c & E & Hc & Hv).
  - apply objP_object; [lia|fold N; lia|apply objP_new].
  - intros j Hj. reflexivity.
  - intros i Hi. fold N in Hi. specialize (Hp i Hi). unfold Rdiv. rewrite Rabs_mult, (Rabs_right (/ IZR Delta)) by (apply Rle_ge, Rlt_le, Rinv_0_lt_compat; auto).
    rewrite Rmult_assoc, Rinv_l, Rmult_1_r by lra. rewrite <- abs_IZR.
    assert (IZR (Z.abs (p i)) <= IZR (2 ^ 64 - 1))%R by (apply IZR_le; lia). assert (IZR (Z.abs (p i)) <= IZR (2 ^ LOGQ - 1))%R by (apply IZR_le; lia).
    rewrite !minus_IZR in *. lra.
  - exists st'. fold N n in E, Hc, Hv. split; [|eapply LinTransFacts.encode_static; eauto]. rewrite E. apply holdsP_rep in Hc; [|lia|lia]. rewrite Hc. f_equal. f_equal.
    apply repP_ext. intros i Hi. destruct (Hv i Hi) as [_ ->]. replace (IZR (p i) / IZR Delta * IZR Delta)%R with (IZR (p i)) by (field; lra). rewrite rround_int. reflexivity.
Qed.

Context (Diag LD : Z) (HLD : 0 <= LD <= 63) (HDg : 1 <= Diag) (HDN : Diag * N < 2 ^ 31).
Let Delta := 2 ^ LD.
Context (Hsize : Diag * (N * ((Delta + 1) * Delta)) < 2 ^ (LOGQ - 1)).


Lemma single_ok st st2 (z : Z -> CC) (A : Z -> Z -> CC) m v pr : ifft_static LOGN st -> fft_static LOGN st2 ->
  (forall j, 0 <= j < n -> (modulus (z j) <= 1)%R) -> (forall k j, 0 <= k < Diag -> 0 <= j < n -> (modulus (A k j) <= 1)%R) ->
  (forall j, 0 <= j < n -> slot N m j = z j) -> (forall k j, 0 <= k < Diag -> 0 <= j < n -> slot N (v k) j = A k j) ->
  let p i := rround (m i * IZR Delta) in
  (forall k, 0 <= k < Diag -> rsubstituted N (5 ^ k) (zs p) (pr k)) ->
  exists st' st2' Az Az', single_matmul_error LOGQ LOGN Diag Delta LD st st2 (carray n z) (map (fun k => carray n (A k)) (range Diag))
    = Ok (st', st2', (sqrt (IZR (Diag * N) / 12) * sqrt (energy n (slots N (IZR Delta) p)) / IZR Delta, sqrt (energy n (fun j => Az j - Az' j)%num))%R) /\
    (forall j, 0 <= j < n -> (Az j - Az' j)%num
      = (real (/ (IZR Delta * IZR Delta)) * slot N (fun i => rsum Diag (fun k => rnegconv N (rounding Delta (v k)) (pr k) i)) j)%num).
Proof.
  intros Hst Hst2 Hz1 HA1 Hz HA p Hpr. pose proof (HN3 LOGN HL') as HN. pose proof (Hn3 LOGN HL') as Hn. fold N in HN. fold n in Hn. pose proof (delta_word LD HLD) as HDw. fold Delta in HDw.
  assert (HQ1 : 1 <= LOGQ <= 2 ^ 20) by (unfold widths in HQ; change (2 ^ 20) with 1048576; lia).
  assert (HDR : (0 < IZR Delta)%R) by (apply IZR_lt; lia). change (2 ^ 31) with 2147483648 in HDN.
  assert (HpB : forall i, 0 <= i < N -> Z.abs (p i) <= Delta).
  { intros i Hi. apply rround_le. rewrite Rabs_mult, (Rabs_right (IZR Delta)) by lra. rewrite <- (Rmult_1_l (IZR Delta)) at 2. apply Rmult_le_compat_r; [lra|].
    apply (coef_slots LOGN m 1 HL'); [|exact Hi]. intros j Hj. fold n in Hj. fold N. rewrite Hz by auto. auto. }
  assert (HvB : forall k i, 0 <= k < Diag -> 0 <= i < N -> (Rabs (v k i) * IZR Delta < IZR (Delta + 1) - / 2)%R).
  { intros k i Hk Hi. rewrite plus_IZR. assert (Rabs (v k i) <= 1)%R; [|nra].
    apply (coef_slots LOGN (v k) 1 HL'); [|exact Hi]. intros j Hj. fold n in Hj. fold N. rewrite HA by auto. auto. }
  assert (HDQ : Delta < 2 ^ LOGQ).
  { assert (2 ^ (LOGQ - 1) < 2 ^ LOGQ) by (apply Z.pow_lt_mono_r; lia). nia. }
  assert (H63 : 2 ^ 63 < 2 ^ 64) by (apply Z.pow_lt_mono_r; lia).
  unfold single_matmul_error. cbv zeta. fold N n.
  destruct (rounded_message_ok Delta st st2 z m Hst Hst2 Hz) as (st1 & st2b & Er & H1 & H2). fold N n in Er. fold p in Er. rewrite Er. cbn [bind].
  destruct (encode_rounded Delta st1 p Delta ltac:(lia) H1 HpB ltac:(lia) ltac:(lia)) as (st3 & Ee & H3). fold N n in Ee.
  match goal with |- context [encode LOGQ LOGN st1 ?a ?b Delta ?c] => change (encode LOGQ LOGN st1 a b Delta c) with
    (encode LOGQ LOGN st1 (fst (carray n (slots N (IZR Delta) p))) (snd (carray n (slots N (IZR Delta) p))) Delta (rq_new LOGQ N)) end.
  rewrite Ee. cbn [bind]. rewrite msg_norm_ok by lia. cbn [bind]. rewrite int_ok by nia. cbn [bind]. rewrite !(C68_new (K := Rops)) by lia. cbn [bind].
  rewrite (C50_msg_mvp_dense Rlawful) by (try apply carray_of_carray; change (2 ^ 30) with 1073741824; 
    assert (n <= 2 ^ 16) by (apply Z.pow_le_mono_r; lia); change (2 ^ 16) with 65536 in *; assert (4 <= N) by (change 4 with (2 ^ 2); apply Z.pow_le_mono_r; lia); nia).
  cbn [bind]. set (z' := slots N (IZR Delta) p).
  destruct (mvp_loop LOGQ LOGN HQ HL Diag Delta Delta (Delta + 1) ltac:(lia) ltac:(lia) ltac:(lia) ltac:(lia) A v (fun k => k) p ltac:(lia) HA HvB HpB Hsize st3 (rq_new LOGQ N) H3) as (st4 & r & E & _ & Hr & Hs).
  { apply objP_object; [lia|fold N; lia|apply objP_new]. }
  fold N n in E, Hr, Hs.
  assert (E' : pt_mvp LOGQ LOGN Diag st3 (repP LOGQ N p) (map (fun k => carray n (A k)) (range Diag)) Delta (rq_new LOGQ N) = Ok (st4, repP LOGQ N r)).
  { unfold pt_mvp. fold N. rewrite rq_setzero_ok by (try lia; apply objP_new). cbn [bind].
    rewrite <- E. apply f_equal2; [|reflexivity]. apply for_ext. intros k [[[[sta va] ro] cv] az] Hk. rewrite map_range, lget_tab by auto. reflexivity. }
  rewrite E'. cbn [bind]. rewrite int_ok by lia. cbn [bind].
  destruct (carray_of_carray n (fun _ => 0%num)) as [Ca Cb].
  destruct (C56_decode_log LOGQ LOGN ltac:(lia) HL' (2 * LD) st2b (repP LOGQ N r) r _ _ ltac:(change (2 ^ 20) with 1048576 in HQ1; change (2 ^ 30) with 1073741824; lia) ltac:(change (2 ^ 30) with 1073741824; lia) H2 Ca Cb) as [st5 E5].
  { split; [apply repP_holds; fold N; lia|]. intros i Hi. specialize (Hr i Hi). fold N in Hr. lia. }
  fold N n in E5. rewrite E5. cbn [bind].
  rewrite (C68_sub (K := Rops)) by (try lia; apply carray_of_carray). cbn [bind]. rewrite msg_norm_ok by lia. cbn [bind].
  do 4 eexists. split; [reflexivity|]. intros j Hj. cbv beta.
  pose proof (apply_offsets LOGQ LOGN HL Diag A (fun k => k) z' j Hj) as Ea. fold n in Ea. etransitivity; [apply f_equal2; [exact Ea|reflexivity]|]. clear Ea.
  assert (EP : powerRZ 2 (2 * LD) = (IZR Delta * IZR Delta)%R).
  { unfold Delta. replace (2 * LD) with (LD + LD) by lia. rewrite powerRZ_add by lra. rewrite powerRZ_2 by lia. reflexivity. }
  rewrite EP. rewrite slot_rsum by lia. unfold slots. change (fun i => (IZR (r i) / (IZR Delta * IZR Delta))%R) with (fun i => (zs r i / (IZR Delta * IZR Delta))%R).
  rewrite (slots_zs LOGN) by nra. fold N. rewrite Hs by auto. rewrite <- !(gsum_scale HC), <- (gsum_sub HC). apply (gsum_ext (K := RC)). intros k Hk.
  assert (HR1 : slot N (rounding Delta (v k)) j = (real (IZR Delta) * A k j - slot N (zs (rounded Delta v k)) j)%num).
  { rewrite <- HA by auto. rewrite <- slot_scale, <- slot_sub. apply slot_ext. intros i Hi. unfold rounding, zs, rounded. ring. }
  assert (HR2 : slot N (pr k) j = slot N (zs p) ((j + k) mod n)) by (apply (slot_rot LOGN HL'); [lia|lia|apply Hpr; auto]).
  assert (HR3 : z' ((j + k) mod n) = (real (/ IZR Delta) * slot N (zs p) ((j + k) mod n))%num) by (apply (slots_zs LOGN); lra).
  rewrite slot_negconv by lia. rewrite HR1, HR2, HR3.
  assert (HR4 : real (/ (IZR Delta * IZR Delta)) = (real (/ IZR Delta) * real (/ IZR Delta))%num) by (rewrite Rinv_mult; apply RC_eq; cbn; ring).
  assert (HR5 : (real (/ IZR Delta) * real (IZR Delta))%num = 1%num) by (apply RC_eq; cbn; [field; lra|ring]).
  rewrite HR4. set (d := real (/ IZR Delta)) in *. set (D := real (IZR Delta)) in *. set (x := slot N (zs (rounded Delta v k)) j). set (y := slot N (zs p) ((j + k) mod n)).
  transitivity (d * A k j * y * (d * D) - d * d * (x * y))%num; [rewrite HR5; ring|ring].
Qed.

(** ** C90: theorem_single_matmul_error.cpp *)
Definition rotation (p : Z -> R) (k i : Z) : R :=
  match simple_rotate N (array N p) (simple_new N) k with Ok l => match grd l i with Ok x => x | _ => 0%R end | _ => 0%R end.
Lemma rotations (p : Z -> R) k : 0 <= k -> rsubstituted N (5 ^ k) p (rotation p k) /\ simple_rotate N (array N p) (simple_new N) k = Ok (array N (rotation p k)).
Proof.
  intros Hk. pose proof (HN3 LOGN HL') as HN. fold N in HN. destruct (pow2_27 LOGN ltac:(pose proof HL'; lia)) as [_ Hb]. fold N in Hb.
  destruct (inv5 LOGN HL' 1 ltac:(lia)) as (u & u' & Eu). change (5 ^ 1) with 5 in Eu.
  destruct (rotate_ok N u u' p (simple_new N) k ltac:(lia) Hb Eu (new_cells N) Hk) as (b & Er & Hs).
  assert (Eb : forall i, 0 <= i < N -> rotation p k i = b i).
  { intros i Hi. unfold rotation. rewrite array_gtab, Er, grd_gtab by auto. reflexivity. }
  split.
  - intros i Hi j. rewrite (Hs i Hi). cbv zeta. fold j. assert (0 <= j < 2 * N) by (apply Z.mod_pos_bound; lia).
    destruct (Z.ltb_spec j N); rewrite Eb by lia; reflexivity.
  - rewrite !array_gtab, Er. f_equal. apply gtab_ext. intros i Hi. symmetry. auto.
Qed.

Lemma rotated_energy p b k : 0 <= k -> rsubstituted N (5 ^ k) p b -> energy n (slot N b) = energy n (slot N p).
Proof.
  intros Hk Hs. pose proof (Hn3 LOGN HL') as Hn. fold n in Hn. etransitivity; [|apply (energy_shift n k (slot N p) Hn)]. apply energy_ext. intros j Hj.
  apply (slot_rot LOGN HL'); auto. lia.
Qed.
(** the sum of D products with factors of size 1/2 *)
Lemma spread D (e : Z -> Z -> R) (p : Z -> R) (pr : Z -> Z -> R) : 0 <= D -> (forall k, 0 <= k < D -> rsubstituted N (5 ^ k) p (pr k)) -> (forall k i, 0 <= k < D -> 0 <= i < N -> (Rabs (e k i) <= / 2)%R) ->
  (squares N (fun i => rsum D (fun k => rnegconv N (e k) (pr k) i)) <= IZR N / 2 * (IZR N / 2) * (IZR D * IZR D) * squares N p)%R.
Proof.
  intros HD Hpr He. pose proof (HN3 LOGN HL') as HN. pose proof (Hn3 LOGN HL') as Hn. fold N in HN. fold n in Hn.
  assert (HNR : (0 < IZR N)%R) by (apply IZR_lt; auto). assert (HnR : (0 < IZR n)%R) by (apply IZR_lt; auto).
  apply (Rmult_le_reg_l (IZR n)); [auto|]. pose proof (parseval LOGN HL') as P. fold N n in P. rewrite <- P.
  replace (IZR n * (IZR N / 2 * (IZR N / 2) * (IZR D * IZR D) * squares N p))%R with (IZR D * (IZR N / 2 * (IZR N / 2)) * (IZR D * (IZR n * squares N p)))%R by ring.
  rewrite <- P. rewrite <- (rsum_const D (energy n (slot N p))) by auto. unfold energy at 1.
  apply Rle_trans with (rsum n (fun j => IZR D * (IZR N / 2 * (IZR N / 2)) * rsum D (fun k => modulus (slot N (pr k) j) * modulus (slot N (pr k) j))))%R.
  - apply rsum_le. intros j Hj. rewrite slot_rsum by lia.
    assert (M : (modulus (gsum D (fun k => slot N (rnegconv N (e k) (pr k)) j)) <= rsum D (fun k => IZR N / 2 * modulus (slot N (pr k) j)))%R).
    { apply modulus_rsum; auto. intros k Hk. rewrite slot_negconv by lia. rewrite modulus_mul. apply Rmult_le_compat_r; [apply modulus_nonneg|].
      apply modulus_slot; [exact HN|]. intros i Hi. apply He; auto. }
    rewrite rsum_scale in M. pose proof (cauchy D (fun k => modulus (slot N (pr k) j)) HD) as C. cbv beta in C.
    pose proof (modulus_nonneg (gsum D (fun k => slot N (rnegconv N (e k) (pr k)) j))) as M0.
    set (x := modulus _) in *. set (s := rsum D (fun k => modulus (slot N (pr k) j)) : R) in *.
    set (t := rsum D (fun k => modulus (slot N (pr k) j) * modulus (slot N (pr k) j))%R : R) in *. clearbody x s t.
    apply Rle_trans with ((IZR N / 2 * s) * (IZR N / 2 * s))%R; [apply Rmult_le_compat; auto|].
    replace (IZR N / 2 * s * (IZR N / 2 * s))%R with (IZR N / 2 * (IZR N / 2) * (s * s))%R by ring.
    replace (IZR D * (IZR N / 2 * (IZR N / 2)) * t)%R with (IZR N / 2 * (IZR N / 2) * (IZR D * t))%R by ring. apply Rmult_le_compat_l; [nra|exact C].
  - rewrite rsum_scale. right. apply f_equal. etransitivity; [apply rsum_swap|]. apply rsum_ext. intros k Hk.
    apply (rotated_energy p (pr k) k); [lia|]. apply Hpr. lia.
Qed.

Lemma single_run st st2 (z : Z -> CC) (A : Z -> Z -> CC) m v : ifft_static LOGN st -> fft_static LOGN st2 ->
  (forall j, 0 <= j < n -> (modulus (z j) <= 1)%R) -> (forall k j, 0 <= k < Diag -> 0 <= j < n -> (modulus (A k j) <= 1)%R) ->
  (forall j, 0 <= j < n -> slot N m j = z j) -> (forall k j, 0 <= k < Diag -> 0 <= j < n -> slot N (v k) j = A k j) ->
  let p := zs (fun i => rround (m i * IZR Delta)) in
  exists st' st2', single_matmul_error LOGQ LOGN Diag Delta LD st st2 (carray n z) (map (fun k => carray n (A k)) (range Diag))
    = Ok (st', st2', (sqrt (IZR (Diag * N) / 12 * (IZR n / (IZR Delta * IZR Delta) * squares N p) / (IZR Delta * IZR Delta)),
         sqrt (IZR n / (IZR Delta * IZR Delta * (IZR Delta * IZR Delta)) * squares N (fun i => rsum Diag (fun k => rnegconv N (rounding Delta (v k)) (rotation p k) i))))%R).
Proof.
  intros Hst Hst2 Hz1 HA1 Hz HA p. pose proof (delta_word LD HLD) as HDw. fold Delta in HDw. assert (HDR : (0 < IZR Delta)%R) by (apply IZR_lt; lia).
  pose proof (HN3 LOGN HL') as HN. pose proof (Hn3 LOGN HL') as Hn. fold N in HN. fold n in Hn.
  destruct (single_ok st st2 z A m v (rotation p) Hst Hst2 Hz1 HA1 Hz HA) as (st' & st2' & Az & Az' & E & He).
  { intros k Hk. apply (rotations p). lia. }
  exists st', st2'. rewrite E. apply f_equal. apply f_equal. apply f_equal2.
  - assert (E1 : energy n (slots N (IZR Delta) (fun i => rround (m i * IZR Delta))) = (IZR n / (IZR Delta * IZR Delta) * squares N p)%R).
    { rewrite (energy_ext n _ (fun j => (real (/ IZR Delta) * slot N p j)%num)) by (intros j Hj; apply (slots_zs LOGN); lra).
      rewrite energy_scale. pose proof (parseval LOGN HL' p) as P. fold N n in P. rewrite P. field. lra. }
    rewrite E1. pose proof (squares_pos N p) as Hp. set (q := squares N p) in *. clearbody q.
    assert (Q : (0 <= IZR n / (IZR Delta * IZR Delta) * q)%R).
    { apply Rmult_le_pos; auto. apply Rlt_le, Rdiv_lt_0_compat; [apply IZR_lt; lia|nra]. }
    rewrite (sqrt_div_alt _ (IZR Delta * IZR Delta)) by nra. rewrite sqrt_square by lra. rewrite (sqrt_mult_alt (IZR (Diag * N) / 12)); [reflexivity|].
    apply Rmult_le_pos; [apply IZR_le; nia|lra].
  - apply f_equal. rewrite (energy_ext n _ _ He). rewrite energy_scale.
    pose proof (parseval LOGN HL' (fun i => rsum Diag (fun k => rnegconv N (rounding Delta (v k)) (rotation p k) i))) as P. fold N n in P. rewrite P. field. lra.
Qed.

Theorem C90_single_matmul_mean {Omega} (I : (Omega -> R) -> Prop) E st st2 (z : Z -> CC) (A : Omega -> Z -> Z -> CC) (v : Omega -> Z -> Z -> R) :
  expectation I E -> ifft_static LOGN st -> fft_static LOGN st2 ->
  (forall j, 0 <= j < n -> (modulus (z j) <= 1)%R) -> (forall w k j, 0 <= k < Diag -> 0 <= j < n -> (modulus (A w k j) <= 1)%R) ->
  (forall w k j, 0 <= k < Diag -> 0 <= j < n -> slot N (v w k) j = A w k j) -> uncorrelated I E Diag N (/ 12) (fun w k => rounding Delta (v w k)) ->
  exists expected measured,
    (forall w, exists st' st2', single_matmul_error LOGQ LOGN Diag Delta LD st st2 (carray n z) (map (fun k => carray n (A w k)) (range Diag))
      = Ok (st', st2', (expected, measured w))) /\
    I (fun w => measured w * measured w)%R /\ E (fun w => measured w * measured w)%R = (expected * expected)%R /\
    (I measured -> (E measured <= expected)%R).
Proof.
  intros HE Hst Hst2 Hz1 HA1 HA He. pose proof (delta_word LD HLD) as HDw. fold Delta in HDw. assert (HDR : (0 < IZR Delta)%R) by (apply IZR_lt; lia).
  pose proof (HN3 LOGN HL') as HN. pose proof (Hn3 LOGN HL') as Hn. fold N in HN. fold n in Hn.
  destruct (some_m LOGN HL' z) as [m Hm]. fold N n in Hm. set (p := zs (fun i => rround (m i * IZR Delta))).
  set (expected := sqrt (IZR (Diag * N) / 12 * (IZR n / (IZR Delta * IZR Delta) * squares N p) / (IZR Delta * IZR Delta))%R).
  set (c := (IZR n / (IZR Delta * IZR Delta * (IZR Delta * IZR Delta)))%R).
  set (g := fun w => squares N (fun i => rsum Diag (fun k => rnegconv N (rounding Delta (v w k)) (rotation p k) i))).
  set (measured := fun w => sqrt (c * g w)%R). exists expected, measured.
  assert (Hc : (0 <= c)%R). { unfold c. apply Rlt_le, Rdiv_lt_0_compat; [apply IZR_lt; lia|]. assert (0 < IZR Delta * IZR Delta)%R by nra. nra. }
  assert (Hg : forall w, (0 <= c * g w)%R) by (intros w; apply Rmult_le_pos; auto; apply squares_pos).
  assert (Hx : (0 <= IZR (Diag * N) / 12 * (IZR n / (IZR Delta * IZR Delta) * squares N p) / (IZR Delta * IZR Delta))%R).
  { apply Rmult_le_pos; [|apply Rlt_le, Rinv_0_lt_compat; nra]. apply Rmult_le_pos; [apply Rmult_le_pos; [apply IZR_le; nia|lra]|].
    apply Rmult_le_pos; [|apply squares_pos]. apply Rlt_le, Rdiv_lt_0_compat; [apply IZR_lt; lia|nra]. }
  destruct (C89_rotated_mean LOGN HL' I E Diag (/ 12) _ p (rotation p) (simple_new N) HE ltac:(lia) He (new_cells N)) as (_ & I2 & _ & E2).
  { intros k Hk. apply (rotations p). lia. }
  fold N in I2, E2. change (I g) in I2. change (E g = (IZR (Diag * N) * / 12 * squares N p)%R) in E2.
  destruct (mean_scale I E HE c g I2) as [I3 E3].
  destruct (mean_ext I E HE _ (fun w => measured w * measured w)%R I3) as [I4 E4]. { intros w. unfold measured. rewrite sqrt_sqrt; auto. }
  assert (EQ : E (fun w => (measured w * measured w)%R) = (expected * expected)%R).
  { rewrite E4, E3, E2. unfold expected. rewrite sqrt_sqrt by exact Hx. unfold c. field. lra. }
  split; [|split; [exact I4|split; [exact EQ|]]].
  - intros w. apply (single_run st st2 z (A w) m (v w) Hst Hst2 Hz1 (HA1 w) Hm (HA w)).
  - intros Im. apply (mean_le_root I); auto. apply sqrt_pos.
Qed.
Theorem C90_single_matmul_max st st2 (z : Z -> CC) (A : Z -> Z -> CC) m v pr : ifft_static LOGN st -> fft_static LOGN st2 ->
  (forall j, 0 <= j < n -> (modulus (z j) <= 1)%R) -> (forall k j, 0 <= k < Diag -> 0 <= j < n -> (modulus (A k j) <= 1)%R) ->
  (forall j, 0 <= j < n -> slot N m j = z j) -> (forall k j, 0 <= k < Diag -> 0 <= j < n -> slot N (v k) j = A k j) ->
  let p i := IZR (rround (m i * IZR Delta)) in
  (forall k, 0 <= k < Diag -> rsubstituted N (5 ^ k) p (pr k)) ->
  exists st' st2' expected measured, single_matmul_error LOGQ LOGN Diag Delta LD st st2 (carray n z) (map (fun k => carray n (A k)) (range Diag))
    = Ok (st', st2', (expected, measured)) /\
    expected = (sqrt (IZR (Diag * N) / 12 * IZR n * squares N p) / (IZR Delta * IZR Delta))%R /\
    measured = (sqrt (IZR n * squares N (fun i => rsum Diag (fun k => rnegconv N (fun l => v k l * IZR Delta - IZR (rround (v k l * IZR Delta))) (pr k) i))) / (IZR Delta * IZR Delta))%R /\
    (measured <= sqrt (3 * IZR N * IZR Diag) * expected)%R.
Proof.
  intros Hst Hst2 Hz1 HA1 Hz HA p Hpr. pose proof (delta_word LD HLD) as HDw. fold Delta in HDw. assert (HDR : (0 < IZR Delta)%R) by (apply IZR_lt; lia).
  pose proof (HN3 LOGN HL') as HN. pose proof (Hn3 LOGN HL') as Hn. fold N in HN. fold n in Hn.
  assert (HnR : (0 < IZR n)%R) by (apply IZR_lt; lia). assert (HNR : (0 < IZR N)%R) by (apply IZR_lt; lia). assert (HDgR : (0 < IZR Diag)%R) by (apply IZR_lt; lia).
  destruct (single_ok st st2 z A m v pr Hst Hst2 Hz1 HA1 Hz HA Hpr) as (st' & st2' & Az & Az' & E & He).
  do 4 eexists. split; [exact E|].
  assert (DD : (0 < IZR Delta * IZR Delta)%R) by nra. pose proof (squares_pos N p) as Hp.
  assert (X1 : (sqrt (IZR (Diag * N) / 12) * sqrt (energy n (slots N (IZR Delta) (fun i => rround (m i * IZR Delta)))) / IZR Delta = sqrt (IZR (Diag * N) / 12 * IZR n * squares N p) / (IZR Delta * IZR Delta))%R).
  { rewrite (energy_ext n _ (fun j => (real (/ IZR Delta) * slot N p j)%num)) by (intros j Hj; apply (slots_zs LOGN); lra).
    rewrite energy_scale. pose proof (parseval LOGN HL' p) as P. fold N n in P. rewrite P.
    assert (0 <= IZR (Diag * N) / 12)%R by (rewrite mult_IZR; apply Rmult_le_pos; [apply Rmult_le_pos; lra|lra]).
    rewrite (Rmult_assoc (IZR (Diag * N) / 12)), (sqrt_mult_alt (IZR (Diag * N) / 12)) by auto. rewrite (sqrt_mult_alt (/ IZR Delta * / IZR Delta)).
    - rewrite sqrt_square by (apply Rlt_le, Rinv_0_lt_compat; lra). field. lra.
    - apply Rlt_le, Rmult_lt_0_compat; apply Rinv_0_lt_compat; lra. }
  set (h := squares N (fun i => rsum Diag (fun k => rnegconv N (rounding Delta (v k)) (pr k) i))).
  assert (X2 : (sqrt (energy n (fun j => Az j - Az' j)%num) = sqrt (IZR n * h) / (IZR Delta * IZR Delta))%R).
  { rewrite (energy_ext n _ _ He). rewrite energy_scale. pose proof (parseval LOGN HL' (fun i => rsum Diag (fun k => rnegconv N (rounding Delta (v k)) (pr k) i))) as P. fold N n in P. rewrite P. fold h.
    rewrite sqrt_mult_alt by (apply Rlt_le, Rmult_lt_0_compat; apply Rinv_0_lt_compat; lra).
    rewrite sqrt_square by (apply Rlt_le, Rinv_0_lt_compat; lra). field. lra. }
  split; [exact X1|]. split; [exact X2|]. rewrite X1, X2.
  pose proof (spread Diag (fun k => rounding Delta (v k)) p pr ltac:(lia) Hpr (fun k i _ _ => rounding_bound Delta (v k) i)) as K. cbv beta in K. fold h in K.
  set (q := squares N p) in *. clearbody q h.
  unfold Rdiv at 2. rewrite <- Rmult_assoc. apply Rmult_le_compat_r; [apply Rlt_le, Rinv_0_lt_compat; auto|].
  rewrite <- sqrt_mult_alt by (apply Rmult_le_pos; [apply Rmult_le_pos|]; lra). apply sqrt_le_1_alt.
  replace (3 * IZR N * IZR Diag * (IZR (Diag * N) / 12 * IZR n * q))%R with (IZR n * (IZR N / 2 * (IZR N / 2) * (IZR Diag * IZR Diag) * q))%R by (rewrite mult_IZR; field).
  apply Rmult_le_compat_l; [lra|exact K].
Qed.
End MatErr.
