(** C88-C91: the measurements of section 3. *)
From Coq Require Import ZArith List Bool Lia Reals Lra Ring Znumtheory.
From Verif Require Import Base BaseFacts Sums ZQ ZQFacts ZQFacts2 ZQFacts3 RQ RQFacts Conv ConvFacts Rot RotFacts Util UtilFacts GSum Matrix MatrixFacts MatMulFacts
  DFT DFTTheory DFTFacts FFTFacts PolyRing SpecZQ SpecPoly SpecPolyFacts SpecMat Properties_Mat Properties_Msg SpecDFT Properties_DFT SpecEnc SlotFacts
  Encode EncodeFacts Plain PlainFacts LinSlots Properties_Conv Properties_Rot Properties_Enc Properties_Plain.
From Verif Require Import Section3 SpecStat StatFacts.
Import ListNotations.
Open Scope Z_scope.
Add Ring RCs : HR.

(** the rounding errors of the coefficients [m] at scale Delta *)
Definition rounding (Delta : Z) (m : Z -> R) (i : Z) : R := (m i * IZR Delta - IZR (rround (m i * IZR Delta)))%R.
Lemma rounding_bound Delta m i : (Rabs (rounding Delta m i) <= / 2)%R.
Proof. unfold rounding. rewrite Rabs_minus_sym. apply rround_near. Qed.
(** sum of the squares of the first N numbers *)
Definition squares (N : Z) (p : Z -> R) : R := rsum N (fun i => p i * p i)%R.
(** sum of the squares of the moduli *)
Definition energy (n : Z) (z : Z -> CC) : R := rsum n (fun j => modulus (z j) * modulus (z j))%R.

Lemma new_cells N : cells N (simple_new N).
Proof. apply repeat_length. Qed.
Lemma new_gtab N : simple_new N = gtab N (fun _ => 0%R).
Proof.
  unfold simple_new, gtab, tab. generalize (Z.to_nat N) as k. intros k. generalize 0%nat. induction k as [|k IH]; intros s; [reflexivity|]. cbn. f_equal. apply IH.
Qed.
Lemma gwr_gtab (N : Z) (a : Z -> R) i x : 0 <= i < N -> gwr (gtab N a) i x = Ok (gtab N (fun j => if j =? i then x else a j)).
Proof. intros Hi. unfold gtab. rewrite gwr_tab by auto. f_equal. apply tab_ext. intros j Hj. destruct (j =? i); reflexivity. Qed.
Lemma add_to_ok N (a b : Z -> R) : 0 <= N -> simple_add_to N (gtab N a) (gtab N b) = Ok (gtab N (fun i => a i + b i)%R).
Proof.
  intros HN. unfold simple_add_to. rewrite (for_closed _ (fun k => gtab N (fun i => if i <? k then (a i + b i)%R else b i)) _ _ _ (gtab N (fun i => a i + b i)%R)); auto.
  - apply gtab_ext. intros i Hi. destruct (Z.ltb_spec i 0); [lia|reflexivity].
  - apply gtab_ext. intros i Hi. destruct (Z.ltb_spec i N); [reflexivity|lia].
  - intros k Hk. rewrite !grd_gtab by auto. cbn [bind]. rewrite gwr_gtab by auto. f_equal. apply gtab_ext. intros i Hi.
    destruct (Z.ltb_spec k k); [lia|]. destruct (Z.eqb_spec i k) as [->|]; [destruct (Z.ltb_spec k (k + 1)); [reflexivity|lia]|].
    destruct (Z.ltb_spec i k), (Z.ltb_spec i (k + 1)); try lia; reflexivity.
Qed.
Lemma modulus_square z : (modulus z * modulus z = cre Rops z * cre Rops z + cim Rops z * cim Rops z)%R.
Proof. unfold modulus. apply sqrt_sqrt. nra. Qed.
Lemma square_sum_energy n z : 0 <= n -> square_sum (K := Rops) n (carray n z) = Ok (energy n z).
Proof.
  intros Hn. destruct (C68_square_sum Rlawful n z Hn) as [E _]. rewrite E. f_equal. apply rsum_ext. intros j Hj. rewrite modulus_square. unfold cre, cim. cbn. 
  match goal with |- @eq _ ?x ?y => change (@eq R x y) end. ring.
Qed.
Lemma rsum_le n (f g : Z -> R) : (forall i, 0 <= i < n -> (f i <= g i)%R) -> (rsum n f <= rsum n g)%R.
Proof.
  intros H. destruct (Z_le_gt_dec 0 n) as [Hn|Hn]; [|rewrite !gsum_0 by lia; apply Rle_refl]. revert H.
  apply (GSum.gsum_ind n (fun n => (forall i, 0 <= i < n -> (f i <= g i)%R) -> (rsum n f <= rsum n g)%R)); auto.
  - intros _. rewrite !gsum_0 by lia. apply Rle_refl.
  - intros m Hm IH H. rewrite !gsum_S by lia. apply Rplus_le_compat; [apply IH; intros; apply H; lia|apply H; lia].
Qed.
Lemma squares_pos N p : (0 <= squares N p)%R.
Proof.
  destruct (Z_le_gt_dec 0 N) as [Hn|Hn]; [|unfold squares; rewrite gsum_0 by lia; apply Rle_refl].
  apply Rle_trans with (rsum N (fun _ => 0%R)); [rewrite rsum_const by auto; lra|]. apply rsum_le. intros i Hi. nra.
Qed.
Lemma energy_pos N p : (0 <= energy N p)%R.
Proof.
  destruct (Z_le_gt_dec 0 N) as [Hn|Hn]; [|unfold energy; rewrite gsum_0 by lia; apply Rle_refl].
  apply Rle_trans with (rsum N (fun _ => 0%R)); [rewrite rsum_const by auto; lra|]. apply rsum_le. intros i Hi. nra.
Qed.

Ltac use E := match type of E with
  | ?f ?a ?b ?c ?d ?e ?g = _ => match goal with |- context [f a b ?c' ?d' ?e' ?g'] => change (f a b c' d' e' g') with (f a b c d e g) end
  end; rewrite E; clear E; cbn [bind].
Section Sec3.
Context (LOGN : Z) (HL : 2 <= LOGN <= 27).
Let N := 2 ^ LOGN.
Let n := 2 ^ (LOGN - 1).
Lemma HN3 : 0 < N.
Proof. apply Z.pow_pos_nonneg; lia. Qed.
Lemma Hn3 : 0 < n.
Proof. apply Z.pow_pos_nonneg; lia. Qed.

Lemma ifft_next_slots st (z : Z -> CC) m D : ifft_static LOGN st -> cells N D -> (forall j, 0 <= j < n -> slot N m j = z j) ->
  exists st', ifft LOGN st (fst (carray n z)) (snd (carray n z)) D = Ok (st', gtab N m) /\ ifft_static LOGN st'.
Proof.
  intros Hst HD Hz. destruct (ifft_slots LOGN HL st z m D Hst HD Hz) as [st' E]. exists st'. fold N n in E. split; [exact E|]. eapply ifft_next; [exact Hst|exact E].
Qed.
Lemma raw_ok Delta st (z : Z -> CC) m D : ifft_static LOGN st -> cells N D -> (forall j, 0 <= j < n -> slot N m j = z j) ->
  exists st', simple_encode_raw LOGN st (fst (carray n z)) (snd (carray n z)) Delta D = Ok (st', gtab N (fun i => m i * IZR Delta)%R) /\ ifft_static LOGN st'.
Proof.
  intros Hst HD Hz. pose proof HN3 as HN. destruct (ifft_next_slots st z m (gfresh R N) Hst (repeat_length None (Z.to_nat N)) Hz) as (st' & E & Hst').
  exists st'. split; [|exact Hst']. unfold simple_encode_raw. fold N n. rewrite E. cbn [bind]. destruct (cells_tab _ _ HD) as [d ->].
  rewrite (fill_gtab N _ d (fun i => m i * IZR Delta)%R); [reflexivity|lia|]. intros i g Hi. rewrite grd_gtab by auto. reflexivity.
Qed.
Lemma enc_ok Delta st (z : Z -> CC) m D : ifft_static LOGN st -> cells N D -> (forall j, 0 <= j < n -> slot N m j = z j) ->
  exists st', simple_encode LOGN st (fst (carray n z)) (snd (carray n z)) Delta D = Ok (st', gtab N (fun i => IZR (rround (m i * IZR Delta)))) /\ ifft_static LOGN st'.
Proof.
  intros Hst HD Hz. pose proof HN3 as HN. destruct (ifft_next_slots st z m (gfresh R N) Hst (repeat_length None (Z.to_nat N)) Hz) as (st' & E & Hst').
  exists st'. split; [|exact Hst']. unfold simple_encode. fold N n. rewrite E. cbn [bind]. destruct (cells_tab _ _ HD) as [d ->].
  rewrite (fill_gtab N _ d (fun i => IZR (rround (m i * IZR Delta)))); [reflexivity|lia|]. intros i g Hi. rewrite grd_gtab by auto. reflexivity.
Qed.

(** The result of the measurement of lemma_conv_error.cpp for the exact coefficients [m] of z and [v] of V. *)
Lemma conv_error_ok Delta st (z V : Z -> CC) m v : ifft_static LOGN st ->
  (forall j, 0 <= j < n -> slot N m j = z j) -> (forall j, 0 <= j < n -> slot N v j = V j) ->
  let p i := IZR (rround (m i * IZR Delta)) in
  exists st', conv_error LOGN Delta st (carray n z) (carray n V) = Ok (st', (IZR N / 12 * squares N p, squares N (rnegconv N (rounding Delta v) p))%R) /\ ifft_static LOGN st'.
Proof.
  intros Hst Hz HV p. pose proof HN3 as HN. unfold conv_error. cbv zeta. fold N. fold p.
  destruct (enc_ok Delta st z m (simple_new N) Hst (new_cells N) Hz) as (st1 & Ee & H1); use Ee.
  rewrite simple_square_sum_ok by lia. cbn [bind].
  destruct (raw_ok Delta st1 V v (simple_new N) H1 (new_cells N) HV) as (st2 & Ee & H2); use Ee.
  destruct (enc_ok Delta st2 V v (simple_new N) H2 (new_cells N) HV) as (st3 & Ee & H3); use Ee.
  rewrite simple_sub_ok by (try lia; apply new_cells). cbn [bind]. rewrite simple_conv_ok by (try lia; apply new_cells). cbn [bind].
  rewrite simple_square_sum_ok by lia. cbn [bind]. exists st3. split; [reflexivity|exact H3].
Qed.

(** ** C88: lemma_conv_error.cpp *)
(** If the rounding errors of the random message are uncorrelated and of mean square 1/12, the mean of the measured values is the expected
    value that is printed. *)
Theorem C88_conv_error_mean {Omega} (I : (Omega -> R) -> Prop) E Delta st (z : Z -> CC) (V : Omega -> Z -> CC) (v : Omega -> Z -> R) :
  expectation I E -> ifft_static LOGN st ->
  (forall w j, 0 <= j < n -> slot N (v w) j = V w j) -> uncorrelated I E 1 N (/ 12) (fun w _ => rounding Delta (v w)) ->
  exists expected measured, (forall w, exists st', conv_error LOGN Delta st (carray n z) (carray n (V w)) = Ok (st', (expected, measured w))) /\
    I measured /\ E measured = expected.
Proof.
  intros HE Hst HV He. pose proof HN3 as HN. destruct (some_m LOGN HL z) as [m Hm]. set (p := fun i => IZR (rround (m i * IZR Delta))).
  exists (IZR N / 12 * squares N p)%R, (fun w => squares N (rnegconv N (rounding Delta (v w)) p)). split.
  - intros w. destruct (conv_error_ok Delta st z (V w) m (v w) Hst Hm (HV w)) as (st' & E' & _). exists st'. exact E'.
  - destruct (mean_conv I E HE 1 N ltac:(lia) ltac:(lia) (/ 12) _ He (fun _ => p)) as [A B]. cbv zeta in A, B.
    assert (S1 : forall f, rsum 1 (fun _ => f) = f). { intros f. rewrite rsum_const by lia. apply Rmult_1_l. }
    destruct (mean_ext I E HE _ (fun w => squares N (rnegconv N (rounding Delta (v w)) p)) A) as [C D].
    { intros w. apply rsum_ext. intros i Hi. rewrite S1. reflexivity. }
    split; [exact C|]. rewrite D. etransitivity; [exact B|]. rewrite S1. unfold squares. field.
Qed.

Lemma parseval (m : Z -> R) : energy n (slot N m) = (IZR n * squares N m)%R.
Proof.
  pose proof HN3. pose proof Hn3. destruct (C57_norm LOGN HL m) as (s & t & E1 & E2 & E3). fold N n in E1, E2, E3.
  rewrite square_sum_energy in E1 by lia. rewrite array_gtab, simple_square_sum_ok in E2 by lia. injection E1 as <-. injection E2 as <-. exact E3.
Qed.
(** Whatever the messages are, the measured value is at most 3N times the expected one. *)
Theorem C88_conv_error_max Delta st (z V : Z -> CC) : ifft_static LOGN st ->
  exists st' expected measured, conv_error LOGN Delta st (carray n z) (carray n V) = Ok (st', (expected, measured)) /\ (0 <= measured <= 3 * IZR N * expected)%R.
Proof.
  intros Hst. pose proof HN3 as HN. pose proof Hn3 as Hn. destruct (some_m LOGN HL z) as [m Hm]. destruct (some_m LOGN HL V) as [v Hv]. fold N n in Hm, Hv.
  destruct (conv_error_ok Delta st z V m v Hst Hm Hv) as (st' & E' & _). cbv zeta in E'. set (p := fun i => IZR (rround (m i * IZR Delta))) in *.
  do 3 eexists. split; [exact E'|]. split; [apply squares_pos|]. assert (HNR : (0 < IZR N)%R) by (apply IZR_lt; auto). assert (HnR : (0 < IZR n)%R) by (apply IZR_lt; auto).
  assert (K : (energy n (slot N (rnegconv N (rounding Delta v) p)) <= (IZR N / 2 * (IZR N / 2)) * energy n (slot N p))%R).
  { unfold energy. rewrite <- rsum_scale. apply rsum_le. intros j Hj. rewrite slot_negconv by lia. rewrite modulus_mul.
    assert (M : (modulus (slot N (rounding Delta v) j) <= IZR N / 2)%R) by (apply modulus_slot; auto; intros k Hk; apply rounding_bound).
    pose proof (modulus_nonneg (slot N (rounding Delta v) j)). pose proof (modulus_nonneg (slot N p j)).
    set (a := modulus (slot N (rounding Delta v) j)) in *. set (b := modulus (slot N p j)) in *. clearbody a b.
    replace (a * b * (a * b))%R with ((a * a) * (b * b))%R by ring. apply Rmult_le_compat_r; [nra|]. apply Rmult_le_compat; auto. }
  rewrite !parseval in K. apply (Rmult_le_reg_l (IZR n)); [auto|]. eapply Rle_trans; [exact K|]. right. field.
Qed.

(** ** C89: lemma_conv_sum_error.cpp *)
Lemma conv_sum_ok Diag Delta st (z : Z -> CC) (V : Z -> Z -> CC) m v : 0 <= Diag -> Diag * N < 2 ^ 31 -> ifft_static LOGN st ->
  (forall j, 0 <= j < n -> slot N m j = z j) -> (forall k j, 0 <= k < Diag -> 0 <= j < n -> slot N (v k) j = V k j) ->
  let p i := IZR (rround (m i * IZR Delta)) in
  exists st', conv_sum_error LOGN Diag Delta st (carray n z) (map (fun k => carray n (V k)) (range Diag))
    = Ok (st', (IZR (Diag * N) / 12 * squares N p, squares N (fun i => rsum Diag (fun k => rnegconv N (rounding Delta (v k)) p i)))%R) /\ ifft_static LOGN st'.
Proof.
  intros HD HDN Hst Hz HV p. pose proof HN3 as HN. destruct (pow2_27 LOGN ltac:(lia)) as [_ Hb]. fold N in Hb. unfold conv_sum_error. cbv zeta. fold N. fold p.
  destruct (enc_ok Delta st z m (simple_new N) Hst (new_cells N) Hz) as (st1 & Ee & H1); use Ee.
  rewrite simple_square_sum_ok by lia. cbn [bind]. rewrite int_ok by (change (2 ^ 31) with 2147483648 in HDN; nia). cbn [bind].
  fold (squares N p).
  match goal with |- context [for_ 0 Diag ?body ?s0] =>
    destruct (for_inv body (fun k (w : tables * rarr * rarr * rarr * rarr * rarr * rarr) => let '(st, a, b, c, d, e, rs) := w in
       ifft_static LOGN st /\ cells N a /\ cells N b /\ cells N c /\ cells N d /\ cells N e /\
       rs = gtab N (fun i => rsum k (fun k => rnegconv N (rounding Delta (v k)) p i))) 0 Diag s0 HD) as (w & E & H)
  end.
  - repeat split; auto; try apply new_cells. rewrite new_gtab. apply gtab_ext. intros i Hi. rewrite gsum_0 by lia. reflexivity.
  - intros k [[[[[[st2 a] b] c] d] e] rs] Hk (H2 & Ha & Hb' & Hc & Hd & He & ->). rewrite map_range, lget_tab by auto. cbn [bind].
    destruct (raw_ok Delta st2 (V k) (v k) a H2 Ha (fun j => HV k j Hk)) as (st3 & Ee & H3); use Ee.
    destruct (enc_ok Delta st3 (V k) (v k) b H3 Hb' (fun j => HV k j Hk)) as (st4 & Ee & H4); use Ee.
    rewrite simple_sub_ok by (auto; lia). cbn [bind].
    destruct (inv5 LOGN HL 1 ltac:(lia)) as (u & u' & Eu). change (5 ^ 1) with 5 in Eu.
    destruct (rotate_ok N u u' p c k ltac:(lia) Hb Eu Hc ltac:(lia)) as (pr & Er & _).
    change (gtab N (fun i => IZR (rround (m i * IZR Delta)))) with (gtab N p). rewrite Er. cbn [bind].
    rewrite simple_conv_ok by (auto; lia). cbn [bind]. rewrite add_to_ok by lia. cbn [bind]. eexists. split; [reflexivity|].
    split; [exact H4|]. repeat (split; [apply gtab_cells|]). apply gtab_ext. intros i Hi. rewrite gsum_S by lia. cbn [oadd Rops]. rewrite Rplus_comm. reflexivity.
  - rewrite E. destruct w as [[[[[[st2 a] b] c] d] e] rs]. destruct H as (H2 & _ & _ & _ & _ & _ & ->). cbn [bind].
    rewrite simple_square_sum_ok by lia. cbn [bind]. exists st2. split; [reflexivity|exact H2].
Qed.
Theorem C89_conv_sum_error_mean {Omega} (I : (Omega -> R) -> Prop) E Diag Delta st (z : Z -> CC) (V : Omega -> Z -> Z -> CC) (v : Omega -> Z -> Z -> R) :
  expectation I E -> 0 <= Diag -> Diag * N < 2 ^ 31 -> ifft_static LOGN st ->
  (forall w k j, 0 <= k < Diag -> 0 <= j < n -> slot N (v w k) j = V w k j) -> uncorrelated I E Diag N (/ 12) (fun w k => rounding Delta (v w k)) ->
  exists expected measured,
    (forall w, exists st', conv_sum_error LOGN Diag Delta st (carray n z) (map (fun k => carray n (V w k)) (range Diag)) = Ok (st', (expected, measured w))) /\
    I measured /\ E measured = expected.
Proof.
  intros HE HD HDN Hst HV He. pose proof HN3 as HN. destruct (some_m LOGN HL z) as [m Hm]. set (p := fun i => IZR (rround (m i * IZR Delta))).
  exists (IZR (Diag * N) / 12 * squares N p)%R, (fun w => squares N (fun i => rsum Diag (fun k => rnegconv N (rounding Delta (v w k)) p i))). split.
  - intros w. destruct (conv_sum_ok Diag Delta st z (V w) m (v w) HD HDN Hst Hm (HV w)) as (st' & E' & _). exists st'. exact E'.
  - destruct (mean_conv I E HE Diag N HD ltac:(lia) (/ 12) _ He (fun _ => p)) as [A B]. cbv zeta in A, B. split; [exact A|].
    etransitivity; [exact B|]. rewrite rsum_const by auto. rewrite mult_IZR. unfold squares. field.
Qed.
(** The program convolves with pt where its comment (and the lemma of the paper) has the rotations of pt.  The mean is the same. *)
Theorem C89_rotated_mean {Omega} (I : (Omega -> R) -> Prop) E Diag (v : R) (e : Omega -> Z -> Z -> R) (p : Z -> R) (pr : Z -> Z -> R) D :
  expectation I E -> 0 <= Diag -> uncorrelated I E Diag N v e -> cells N D ->
  (forall k, 0 <= k < Diag -> simple_rotate N (array N p) D k = Ok (array N (pr k))) ->
  let f w i := rsum Diag (fun k => rnegconv N (e w k) p i) in
  let g w i := rsum Diag (fun k => rnegconv N (e w k) (pr k) i) in
  I (fun w => squares N (f w)) /\ I (fun w => squares N (g w)) /\
  E (fun w => squares N (f w)) = (IZR (Diag * N) * v * squares N p)%R /\ E (fun w => squares N (g w)) = (IZR (Diag * N) * v * squares N p)%R.
Proof.
  intros HE HD He Dc Hr f g. pose proof HN3 as HN. destruct (pow2_27 LOGN ltac:(lia)) as [_ Hb]. fold N in Hb.
  destruct (mean_conv I E HE Diag N HD ltac:(lia) v e He (fun _ => p)) as [A B]. destruct (mean_conv I E HE Diag N HD ltac:(lia) v e He pr) as [A' B']. cbv zeta in A, B, A', B'.
  split; [exact A|]. split; [exact A'|]. split; (etransitivity; [eassumption|]).
  - rewrite rsum_const by auto. rewrite mult_IZR. unfold squares. ring.
  - transitivity (IZR N * v * rsum Diag (fun _ => squares N p))%R; [|rewrite rsum_const by auto; rewrite mult_IZR; ring].
    apply (f_equal (Rmult (IZR N * v))). apply rsum_ext. intros k Hk. specialize (Hr k Hk).
    destruct (inv5 LOGN HL 1 ltac:(lia)) as (u & u' & Eu). change (5 ^ 1) with 5 in Eu.
    destruct (rotate_ok N u u' p D k ltac:(lia) Hb Eu Dc ltac:(lia)) as (b & Er & Hs). rewrite array_gtab in Hr. rewrite Er in Hr. rewrite array_gtab in Hr.
    assert (Eb : gtab N b = gtab N (pr k)) by congruence.
    assert (Hbp : forall i, 0 <= i < N -> b i = pr k i). { intros i Hi. assert (G : grd (gtab N b) i = grd (gtab N (pr k)) i) by (rewrite Eb; reflexivity). rewrite !grd_gtab in G by auto. congruence. }
    transitivity (squares N b); [apply rsum_ext; intros i Hi; rewrite Hbp by auto; reflexivity|].
    assert (EE : (energy n (slot N b) = energy n (slot N p))%R).
    { unfold energy. transitivity (rsum n (fun j => (fun j => modulus (slot N p j) * modulus (slot N p j))%R ((j + k) mod n))).
      - apply rsum_ext. intros j Hj. pose proof (slot_rot LOGN HL p b j k ltac:(lia) ltac:(lia) Hs) as Er'. fold N n in Er'. rewrite Er'. reflexivity.
      - exact (gsum_shift Rlawful n k (fun j => modulus (slot N p j) * modulus (slot N p j))%R). }
    rewrite !parseval in EE. apply Rmult_eq_reg_l in EE; [exact EE|]. apply IZR_neq. pose proof Hn3. lia.
Qed.
End Sec3.
