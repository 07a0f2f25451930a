(** C123: the messages and matrices of setup.h in floating-point arithmetic (compare C95). *)
From Coq Require Import ZArith List Bool Lia Reals Lra Ring.
From Verif Require Import Base BaseFacts Sums ZQ RQ Util GSum Matrix MatrixFacts MatMulFacts DFT DFTTheory DFTFacts SpecMat SpecDFT SpecEnc SlotFacts Encode Properties_Msg EvalMod StatFacts ConvFacts Properties_Stat Properties_Mat Properties_MatErr Properties_Enc.
From Verif Require Import Section4 Messages PiBound Float SpecFloat FloatFacts FloatError FloatNum Binary64 Properties_Float LinSlots FloatMsg FloatDot FloatModFacts FloatBootNum.
From Verif Require Import FloatSetup.
Import ListNotations.
Open Scope Z_scope.

(** Error of a component of a point of the circle at an angle of at most k half turns *)
Definition message_error (u eta t : R) (k : Z) : R := (t + IZR k * (12 * u + 8 * eta) + 6 * (u + eta))%R.

Lemma sqrt2_near : (14 / 10 <= sqrt 2 <= 3 / 2)%R.
Proof.
  assert (S : (0 < sqrt 2)%R) by (apply sqrt_lt_R0; lra). assert (Q : (sqrt 2 * sqrt 2 = 2)%R) by (apply sqrt_sqrt; lra). split.
  - destruct (Rle_dec (14 / 10) (sqrt 2)); [assumption|]. exfalso. assert (sqrt 2 * sqrt 2 < 14 / 10 * (14 / 10))%R by (apply Rmult_le_0_lt_compat; lra). lra.
  - destruct (Rle_dec (sqrt 2) (3 / 2)); [assumption|]. exfalso. assert (3 / 2 * (3 / 2) < sqrt 2 * sqrt 2)%R by (apply Rmult_le_0_lt_compat; lra). lra.
Qed.
Lemma PI_34 : (3 < PI < 32 / 10)%R.
Proof.
  pose proof PI_bounds as [P1 P2]. assert (PM : (PI_macro = 31415926535897932384626433 / 10000000000000000000000000)%R) by reflexivity. fold PI_macro in P1. lra.
Qed.

Section Ar.
Context (F : fpu) (u eta top t : R) (ar : arithmetic u eta top t (rnd F) (dpi F) (lcos F) (lsin F)).
Let Hu : (0 <= u <= / 1024)%R := ar_u _ _ _ _ _ _ _ _ ar.
Let He : (0 <= eta <= / 1024)%R := ar_eta _ _ _ _ _ _ _ _ ar.
Let Ht : (0 <= t <= / 1024)%R := ar_t _ _ _ _ _ _ _ _ ar.
Let Hp : (8 <= top)%R := ar_top _ _ _ _ _ _ _ _ ar.
Let Hr : forall x, (Rabs x <= top -> Rabs (rnd F x - x) <= u * Rabs x + eta)%R := ar_rnd _ _ _ _ _ _ _ _ ar.
Let Hpi : (Rabs (dpi F - PI) <= u * PI)%R := ar_pi _ _ _ _ _ _ _ _ ar.

Lemma root2 : (Rabs (rnd F (sqrt 2) - sqrt 2) <= 2 * u + eta)%R /\ (13 / 10 <= rnd F (sqrt 2))%R.
Proof.
  pose proof sqrt2_near as S. assert (A : (Rabs (rnd F (sqrt 2) - sqrt 2) <= u * (3 / 2) + eta)%R) by (apply (rd_err u eta top (rnd F) Hu Hr); [rewrite Rabs_right; lra|lra]).
  split; [lra|]. apply abs_inv in A. lra.
Qed.
Lemma over_root c c' d : (Rabs c <= 1)%R -> (Rabs (c' - c) <= d)%R -> (d <= / 4)%R ->
  exists q, f_div F c' (rnd F (sqrt 2)) = Ok q /\ (Rabs (q - c / sqrt 2) <= d + 6 * (u + eta))%R.
Proof.
  intros Hc Hd Hs. destruct root2 as [R1 R2]. pose proof sqrt2_near as S. set (s' := rnd F (sqrt 2)) in *. set (s := sqrt 2) in *. unfold f_div. destruct (Req_EM_T s' 0); [lra|].
  eexists. split; [reflexivity|]. assert (Is : (0 < / s' <= 10 / 13)%R). { split; [apply Rinv_0_lt_compat; lra|]. replace (10 / 13)%R with (/ (13 / 10))%R by lra. apply Rinv_le_contravar; lra. }
  assert (Is2 : (0 < / s <= 10 / 14)%R). { split; [apply Rinv_0_lt_compat; lra|]. replace (10 / 14)%R with (/ (14 / 10))%R by lra. apply Rinv_le_contravar; lra. }
  assert (E1 : (Rabs (c' / s' - c / s) <= d + 2 * (u + eta))%R).
  { replace (c' / s' - c / s)%R with ((c' - c) * / s' + c * ((s - s') * (/ s * / s')))%R by (field; lra). eapply Rle_trans; [apply Rabs_triang|]. rewrite !Rabs_mult.
    rewrite (Rabs_right (/ s')), (Rabs_right (/ s)) by lra. rewrite (Rabs_minus_sym s s'). pose proof (Rabs_pos (c' - c)). pose proof (Rabs_pos c). pose proof (Rabs_pos (s' - s)).
    assert (A1 : (Rabs (c' - c) * / s' <= d * 1)%R) by (apply Rmult_le_compat; lra).
    assert (B1 : (0 <= / s * / s' <= (10 / 14) * (10 / 13))%R) by (split; [apply Rmult_le_pos; lra|apply Rmult_le_compat; lra]).
    assert (A2 : (Rabs (s' - s) * (/ s * / s') <= (2 * u + eta) * (10 / 14 * (10 / 13)))%R) by (apply Rmult_le_compat; lra).
    assert (0 <= Rabs (s' - s) * (/ s * / s'))%R by (apply Rmult_le_pos; lra).
    assert (A3 : (Rabs c * (Rabs (s' - s) * (/ s * / s')) <= 1 * ((2 * u + eta) * (10 / 14 * (10 / 13))))%R) by (apply Rmult_le_compat; lra). lra. }
  assert (E2 : (Rabs (c' / s') <= 3 / 2)%R).
  { unfold Rdiv. rewrite Rabs_mult, (Rabs_right (/ s')) by lra. assert (Rabs c' <= 5 / 4)%R by (apply abs_inv in Hc, Hd; apply Rabs_le; lra). pose proof (Rabs_pos c').
    assert (Rabs c' * / s' <= 5 / 4 * (10 / 13))%R by (apply Rmult_le_compat; lra). lra. }
  pose proof (rd_err u eta top (rnd F) Hu Hr (c' / s') (3 / 2) E2 ltac:(lra)) as E3. apply abs_inv in E1, E3. apply Rabs_le. lra.
Qed.
(** the angle computed from a/n *)
Lemma angle_near a n k : 0 < n -> 0 <= a <= k * n -> 1 <= k -> (IZR k * 4 <= top)%R ->
  exists d, f_div F (IZR a) (IZR n) = Ok d /\ (Rabs (rnd F (d * dpi F) - IZR a / IZR n * PI) <= IZR k * (12 * u + 8 * eta))%R /\ (Rabs (rnd F (d * dpi F)) <= IZR k * (34 / 10))%R.
Proof.
  intros Hn Ha Hk Hkt. pose proof PI_34 as P. assert (Hn' : (0 < IZR n)%R) by (apply IZR_lt; lia). assert (Hk' : (1 <= IZR k)%R) by (apply IZR_le; lia).
  unfold f_div. destruct (Req_EM_T (IZR n) 0); [lra|]. eexists. split; [reflexivity|].
  assert (Q : (0 <= IZR a / IZR n <= IZR k)%R).
  { destruct Ha as [A0 A1]. apply IZR_le in A0, A1. rewrite mult_IZR in A1. split; [apply Rmult_le_pos; [lra|apply Rlt_le, Rinv_0_lt_compat; lra]|].
    apply Rmult_le_reg_r with (IZR n); [lra|]. unfold Rdiv. rewrite Rmult_assoc, Rinv_l by lra. lra. }
  set (x := (IZR a / IZR n)%R) in *. set (K := IZR k) in *.
  assert (E1 : (Rabs (rnd F x - x) <= u * K + eta)%R) by (apply (rd_err u eta top (rnd F) Hu Hr); [rewrite Rabs_right; lra|lra]).
  assert (UK : (0 <= u * K <= / 1024 * K)%R) by (split; [apply Rmult_le_pos|apply Rmult_le_compat_r]; lra). assert (EK : (0 <= eta * K <= / 1024 * K)%R) by (split; [apply Rmult_le_pos|apply Rmult_le_compat_r]; lra).
  assert (EK1 : (eta <= eta * K)%R) by (rewrite <- (Rmult_1_r eta) at 1; apply Rmult_le_compat_l; lra).
  assert (UU : (0 <= u * (u * K) <= / 1024 * (u * K))%R) by (split; [apply Rmult_le_pos|apply Rmult_le_compat_r]; lra).
  assert (UE : (0 <= u * (eta * K) <= / 1024 * (eta * K))%R) by (split; [apply Rmult_le_pos|apply Rmult_le_compat_r]; lra).
  assert (Dp : (Rabs (dpi F - PI) <= 32 / 10 * u)%R) by (eapply Rle_trans; [exact Hpi|]; rewrite (Rmult_comm (32 / 10)); apply Rmult_le_compat_l; lra).
  assert (E2 : (Rabs (rnd F x * dpi F - x * PI) <= 65 / 10 * (u * K) + 4 * (eta * K))%R).
  { replace (rnd F x * dpi F - x * PI)%R with ((rnd F x - x) * dpi F + x * (dpi F - PI))%R by ring. eapply Rle_trans; [apply Rabs_triang|]. rewrite !Rabs_mult.
    assert (DP : (Rabs (dpi F) <= 321 / 100)%R) by (apply abs_inv in Dp; apply Rabs_le; lra). pose proof (Rabs_pos (rnd F x - x)). pose proof (Rabs_pos (dpi F)). pose proof (Rabs_pos x). pose proof (Rabs_pos (dpi F - PI)).
    assert (A1 : (Rabs (rnd F x - x) * Rabs (dpi F) <= (u * K + eta) * (321 / 100))%R) by (apply Rmult_le_compat; lra).
    assert (A2 : (Rabs x * Rabs (dpi F - PI) <= K * (32 / 10 * u))%R) by (apply Rmult_le_compat; try lra; rewrite Rabs_right; lra). lra. }
  assert (XP : (0 <= x * PI <= K * (32 / 10))%R) by (split; [apply Rmult_le_pos|apply Rmult_le_compat]; lra).
  assert (E3 : (Rabs (rnd F x * dpi F) <= 33 / 10 * K)%R) by (apply abs_inv in E2; apply Rabs_le; lra).
  pose proof (rd_err u eta top (rnd F) Hu Hr (rnd F x * dpi F) (33 / 10 * K) E3 ltac:(lra)) as E4.
  apply abs_inv in E2, E4. split; apply Rabs_le; lra.
Qed.

Lemma cos_1 x : (Rabs (cos x) <= 1)%R. Proof. apply Rabs_le. pose proof (COS_bound x). lra. Qed.
Lemma sin_1 x : (Rabs (sin x) <= 1)%R. Proof. apply Rabs_le. pose proof (SIN_bound x). lra. Qed.

(** set_test_message: the entries are close to the points of the circle of radius 1/sqrt 2 at the angles j/n PI *)
Theorem C123_test_message : forall n p, 0 <= n -> carray_of (K := Rops) n p ->
  exists z, f_set_test_message F n p = Ok (carray (K := Rops) n z) /\
    forall j, 0 <= j < n -> (Rabs (fst (z j) - fst (circle (IZR j / IZR n * PI))) <= message_error u eta t 1)%R /\ (Rabs (snd (z j) - snd (circle (IZR j / IZR n * PI))) <= message_error u eta t 1)%R.
Proof.
  intros n p Hn Hpp.
  set (ang := fun j => rnd F (rnd F (IZR j / IZR n) * dpi F)).
  exists (fun j => (rnd F (lcos F (ang j) / rnd F (sqrt 2)), rnd F (lsin F (ang j) / rnd F (sqrt 2)))).
  assert (A : forall j, 0 <= j < n -> f_div F (IZR j) (IZR n) = Ok (rnd F (IZR j / IZR n)) /\ (Rabs (ang j - IZR j / IZR n * PI) <= 12 * u + 8 * eta)%R /\ (Rabs (ang j) <= 7)%R).
  { intros j Hj. destruct (angle_near j n 1 ltac:(lia) ltac:(lia) ltac:(lia) ltac:(lra)) as (d & E & H1 & H2). assert (E' : f_div F (IZR j) (IZR n) = Ok (rnd F (IZR j / IZR n))).
    { unfold f_div. destruct (Req_EM_T (IZR n) 0) as [e|]; [apply eq_IZR in e; lia|reflexivity]. }
    rewrite E in E'. injection E' as ->. fold (ang j) in H1, H2. rewrite E. split; [reflexivity|]. split; lra. }
  assert (T4 : (t + (12 * u + 8 * eta) <= / 4)%R) by lra.
  assert (Q : forall c, f_div F c (rnd F (sqrt 2)) = Ok (rnd F (c / rnd F (sqrt 2)))).
  { intros c. unfold f_div. destruct root2 as [_ R2]. destruct (Req_EM_T (rnd F (sqrt 2)) 0); [lra|reflexivity]. }
  split.
  - unfold f_set_test_message. apply (msg_loop (K := Rops)); auto. intros i a b Hi. destruct (A i Hi) as (E & _). rewrite E. cbn [bind]. cbv zeta. unfold f_sqrt. destruct (Rlt_dec 2 0); [lra|]. cbn [bind].
    rewrite !Q. cbn [bind]. rewrite gwr_tab by auto. cbn [bind]. rewrite gwr_tab by auto. reflexivity.
  - intros j Hj. destruct (A j Hj) as (_ & H1 & H2). unfold message_error, circle. cbn [fst snd]. rewrite Rmult_1_l.
    set (x := (IZR j / IZR n * PI)%R) in *. pose proof (cos_lip (ang j) x) as L1. pose proof (sin_lip (ang j) x) as L2. pose proof (ar_cos _ _ _ _ _ _ _ _ ar _ H2) as C1. pose proof (ar_sin _ _ _ _ _ _ _ _ ar _ H2) as C2. split.
    + destruct (over_root (cos x) (lcos F (ang j)) (t + (12 * u + 8 * eta)) (cos_1 x)) as (q & E & H); [|lra|].
      { apply abs_inv in C1. assert (L1' : (Rabs (cos (ang j) - cos x) <= 12 * u + 8 * eta)%R) by lra. apply abs_inv in L1'. apply Rabs_le. lra. }
      rewrite Q in E. injection E as <-. exact H.
    + destruct (over_root (sin x) (lsin F (ang j)) (t + (12 * u + 8 * eta)) (sin_1 x)) as (q & E & H); [|lra|].
      { apply abs_inv in C2. assert (L2' : (Rabs (sin (ang j) - sin x) <= 12 * u + 8 * eta)%R) by lra. apply abs_inv in L2'. apply Rabs_le. lra. }
      rewrite Q in E. injection E as <-. exact H.
Qed.

(** set_evalmod_message: the numbers I + 1/10000 up to rounding *)
Theorem C123_evalmod_message : forall n p, (24 <= top)%R -> 0 <= n -> carray_of (K := Rops) n p ->
  exists z, f_set_evalmod_message F n p = Ok (carray (K := Rops) n z) /\
    forall j, 0 <= j < n -> snd (z j) = 0%R /\ (Rabs (fst (z j) - (IZR (j mod 24) + / 10000)) <= 24 * u + 2 * eta)%R.
Proof.
  intros n p H24 Hn Hpp. exists (fun j => (rnd F (rnd F (1 / 10000) + IZR (Z.rem j 24)), 0%R)). split.
  - unfold f_set_evalmod_message. apply (msg_loop (K := Rops)); auto. intros i a b Hi. rewrite gwr_tab by auto. cbn [bind]. rewrite gwr_tab by auto. reflexivity.
  - intros j Hj. split; [reflexivity|]. cbn [fst]. rewrite Z.rem_mod_nonneg by lia. pose proof (Z.mod_pos_bound j 24 ltac:(lia)) as [M1 M2].
    assert (M : (0 <= IZR (j mod 24) <= 23)%R) by (split; apply IZR_le; lia). set (m := IZR (j mod 24)) in *.
    assert (E1 : (Rabs (rnd F (1 / 10000) - 1 / 10000) <= u * (1 / 10000) + eta)%R) by (apply (rd_err u eta top (rnd F) Hu Hr); [rewrite Rabs_right; lra|lra]).
    assert (E2 : (Rabs (rnd F (1 / 10000) + m) <= 2301 / 100)%R) by (apply abs_inv in E1; apply Rabs_le; lra).
    pose proof (rd_err u eta top (rnd F) Hu Hr _ _ E2 ltac:(lra)) as E3. apply abs_inv in E1, E3. apply Rabs_le. lra.
Qed.

(** set_test_matrix: the real parts are close to the sines over sqrt 2, the imaginary parts stay what they were.  The angles reach K PI, so the library's
    functions must be accurate further out than the angles of the tables. *)
Theorem C123_test_matrix : forall n K (z : Z -> Z -> CC), 0 < n -> 1 <= K -> K * n < 2 ^ 31 -> (IZR K * 4 <= top)%R -> (IZR K * (12 * u + 8 * eta) <= / 8)%R ->
  (forall x, (Rabs x <= IZR K * (34 / 10) -> Rabs (lsin F x - sin x) <= t)%R) ->
  exists w, f_set_test_matrix F n K (tab K (fun k => carray (K := Rops) n (z k))) = Ok (tab K (fun k => carray (K := Rops) n (fun i => (w k i, snd (z k i))))) /\
    forall k i, 0 <= k < K -> 0 <= i < n -> (Rabs (w k i - sin (IZR (k * i) / IZR n * PI) / sqrt 2) <= message_error u eta t K)%R.
Proof.
  intros n K z Hn HK HKn HKt HKs Hsin. set (ang := fun a => rnd F (rnd F (IZR a / IZR n) * dpi F)). set (f := fun k i => rnd F (lsin F (ang (k * i)) / rnd F (sqrt 2))).
  exists f. assert (D : forall a, f_div F (IZR a) (IZR n) = Ok (rnd F (IZR a / IZR n))).
  { intros a. unfold f_div. destruct (Req_EM_T (IZR n) 0) as [e|]; [apply eq_IZR in e; lia|reflexivity]. }
  assert (Q : forall c, f_div F c (rnd F (sqrt 2)) = Ok (rnd F (c / rnd F (sqrt 2)))).
  { intros c. unfold f_div. destruct root2 as [_ R2]. destruct (Req_EM_T (rnd F (sqrt 2)) 0); [lra|reflexivity]. }
  split.
  - unfold f_set_test_matrix.
    rewrite (for_closed _ (fun k => tab K (fun k' => carray (K := Rops) n (fun i => (if k' <? k then f k' i else fst (z k' i), snd (z k' i))))) _ _ _ (tab K (fun k => carray (K := Rops) n (fun i => (f k i, snd (z k i)))))); auto; try lia.
    + apply tab_ext. intros k Hk. apply msg_ext. intros i Hi. destruct (Z.ltb_spec k 0); [lia|]. apply surjective_pairing.
    + apply tab_ext. intros k Hk. apply msg_ext. intros i Hi. destruct (Z.ltb_spec k K); [reflexivity|lia].
    + intros k Hk.
      apply (for_closed _ (fun i => tab K (fun k' => carray (K := Rops) n (fun j => (if (k' <? k) || ((k' =? k) && (j <? i)) then f k' j else fst (z k' j), snd (z k' j)))))); try lia.
      * apply tab_ext. intros k' Hk'. apply msg_ext. intros j Hj. destruct (Z.ltb_spec j 0); [lia|]. rewrite andb_false_r, orb_false_r. reflexivity.
      * apply tab_ext. intros k' Hk'. apply msg_ext. intros j Hj. replace (k' <? k + 1) with ((k' <? k) || (k' =? k) && (j <? n)); [reflexivity|].
        destruct (Z.ltb_spec j n); [|lia]. destruct (Z.ltb_spec k' k), (Z.eqb_spec k' k), (Z.ltb_spec k' (k + 1)); try lia; reflexivity.
      * intros i Hi. rewrite int_ok by (assert (0 <= k * i < K * n) by nia; lia). cbn [bind]. rewrite D. cbn [bind]. cbv zeta. unfold f_sqrt. destruct (Rlt_dec 2 0); [lra|]. cbn [bind]. rewrite !Q. cbn [bind]. rewrite lget_tab by lia. cbn [bind].
        rewrite carray_cvtab. unfold cvtab at 1. unfold gtab at 1. rewrite gwr_tab by lia. cbn [bind]. rewrite lset_tab by lia. cbn [bind]. rewrite lget_tab by lia. cbn [bind]. rewrite Z.eqb_refl.
        rewrite gwr_tab by lia. cbn [bind]. rewrite lset_tab by lia. apply f_equal. apply tab_ext. intros k' Hk'. destruct (Z.eqb_spec k' k) as [->|Hne].
        -- rewrite carray_cvtab. unfold cvtab, cre, cim. cbn [fst snd]. cbn [andb]. apply f_equal2; [|reflexivity]. apply tab_ext. intros j Hj. destruct (Z.eqb_spec j i) as [->|Hj'].
           ++ destruct (Z.ltb_spec i (i + 1)); [|lia]. rewrite orb_true_r. reflexivity.
           ++ replace (j <? i + 1) with (j <? i); [reflexivity|]. destruct (Z.ltb_spec j i), (Z.ltb_spec j (i + 1)); try lia; reflexivity.
        -- apply msg_ext. intros j Hj. reflexivity.
  - intros k i Hk Hi. destruct (angle_near (k * i) n K Hn ltac:(nia) HK HKt) as (d & E & H1 & H2). rewrite D in E. injection E as <-. fold (ang (k * i)) in H1, H2.
    set (x := (IZR (k * i) / IZR n * PI)%R) in *. pose proof (sin_lip (ang (k * i)) x) as L. specialize (Hsin _ H2).
    destruct (over_root (sin x) (lsin F (ang (k * i))) (t + IZR K * (12 * u + 8 * eta)) (sin_1 x)) as (q & E & H); [|lra|].
    { assert (L' : (Rabs (sin (ang (k * i)%Z) - sin x) <= IZR K * (12 * u + 8 * eta))%R) by lra. apply abs_inv in L', Hsin. apply Rabs_le. lra. }
    rewrite Q in E. injection E as <-. exact H.
Qed.
End Ar.

(** ** Double precision *)
Theorem C123_test_message_double : forall F n p, double F -> 0 <= n -> carray_of (K := Rops) n p ->
  exists z, f_set_test_message F n p = Ok (carray (K := Rops) n z) /\
    forall j, 0 <= j < n -> (modulus (z j - circle (IZR j / IZR n * PI))%num <= powerRZ 2 (-48))%R /\ (Rabs (modulus (z j) - / sqrt 2) <= powerRZ 2 (-48))%R.
Proof.
  intros F n p HF Hn Hpp. destruct (C123_test_message F u64 eta64 top64 t64 HF n p Hn Hpp) as (z & E & H). exists z. split; [exact E|]. intros j Hj. destruct (H j Hj) as [H1 H2].
  assert (A : (modulus (z j - circle (IZR j / IZR n * PI))%num <= powerRZ 2 (-48))%R).
  { eapply Rle_trans; [apply (modulus_comp _ (message_error u64 eta64 t64 1)); [exact H1|exact H2]|]. pose proof (eta_u 10 ltac:(lia) ltac:(lia)) as Heu. change (2 ^ 10) with 1024 in Heu. assert (Et : (t64 = 2 * u64)%R). { pose proof (u_is 1 ltac:(lia)) as U. change (2 ^ 1)%Z with 2%Z in U. rewrite U. reflexivity. }
    pose proof (u_is 5 ltac:(lia)) as U5. change (2 ^ 5) with 32 in U5. change (5 - 53) with (-48) in U5. unfold message_error in *. pose proof u_small. pose proof eta_pos.
    lra. }
  split; [exact A|]. rewrite <- (circle_modulus (IZR j / IZR n * PI)). pose proof (modulus_near (z j) (circle (IZR j / IZR n * PI))) as N1. pose proof (modulus_near (circle (IZR j / IZR n * PI)) (z j)) as N2.
  replace (circle (IZR j / IZR n * PI) - z j)%num with (- (z j - circle (IZR j / IZR n * PI)))%num in N2 by (apply c_eq; unfold cre, cim; cbn; ring). rewrite modulus_opp in N2. apply Rabs_le. lra.
Qed.
Theorem C123_evalmod_message_double : forall F n p, double F -> 0 <= n -> carray_of (K := Rops) n p ->
  exists z, f_set_evalmod_message F n p = Ok (carray (K := Rops) n z) /\
    forall j, 0 <= j < n -> snd (z j) = 0%R /\ (Rabs (fst (z j) - (IZR (j mod 24) + / 10000)) <= powerRZ 2 (-48))%R.
Proof.
  intros F n p HF Hn Hpp. destruct (C123_evalmod_message F u64 eta64 top64 t64 HF n p) as (z & E & H); auto. { eapply Rle_trans; [|apply (top64_big 62); lia]. apply IZR_le. discriminate. }
  exists z. split; [exact E|]. intros j Hj. destruct (H j Hj) as [H1 H2]. split; [exact H1|]. eapply Rle_trans; [exact H2|]. pose proof (eta_u 10 ltac:(lia) ltac:(lia)) as Heu. change (2 ^ 10) with 1024 in Heu.
  pose proof (u_is 5 ltac:(lia)) as U5. change (2 ^ 5) with 32 in U5. change (5 - 53) with (-48) in U5. pose proof u_small. pose proof eta_pos. lra.
Qed.
(** matrices with at most two rows (angles up to 2 PI) need nothing beyond the accuracy of the tables' angles *)
Theorem C123_test_matrix_double : forall F n (z : Z -> Z -> CC), double F -> 0 < n -> 2 * n < 2 ^ 31 ->
  exists w : Z -> Z -> R, f_set_test_matrix F n 2 (tab 2 (fun k => carray (K := Rops) n (z k))) = Ok (tab 2 (fun k => carray (K := Rops) n (fun i => (w k i, snd (z k i))))) /\
    forall k i, 0 <= k < 2 -> 0 <= i < n -> (Rabs (w k i - sin (IZR (k * i) / IZR n * PI) / sqrt 2) <= powerRZ 2 (-47))%R.
Proof.
  intros F n z HF Hn Hn2. pose proof u_small as Hu. pose proof eta_pos as Hep. pose proof (eta_u 10 ltac:(lia) ltac:(lia)) as Heu. change (2 ^ 10) with 1024 in Heu.
  destruct (C123_test_matrix F u64 eta64 top64 t64 HF n 2 z Hn ltac:(lia) Hn2) as (w & E & H).
  { destruct HF. lra. } { lra. } { intros x Hx. apply (ar_sin _ _ _ _ _ _ _ _ HF). lra. }
  exists w. split; [exact E|]. intros k i Hk Hi. eapply Rle_trans; [apply (H k i Hk Hi)|]. assert (Et : (t64 = 2 * u64)%R). { pose proof (u_is 1 ltac:(lia)) as U. change (2 ^ 1)%Z with 2%Z in U. rewrite U. reflexivity. }
  pose proof (u_is 6 ltac:(lia)) as U6. change (2 ^ 6) with 64 in U6. change (6 - 53) with (-47) in U6. unfold message_error. lra.
Qed.

(** binary64, 256 slots *)
Example C123_case : exists z, f_set_test_message F64 256 (carray (K := Rops) 256 (fun _ => (0%R, 0%R))) = Ok (carray (K := Rops) 256 z) /\
  (modulus (z 64%Z - circle (IZR 64 / IZR 256 * PI))%num <= powerRZ 2 (-48))%R.
Proof. destruct (C123_test_message_double F64 256 (carray (K := Rops) 256 (fun _ => (0%R, 0%R))) C87_binary64) as (z & E & H); [lia|apply carray_of_carray|]. exists z. split; [exact E|]. apply H. lia. Qed.
