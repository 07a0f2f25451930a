(** C99: the scale factors that design_delta_tilde.cpp and design_delta_tilde_lattigo.cpp print. *)
From Coq Require Import ZArith List Bool Lia Reals Lra Ring.
From Verif Require Import Base BaseFacts MatrixFacts.
From Verif Require Import Section4 Constants.
Import ListNotations.
Open Scope Z_scope.

Lemma ceil_up x : exists k, IZR (- Int_part (- x)) = IZR k /\ - Int_part (- x) = k /\ (IZR k - 1 < x <= IZR k)%R.
Proof.
  exists (- Int_part (- x)). split; [reflexivity|]. split; [reflexivity|]. destruct (base_Int_part (- x)) as [A B]. rewrite opp_IZR. lra.
Qed.
Lemma ceil_unique x k : (IZR k - 1 < x <= IZR k)%R -> - Int_part (- x) = k.
Proof.
  intros H. destruct (ceil_up x) as (k' & _ & -> & H'). assert (A : (IZR k < IZR k' + 1)%R) by lra. assert (B : (IZR k' < IZR k + 1)%R) by lra.
  rewrite <- (plus_IZR _ 1) in A. rewrite <- (plus_IZR _ 1) in B. apply lt_IZR in A. apply lt_IZR in B. lia.
Qed.
Lemma ln2_pos : (0 < ln 2)%R.
Proof. rewrite <- ln_1. apply ln_increasing; lra. Qed.
Lemma log2_lt x y : (0 < x)%R -> (y < ln x / ln 2 <-> Rpower 2 y < x)%R.
Proof.
  intros Hx. pose proof ln2_pos as L. assert (E : (ln x / ln 2 * ln 2 = ln x)%R) by (field; lra). unfold Rpower. split; intros H.
  - rewrite <- (exp_ln x) by auto. apply exp_increasing. rewrite <- E. apply Rmult_lt_compat_r; auto.
  - apply (Rmult_lt_reg_r (ln 2)); auto. rewrite E. apply exp_lt_inv. rewrite exp_ln by auto. exact H.
Qed.
(** ceil_log2 is the least exponent *)
Lemma ceil_log2_ok x t : - 2 ^ 31 <= t < 2 ^ 31 -> (Rpower 2 (IZR t - 1) < x <= Rpower 2 (IZR t))%R -> ceil_log2 x = Ok t.
Proof.
  intros Ht [A B]. assert (P : (0 < x)%R) by (eapply Rlt_trans; [|exact A]; apply exp_pos). unfold ceil_log2. destruct (Rlt_dec 0 x); [|lra].
  rewrite (ceil_unique _ t); [apply int_in; lia|]. split; [apply log2_lt; auto|]. apply Rnot_lt_le. intros C. apply log2_lt in C; auto. lra.
Qed.
Lemma ceil_log2_inv x t : ceil_log2 x = Ok t -> (0 < x)%R /\ (Rpower 2 (IZR t - 1) < x <= Rpower 2 (IZR t))%R.
Proof.
  unfold ceil_log2. destruct (Rlt_dec 0 x) as [P|]; [|discriminate]. intros E. split; [exact P|].
  destruct (ceil_up (ln x / ln 2)) as (k & _ & Ek & H). rewrite Ek in E. clear Ek. assert (k = t) by (unfold int_ in E; destruct (in_int k) in E; inversion E; reflexivity). subst k.
  split; [apply log2_lt; auto; apply H|]. apply Rnot_lt_le. intros C. apply log2_lt in C; auto. lra.
Qed.
Lemma r_to_int_inv x k : (0 <= x)%R -> r_to_int x = Ok k -> (IZR k <= x < IZR k + 1)%R.
Proof.
  intros Hx. unfold r_to_int. destruct (Rlt_dec x 0); [lra|]. intros E. assert (Int_part x = k) by (unfold int_ in E; destruct (in_int _) in E; inversion E; reflexivity). subst k.
  destruct (base_Int_part x). lra.
Qed.

Section Design.
Context (LOGN G H D LOGq LOGDELTA : Z) (HC : cts_numbers LOGN G H D) (Hq : 0 <= LOGDELTA <= LOGq) (Hq31 : LOGq - LOGDELTA < 31).
Local Notation N := (IZR (2 ^ LOGN)).
(** the expected norm of the rounding error at Delta~ = 1 *)
Definition unscaled : R := (IZR D * sqrt (IZR ((H + 1) * 3 ^ G)) / 12 * Rpower (2 * N) (/ (2 * IZR D)) * N * (IZR (2 ^ LOGq) / IZR (2 ^ LOGDELTA)))%R.

Lemma expected_scaled t : 0 <= t -> cts_expected LOGN G H LOGq LOGDELTA t = Ok (unscaled / Rpower 2 (IZR t))%R.
Proof. intros Ht. destruct (C98_sanity LOGN G H D LOGq LOGDELTA t HC Hq Hq31 Ht) as [E _]. rewrite E. rewrite (p2 t Ht). reflexivity. Qed.
Lemma sim_unscaled : (IZR D * sqrt (IZR ((H + 1) * 3 ^ G)) / 12 * Rpower 2 (1 / IZR (2 * D)) * Rpower N (1 + 1 / IZR (2 * D)) * IZR (2 ^ (LOGq - LOGDELTA)) = unscaled)%R.
Proof.
  pose proof (expected_scaled 0 ltac:(lia)) as E. unfold cts_expected in E. rewrite (cts_constants_ok _ _ _ _ HC) in E. cbn [bind] in E.
  destruct (Z.leb_spec 0 (LOGq - LOGDELTA)); [|lia]. destruct (Z.ltb_spec (LOGq - LOGDELTA) 31); [|lia]. cbn [andb guard bind] in E. inversion E as [E']. rewrite Rpower_O in E' by lra.
  change (IZR (2 ^ 0)) with 1%R in E'. assert (D1 : forall x, (x / 1 = x)%R) by (intros; field). rewrite !D1 in E'. exact E'.
Qed.
Lemma design_unfold : design_delta_tilde LOGN G H LOGq LOGDELTA =
  (log_sim <- ceil_log2 unscaled ;;
   if Req_EM_T (1 * sqrt N / 5 - 1) 0 then Undef else
   tight <- r_to_int (unscaled * (1 / (1 * sqrt N / 5 - 1))) ;;
   log_tight <- ceil_log2 (IZR tight) ;; Ok (log_sim, log_tight)).
Proof.
  unfold design_delta_tilde. rewrite (cts_constants_ok _ _ _ _ HC). cbn [bind]. destruct (Z.leb_spec 0 (LOGq - LOGDELTA)); [|lia]. destruct (Z.ltb_spec (LOGq - LOGDELTA) 31); [|lia]. cbn [andb guard bind].
  rewrite sim_unscaled. reflexivity.
Qed.
Lemma unscaled_pos : (0 < unscaled)%R.
Proof.
  destruct HC as [HD HG HLN HH Hi Hi2]. assert (P3 : 0 < 3 ^ G) by (apply Z.pow_pos_nonneg; lia). assert (PN : 0 < 2 ^ LOGN) by (apply Z.pow_pos_nonneg; nia).
  assert (0 < IZR D)%R by (apply IZR_lt; lia). assert (0 < N)%R by (apply IZR_lt; lia). assert (0 < IZR (2 ^ LOGq))%R by (apply IZR_lt, Z.pow_pos_nonneg; lia). assert (0 < IZR (2 ^ LOGDELTA))%R by (apply IZR_lt, Z.pow_pos_nonneg; lia).
  assert (0 < sqrt (IZR ((H + 1) * 3 ^ G)))%R by (apply sqrt_lt_R0, IZR_lt; nia). unfold unscaled. repeat apply Rmult_lt_0_compat; auto; try lra; [apply exp_pos|apply Rinv_0_lt_compat; auto].
Qed.

(** With the printed exponents t1 and t2: 2^t1 is the least power of two for which the expected norm of the rounding error is at most 1, that is
    at most the norm of the value, and 2^t2 the least one for which 5/sqrt N times the sum of the two norms is at most 1, up to 2^-t2 since the
    program truncates the bound for 2^t2 to an int. *)
Theorem C99_design : forall t1 t2, 5 <= LOGN -> 0 <= t1 -> 0 <= t2 -> design_delta_tilde LOGN G H LOGq LOGDELTA = Ok (t1, t2) ->
  (exists v, cts_expected LOGN G H LOGq LOGDELTA t1 = Ok v /\ (v <= 1)%R) /\ (forall t v, 0 <= t < t1 -> cts_expected LOGN G H LOGq LOGDELTA t = Ok v -> (1 < v)%R) /\
  (exists v, cts_expected LOGN G H LOGq LOGDELTA t2 = Ok v /\ (5 / sqrt N * (1 + v) < 1 + / IZR (2 ^ t2))%R) /\ 
  (forall t v, 0 <= t < t2 -> cts_expected LOGN G H LOGq LOGDELTA t = Ok v -> (1 < 5 / sqrt N * (1 + v))%R).
Proof.
  intros t1 t2 HN H1 H2 E. rewrite design_unfold in E. pose proof unscaled_pos as UP. set (U := unscaled) in *.
  destruct (ceil_log2 U) as [l1| | |] eqn:E1; try discriminate. cbn [bind] in E.
  assert (SN : (5 < sqrt N)%R). { rewrite <- (sqrt_square 5) by lra. apply sqrt_lt_1_alt. split; [lra|]. apply Rlt_le_trans with 32%R; [lra|]. change 32%R with (IZR (2 ^ 5)). apply IZR_le, Z.pow_le_mono_r; lia. }
  set (S := sqrt N) in *. destruct (Req_EM_T (1 * S / 5 - 1) 0) as [|_]; [lra|].
  destruct (r_to_int (U * (1 / (1 * S / 5 - 1)))) as [k| | |] eqn:E2; try discriminate. cbn [bind] in E.
  destruct (ceil_log2 (IZR k)) as [l2| | |] eqn:E3; try discriminate. cbn [bind] in E. inversion E; subst l1 l2. clear E.
  apply ceil_log2_inv in E1. destruct E1 as [_ [A1 B1]]. apply ceil_log2_inv in E3. destruct E3 as [_ [A2 B2]].
  assert (RP : (0 < S / 5 - 1)%R) by lra. set (r := (S / 5 - 1)%R) in *. replace (1 * S / 5 - 1)%R with r in E2 by (unfold r; field). 
  assert (RI : (0 < / r)%R) by (apply Rinv_0_lt_compat; auto). apply r_to_int_inv in E2; [|unfold Rdiv; rewrite Rmult_1_l; apply Rlt_le, Rmult_lt_0_compat; auto].
  replace (U * (1 / r))%R with (U / r)%R in E2 by (field; lra). assert (EU : (U = U / r * r)%R) by (field; lra).
  assert (MON : forall t t', 0 <= t < t' -> (Rpower 2 (IZR t) <= Rpower 2 (IZR t' - 1))%R) by (intros t t' Ht; apply Rle_Rpower; [lra|]; rewrite <- (minus_IZR _ 1); apply IZR_le; lia).
  assert (PP : forall x, (0 < Rpower 2 x)%R) by (intros; apply exp_pos).
  assert (S5 : (0 < 5 / S)%R) by (apply Rdiv_lt_0_compat; lra).
  assert (T : forall x, (5 / S * (1 + x) = 1 + 5 / S * (x - r))%R) by (intros x; unfold r; field; lra).
  split; [|split; [|split]].
  - eexists. split; [apply expected_scaled; auto|]. fold U. apply (Rmult_le_reg_r (Rpower 2 (IZR t1))); auto. unfold Rdiv. rewrite Rmult_assoc, Rinv_l by (specialize (PP (IZR t1)); lra). lra.
  - intros t v Ht Ev. rewrite expected_scaled in Ev by lia. inversion Ev; subst v. fold U. specialize (MON t t1 Ht). specialize (PP (IZR t)).
    apply (Rmult_lt_reg_r (Rpower 2 (IZR t))); auto. unfold Rdiv. rewrite Rmult_assoc, Rinv_l by lra. lra.
  - eexists. split; [apply expected_scaled; auto|]. fold U. rewrite T. rewrite (p2 t2) by auto. specialize (PP (IZR t2)). set (P := Rpower 2 (IZR t2)) in *.
    assert (U < (P + 1) * r)%R by (rewrite EU; apply Rmult_lt_compat_r; lra). 
    assert (U / P - r < r * / P)%R. { apply (Rmult_lt_reg_r P); auto. rewrite Rmult_minus_distr_r. unfold Rdiv. rewrite !Rmult_assoc, Rinv_l by lra. lra. }
    apply Rplus_lt_compat_l. apply Rlt_trans with (5 / S * (r * / P))%R; [apply Rmult_lt_compat_l; auto|]. rewrite <- Rmult_assoc. rewrite <- (Rmult_1_l (/ P)) at 2. apply Rmult_lt_compat_r; [apply Rinv_0_lt_compat; auto|].
    replace (5 / S * r)%R with (1 - 5 / S)%R by (unfold r; field; lra). lra.
  - intros t v Ht Ev. rewrite expected_scaled in Ev by lia. inversion Ev; subst v. fold U. specialize (MON t t2 Ht). specialize (PP (IZR t)). rewrite T.
    assert (r < U / Rpower 2 (IZR t))%R. { apply (Rmult_lt_reg_r (Rpower 2 (IZR t))); auto. unfold Rdiv at 1. rewrite Rmult_assoc, Rinv_l by lra. rewrite Rmult_1_r, EU, (Rmult_comm r). apply Rmult_lt_compat_r; lra. }
    assert (0 < 5 / S * (U / Rpower 2 (IZR t) - r))%R by (apply Rmult_lt_0_compat; lra). lra.
Qed.

(** For N < 25 the program converts the logarithm of a number that is not positive to an int *)
Theorem C99_small : LOGN <= 4 -> design_delta_tilde LOGN G H LOGq LOGDELTA = Undef.
Proof.
  intros HN. rewrite design_unfold. pose proof unscaled_pos as UP. set (U := unscaled) in *. destruct HC as [HD HG HLN HH Hi Hi2].
  unfold ceil_log2 at 1. destruct (Rlt_dec 0 U); [|lra]. unfold int_. destruct (in_int _); [|reflexivity]. cbn [bind].
  assert (SN : (0 < sqrt N < 5)%R).
  { assert (PN : 1 <= 2 ^ LOGN <= 2 ^ 4) by (split; [apply Z.lt_succ_r, Z.lt_sub_lt_add_r, Z.pow_pos_nonneg; nia|apply Z.pow_le_mono_r; lia]). 
    assert (1 <= N <= 16)%R by (split; apply IZR_le; lia). split; [apply sqrt_lt_R0; lra|]. rewrite <- (sqrt_square 5) by lra. apply sqrt_lt_1_alt. lra. }
  destruct (Req_EM_T (1 * sqrt N / 5 - 1) 0) as [|_]; [lra|].
  assert (X : (U * (1 / (1 * sqrt N / 5 - 1)) < 0)%R). { unfold Rdiv at 1. rewrite Rmult_1_l. assert (/ (1 * sqrt N / 5 - 1) < 0)%R by (apply Rinv_lt_0_compat; lra). nra. }
  unfold r_to_int. destruct (Rlt_dec _ 0) as [_|]; [|contradiction]. unfold int_. destruct (in_int _); [|reflexivity]. cbn [bind]. unfold ceil_log2.
  set (x := (U * (1 / (1 * sqrt N / 5 - 1)))%R) in *. destruct (base_Int_part (- x)) as [A B]. destruct (Rlt_dec 0 (IZR (- Int_part (- x)))) as [C|]; [|reflexivity].
  rewrite opp_IZR in C. exfalso. assert (IZR (Int_part (- x)) < 0)%R by lra. assert (I : Int_part (- x) <= -1) by (apply lt_IZR in H0; lia). apply IZR_le in I. lra.
Qed.
End Design.

(** The three instances of main *)
Lemma pow4_lt x y : (0 <= y)%R -> (x ^ 4 < y ^ 4)%R -> (x < y)%R.
Proof. intros Hy H. apply Rnot_le_lt. intros C. assert (y ^ 4 <= x ^ 4)%R by (apply pow_incr; lra). lra. Qed.
Lemma unscaled_pow4 G : 1 <= G -> (unscaled (4 * G + 1) G 128 4 60 50 ^ 4 = IZR ((129 * 3 ^ G) ^ 2 * 2 ^ (18 * G + 45)) / 81)%R.
Proof.
  intros HG. unfold unscaled. set (S := sqrt (IZR ((128 + 1) * 3 ^ G))). assert (P3 : 0 < 3 ^ G) by (apply Z.pow_pos_nonneg; lia).
  assert (ES : (S * S = 129 * IZR (3 ^ G))%R). { unfold S. rewrite sqrt_sqrt; [|apply IZR_le; nia]. rewrite mult_IZR. reflexivity. }
  set (Rr := Rpower (2 * IZR (2 ^ (4 * G + 1))) (/ (2 * 4))).
  assert (ER : (Rr ^ 4 = IZR (2 ^ (2 * G + 1)))%R).
  { rewrite <- Rpower_pow by apply exp_pos. unfold Rr. rewrite Rpower_mult. replace (2 * IZR (2 ^ (4 * G + 1)))%R with (IZR (2 ^ (4 * G + 2))).
    - rewrite !p2 by lia. rewrite Rpower_mult. f_equal. rewrite !plus_IZR, !mult_IZR. cbn [INR]. field.
    - rewrite <- mult_IZR. f_equal. replace (4 * G + 2) with (4 * G + 1 + 1) by lia. rewrite (Z.pow_add_r 2 (4 * G + 1) 1) by lia. lia. }
  set (M := IZR (2 ^ (4 * G + 1))) in *.
  replace (IZR (2 ^ 60) / IZR (2 ^ 50))%R with 1024%R. 2:{ change (2 ^ 60) with (1024 * 2 ^ 50). rewrite mult_IZR. field. apply IZR_neq. vm_compute. congruence. }
  replace ((4 * S / 12 * Rr * M * 1024) ^ 4)%R with ((S * S) * (S * S) * Rr ^ 4 * M ^ 4 * 1024 ^ 4 / 81)%R by field. rewrite ES, ER.
  replace (18 * G + 45) with ((2 * G + 1) + ((4 * G + 1) * 4) + 40) by lia. rewrite (Z.pow_add_r 2 _ 40), (Z.pow_add_r 2 (2 * G + 1)) by lia. rewrite Z.pow_mul_r by lia. rewrite !mult_IZR. unfold M. rewrite !pow_IZR. change (Z.of_nat 4) with 4.
  rewrite (Z.pow_2_r (129 * 3 ^ G)). rewrite !mult_IZR. change (2 ^ 40) with (1024 ^ 4). field.
Qed.
Lemma sqrt_between x a b : (0 <= a)%R -> (0 <= b)%R -> (a * a < x < b * b)%R -> (a < sqrt x < b)%R.
Proof. intros Ha Hb H. rewrite <- (sqrt_square a), <- (sqrt_square b) by auto. split; apply sqrt_lt_1_alt; nra. Qed.
Lemma design_value G a b c d t1 t2 : 1 <= G <= 4 ->
  0 <= a -> 0 <= b -> 81 * a ^ 4 < (129 * 3 ^ G) ^ 2 * 2 ^ (18 * G + 45) < 81 * b ^ 4 ->
  0 < c -> 0 < d -> c * c < 2 ^ (4 * G + 1) * 100 < d * d -> 50 < c ->
  1 <= t1 < 60 -> 1 <= t2 <= 30 -> 2 ^ (t1 - 1) <= a -> b <= 2 ^ t1 -> (2 ^ (t2 - 1) + 1) * (d - 50) <= 50 * a -> 50 * b <= 2 ^ t2 * (c - 50) ->
  design_delta_tilde (4 * G + 1) G 128 60 50 = Ok (t1, t2).
Proof.
  intros HG Ha Hb [U1 U2] Hc Hd [S1 S2] H50 Ht1 Ht2 HA HB HX1 HX2.
  assert (HC : cts_numbers (4 * G + 1) G 128 4).
  { assert (C : G = 1 \/ G = 2 \/ G = 3 \/ G = 4) by lia. destruct C as [->|[->|[->| ->]]]; split; vm_compute; congruence. }
  rewrite (design_unfold _ _ _ _ 60 50 HC) by lia. pose proof (unscaled_pos _ _ _ _ 60 50 HC ltac:(lia)) as UP. pose proof (unscaled_pow4 G ltac:(lia)) as E4. set (U := unscaled _ _ _ _ _ _) in *.
  assert (UA : (IZR a < U)%R). { apply pow4_lt; [lra|]. rewrite E4. rewrite pow_IZR. change (Z.of_nat 4) with 4. apply (Rmult_lt_reg_l 81); [lra|]. rewrite <- mult_IZR. apply Rlt_le_trans with (IZR ((129 * 3 ^ G) ^ 2 * 2 ^ (18 * G + 45))); [apply IZR_lt; lia|]. right. field. }
  assert (UB : (U < IZR b)%R). { apply pow4_lt; [apply IZR_le; lia|]. rewrite E4. rewrite pow_IZR. change (Z.of_nat 4) with 4. apply (Rmult_lt_reg_l 81); [lra|]. rewrite <- mult_IZR. apply Rle_lt_trans with (IZR ((129 * 3 ^ G) ^ 2 * 2 ^ (18 * G + 45))); [|apply IZR_lt; lia]. right. field. }
  assert (PT : forall t, 0 <= t -> (0 < IZR (2 ^ t))%R) by (intros; apply IZR_lt, Z.pow_pos_nonneg; lia).
  rewrite (ceil_log2_ok U t1); [|lia|]. 2:{ rewrite <- (minus_IZR _ 1), <- !p2 by lia. apply IZR_le in HA, HB. lra. }
  cbn [bind]. assert (SB : (IZR c / 10 < sqrt (IZR (2 ^ (4 * G + 1))) < IZR d / 10)%R).
  { assert (0 < IZR c)%R by (apply IZR_lt; lia). assert (0 < IZR d)%R by (apply IZR_lt; lia). apply IZR_lt in S1, S2. rewrite !mult_IZR in S1, S2. apply sqrt_between; lra. }
  apply IZR_lt in H50, Hc, Hd. set (S := sqrt _) in *. destruct (Req_EM_T (1 * S / 5 - 1) 0) as [|_]; [lra|]. set (r := (1 * S / 5 - 1)%R) in *.
  assert (RB : ((IZR c - 50) / 50 < r < (IZR d - 50) / 50)%R) by (unfold r; lra). assert (RP : (0 < r)%R) by lra.
  apply IZR_le in HX1, HX2. rewrite !mult_IZR, plus_IZR, minus_IZR in HX1. rewrite !mult_IZR, minus_IZR in HX2.
  assert (X : (IZR (2 ^ (t2 - 1)) + 1 <= U * (1 / r) <= IZR (2 ^ t2))%R).
  { pose proof (PT t2 ltac:(lia)). pose proof (PT (t2 - 1) ltac:(lia)). unfold Rdiv at 1 2. rewrite Rmult_1_l. split; apply (Rmult_le_reg_r r); auto; rewrite Rmult_assoc, Rinv_l, Rmult_1_r by lra.
    - apply Rle_trans with ((IZR (2 ^ (t2 - 1)) + 1) * ((IZR d - 50) / 50))%R; [apply Rmult_le_compat_l; lra|]. lra.
    - apply Rle_trans with (IZR (2 ^ t2) * ((IZR c - 50) / 50))%R; [lra|apply Rmult_le_compat_l; lra]. }
  set (x := (U * (1 / r))%R) in *. unfold r_to_int. pose proof (PT (t2 - 1) ltac:(lia)) as P1. destruct (Rlt_dec x 0); [lra|]. destruct (base_Int_part x) as [I1 I2].
  assert (K : 2 ^ (t2 - 1) < Int_part x <= 2 ^ t2). { split; [apply lt_IZR; lra|]. apply le_IZR. lra. }
  assert (2 ^ t2 <= 2 ^ 30) by (apply Z.pow_le_mono_r; lia). change (2 ^ 30) with 1073741824 in *. assert (0 < 2 ^ (t2 - 1)) by (apply Z.pow_pos_nonneg; lia). rewrite int_in by lia. cbn [bind].
  rewrite (ceil_log2_ok (IZR (Int_part x)) t2); [reflexivity|lia|]. rewrite <- (minus_IZR _ 1), <- !p2 by lia. split; [apply IZR_lt; lia|apply IZR_le; lia].
Qed.
Example C99_case : design_delta_tilde 9 2 128 60 50 = Ok (24, 22) /\ design_delta_tilde 13 3 128 60 50 = Ok (30, 25) /\ design_delta_tilde 17 4 128 60 50 = Ok (35, 29).
Proof.
  split; [|split].
  - apply (design_value 2 14000000 14300000 226 227); try (split; reflexivity || (vm_compute; congruence)); vm_compute; congruence.
  - apply (design_value 3 550000000 560000000 905 906); try (split; reflexivity || (vm_compute; congruence)); vm_compute; congruence.
  - apply (design_value 4 21700000000 21800000000 3620 3630); try (split; reflexivity || (vm_compute; congruence)); vm_compute; congruence.
Qed.

(** ** design_delta_tilde_lattigo *)
Lemma p2_between p k num den num' : (0 < k)%nat -> 0 < num -> 0 < num' -> 0 < den -> num ^ Z.of_nat k * 2 ^ p < den ^ Z.of_nat k < num' ^ Z.of_nat k * 2 ^ p -> 0 <= p ->
  (IZR num / IZR den < Rpower 2 (- IZR p / INR k) < IZR num' / IZR den)%R.
Proof.
  intros Hk Hn Hn' Hd [A B] Hp. assert (dR : (0 < IZR den)%R) by (apply IZR_lt; auto). assert (KR : (0 < INR k)%R) by (apply lt_0_INR; auto). set (x := Rpower 2 (- IZR p / INR k)). assert (PX : (0 < x)%R) by apply exp_pos.
  assert (E : (x ^ k * IZR (2 ^ p) = 1)%R). { rewrite <- Rpower_pow by auto. unfold x. rewrite Rpower_mult, p2, <- Rpower_plus by auto. replace (- IZR p / INR k * INR k + IZR p)%R with 0%R by (field; lra). apply Rpower_O. lra. }
  assert (P2 : (0 < IZR (2 ^ p))%R) by (apply IZR_lt, Z.pow_pos_nonneg; lia).
  assert (ED : ((x * IZR den) ^ k * IZR (2 ^ p) = IZR (den ^ Z.of_nat k))%R) by (rewrite Rpow_mult_distr, <- pow_IZR; rewrite <- (Rmult_1_l (IZR den ^ k)) at 2; rewrite <- E; ring).
  apply IZR_lt in A, B. rewrite mult_IZR, <- ED, <- pow_IZR in A, B. apply Rmult_lt_reg_r in A, B; auto.
  assert (Hn2 : (0 < IZR num)%R) by (apply IZR_lt; auto). assert (Hn3 : (0 < IZR num')%R) by (apply IZR_lt; auto).
  assert (PW : forall a b, (0 <= a)%R -> (0 <= b)%R -> (a ^ k < b ^ k)%R -> (a < b)%R). { intros a b Pa Pb Hab. apply Rnot_le_lt. intros C. assert (b ^ k <= a ^ k)%R by (apply pow_incr; lra). lra. }
  split; apply (Rmult_lt_reg_r (IZR den)); auto; unfold Rdiv; rewrite Rmult_assoc, Rinv_l, Rmult_1_r by lra; apply PW; nra.
Qed.
Lemma mul_between a x b c y d : (0 <= a <= x)%R -> (x <= b)%R -> (0 <= c <= y)%R -> (y <= d)%R -> (0 <= a * c <= x * y)%R /\ (x * y <= b * d)%R.
Proof. intros [A1 A2] B [C1 C2] D. split; [split; [apply Rmult_le_pos; auto|apply Rmult_le_compat; auto]|apply Rmult_le_compat; lra]. Qed.

Lemma lattigo_error LDt : 0 <= LDt -> exists e w, design_delta_tilde_lattigo 16 192 60 50 LDt [4; 4; 4; 3] = Ok (e, w) /\ w = (/ 64)%R /\ 
  (0.0128 * IZR (2 ^ 34) <= e * IZR (2 ^ LDt) <= 0.0131 * IZR (2 ^ 34))%R.
Proof.
  intros Ht. assert (P : (0 < IZR (2 ^ LDt))%R) by (apply IZR_lt, Z.pow_pos_nonneg; lia).
  assert (EA : forall g, lattigo_A_norm 16 g = Rpower 2 (- (17 / 30) * IZR g)).
  { intros g. unfold lattigo_A_norm. rewrite (p2 16) by lia. replace (sqrt 2) with (sqrt (Rpower 2 1)) by (rewrite <- p2_1; reflexivity). rewrite p2_sqrt, Rpower_mult, p2_div, Rpower_mult. f_equal. f_equal. change (16 - 1) with 15. field. }
  assert (A4 : (2077 / 10000 < lattigo_A_norm 16 4 < 2079 / 10000)%R).
  { rewrite EA. replace (- (17 / 30) * 4)%R with (- IZR 34 / INR 15)%R by (cbn [INR]; field). apply p2_between; try lia; vm_compute; split; reflexivity. }
  assert (A3 : (3077 / 10000 < lattigo_A_norm 16 3 < 3079 / 10000)%R).
  { rewrite EA. replace (- (17 / 30) * 3)%R with (- IZR 17 / INR 10)%R by (cbn [INR]; field). apply p2_between; try lia; vm_compute; split; reflexivity. }
  set (a4 := lattigo_A_norm 16 4) in *. set (a3 := lattigo_A_norm 16 3) in *.
  set (s4 := sqrt (IZR 5308416 / 12)). set (s3 := sqrt (IZR 1769472 / 12)).
  assert (S4 : (665 < s4 < 665.2)%R) by (apply sqrt_between; lra). assert (S3 : (383 < s3 < 385)%R) by (apply sqrt_between; lra).
  set (z1 := sqrt (IZR 32768)). assert (Z1 : (181 < z1 < 181.1)%R) by (apply sqrt_between; lra).
  set (z2 := sqrt ((IZR 192 + 1) / 12 * IZR (2 ^ 60) * IZR (2 ^ 60) * IZR 65536)). set (B := IZR (2 ^ 18)).
  assert (PB : (0 < B)%R) by (apply IZR_lt; reflexivity).
  assert (Z2 : (4 * (IZR (2 ^ 50) * B) < z2 < 4.02 * (IZR (2 ^ 50) * B))%R).
  { set (q := IZR (2 ^ 50)). assert (Pq : (0 < q)%R) by (apply IZR_lt; reflexivity). assert (PqB : (0 < q * B)%R) by (apply Rmult_lt_0_compat; auto).
    assert (Eq : (IZR (2 ^ 60) * IZR (2 ^ 60) * 65536 = q * B * (q * B))%R) by (unfold q, B; rewrite <- !mult_IZR; f_equal).
    assert (PQ : (0 < q * B * (q * B))%R) by (apply Rmult_lt_0_compat; auto). apply sqrt_between; [lra|lra|]. rewrite (Rmult_assoc (_ / _)), (Rmult_assoc (_ / _)), Eq. set (Y := (q * B * (q * B))%R) in *. replace (4 * (q * B) * (4 * (q * B)))%R with (16 * Y)%R by (unfold Y; ring). replace (4.02 * (q * B) * (4.02 * (q * B)))%R with (4.02 * 4.02 * Y)%R by (unfold Y; ring). lra. }
  set (c := (s4 * (a4 * a4 * a3) + s4 * (a4 * a4 * a3) + s4 * (a4 * a4 * a3) + s3 * (a4 * a4 * a4))%R).
  exists (z1 / IZR (2 ^ 50) * z2 * (c / IZR (2 ^ LDt)) * 2 * 5 / sqrt (IZR 65536))%R, (/ 64)%R. split; [|split; [reflexivity|]].
  - unfold design_delta_tilde_lattigo. cbv zeta. change (2 ^ 16) with 65536. change (Z.quot 65536 2) with 32768.
    assert (L4 : lattigo_p_A 16 LDt 4 = Ok (s4 / IZR (2 ^ LDt))%R) by (unfold lattigo_p_A; reflexivity). assert (L3 : lattigo_p_A 16 LDt 3 = Ok (s3 / IZR (2 ^ LDt))%R) by (unfold lattigo_p_A; reflexivity).
    cbv [for_ iter_up lget nth_error bind Z.to_nat Pos.to_nat Pos.iter_op Init.Nat.add Z.sub Z.opp Z.add Z.pos_sub Pos.add Pos.succ Z.leb Z.ltb Z.compare Pos.compare Pos.compare_cont Z.eqb Pos.eqb Pos.pred_double Z.double Z.pred_double Z.succ_double]. rewrite L4, L3.
    cbn [guard andb]. fold a4 a3. apply f_equal. apply f_equal2.
    + unfold c, z2, z1, Rdiv. ring.
    + change (-15)%R with (- (15))%R. rewrite Rpower_Ropp. rewrite <- (p2 15) by lia. change (IZR (2 ^ 15)) with 32768%R. change (IZR (2 ^ 10)) with 1024%R. field.
  - assert (ES : sqrt 65536 = 256%R) by (replace 65536%R with (256 * 256)%R by ring; apply sqrt_square; lra). rewrite ES.
    set (q := IZR (2 ^ 50)) in *. assert (Pq : (0 < q)%R) by (apply IZR_lt; reflexivity). set (y := (z2 / q / B)%R). assert (Y : (4 <= y <= 4.02)%R).
    { unfold y. split; apply (Rmult_le_reg_r (q * B)); try (apply Rmult_lt_0_compat; auto); replace (z2 / q / B * (q * B))%R with z2 by (field; lra); lra. }
    replace (z1 / q * z2 * (c / IZR (2 ^ LDt)) * 2 * 5 / 256 * IZR (2 ^ LDt))%R with (z1 * y * c * (10 / 256) * B)%R by (unfold y; field; lra).
    replace (IZR (2 ^ 34)) with (65536 * B)%R by (unfold B; rewrite <- mult_IZR; f_equal). rewrite <- !Rmult_assoc.
    destruct (mul_between 0.2077 a4 0.2079 0.2077 a4 0.2079) as [q1 q2]; try lra.
    destruct (mul_between _ _ _ 0.3077 a3 0.3079 q1 q2) as [q3 q4]; try lra.
    destruct (mul_between _ _ _ 0.2077 a4 0.2079 q1 q2) as [q5 q6]; try lra.
    destruct (mul_between 665 s4 665.2 _ _ _ ltac:(lra) ltac:(lra) q3 q4) as [q7 q8].
    destruct (mul_between 383 s3 385 _ _ _ ltac:(lra) ltac:(lra) q5 q6) as [q9 q10].
    assert (CB : (29.9 <= c <= 30.1)%R) by (unfold c; lra).
    destruct (mul_between 181 z1 181.1 4 y 4.02) as [q11 q12]; try lra.
    destruct (mul_between _ _ _ 29.9 c 30.1 q11 q12) as [q13 q14]; try lra.
    split; apply Rmult_le_compat_r; lra.
Qed.
(** With Delta~ = 2^34 the error that design_delta_tilde_lattigo.cpp prints as expected is below the wanted one, and with 2^33 it is not *)
Theorem C99_lattigo : exists e w, design_delta_tilde_lattigo 16 192 60 50 34 [4; 4; 4; 3] = Ok (e, w) /\ (0.0128 <= e <= 0.0131)%R /\ w = 0.015625%R /\
  forall t, 0 <= t < 34 -> exists e', design_delta_tilde_lattigo 16 192 60 50 t [4; 4; 4; 3] = Ok (e', w) /\ (w < e')%R.
Proof.
  assert (P34 : (0 < IZR (2 ^ 34))%R) by (apply IZR_lt; reflexivity).
  destruct (lattigo_error 34 ltac:(lia)) as (e & w & E & W & B1 & B2). exists e, w. split; [exact E|]. split; [split; apply (Rmult_le_reg_r (IZR (2 ^ 34))); auto|]. split; [rewrite W; lra|].
  intros t Ht. destruct (lattigo_error t ltac:(lia)) as (e' & w' & E' & W' & B1' & _). exists e'. rewrite E', W', W. split; [reflexivity|].
  assert (P : (0 < IZR (2 ^ t))%R) by (apply IZR_lt, Z.pow_pos_nonneg; lia).
  assert (P2 : (2 * IZR (2 ^ t) <= IZR (2 ^ 34))%R). { rewrite <- mult_IZR. apply IZR_le. rewrite <- Z.pow_succ_r by lia. apply Z.pow_le_mono_r; lia. }
  apply (Rmult_lt_reg_r (IZR (2 ^ t))); auto. lra.
Qed.
