(** C98: the constants printed by theorem_cts_error.cpp and example_sup_norm.cpp. *)
From Coq Require Import ZArith List Bool Lia Reals Lra Ring.
From Verif Require Import Base BaseFacts MatrixFacts.
From Verif Require Import Section4.
Open Scope Z_scope.

(** powers of two *)
Lemma p2 k : 0 <= k -> IZR (2 ^ k) = Rpower 2 (IZR k).
Proof.
  intros Hk. rewrite <- (Z2Nat.id k) at 1 2 by auto. rewrite <- INR_IZR_INZ, Rpower_pow by lra. rewrite pow_IZR. reflexivity.
Qed.
Lemma p2_sqrt x : sqrt (Rpower 2 x) = Rpower 2 (x * / 2).
Proof. rewrite <- Rpower_mult. rewrite Rpower_sqrt by apply exp_pos. reflexivity. Qed.
Lemma p2_div x y : (Rpower 2 x / Rpower 2 y = Rpower 2 (x - y))%R.
Proof. unfold Rdiv, Rminus. rewrite Rpower_plus, Rpower_Ropp. reflexivity. Qed.
Lemma p2_1 : 2%R = Rpower 2 1.
Proof. symmetry. apply Rpower_1. lra. Qed.

(** The parameters for which the programs are defined: G divides LOGN - 1 and the ints do not overflow *)
Record cts_numbers (LOGN G H D : Z) : Prop := {
  cn_D : 1 <= D; cn_G : 1 <= G; cn_LOGN : LOGN - 1 = G * D; cn_H : 0 <= H; cn_int : (H + 1) * 3 ^ G < 2 ^ 31; cn_int2 : 3 ^ G * 2 ^ LOGN < 2 ^ 31 }.

Lemma cts_constants_ok LOGN G H D : cts_numbers LOGN G H D ->
  cts_constants LOGN G H = Ok (D, 3 ^ G, (IZR D * sqrt (IZR ((H + 1) * 3 ^ G)) / 12 * Rpower 2 (1 / IZR (2 * D)))%R).
Proof.
  intros [HD HG HL HH Hi Hi2]. unfold cts_constants. assert (P3 : 0 < 3 ^ G) by (apply Z.pow_pos_nonneg; lia). assert (PN : 0 < 2 ^ LOGN) by (apply Z.pow_pos_nonneg; nia).
  destruct (Z.eqb_spec G 0); [lia|]. cbn [negb guard bind]. rewrite HL, Z.mul_comm, Z.rem_mul, Z.quot_mul by lia. rewrite Z.eqb_refl. cbn [assert_ bind].
  rewrite int_in by nia. cbn [bind]. rewrite int_in by nia. cbn [bind]. rewrite int_in by nia. cbn [bind]. destruct (Z.eqb_spec D 0); [lia|]. reflexivity.
Qed.


(** The error that theorem_cts_error.cpp prints as expected is D sqrt((H+1) 3^G)/12 * (2N)^(1/2D) N q/(Delta Delta~), and the number of its
    "sanity check", the product of the norms, is the same. *)
Theorem C98_sanity : forall LOGN G H D LOGq LOGDELTA LDt, cts_numbers LOGN G H D -> 0 <= LOGDELTA <= LOGq -> LOGq - LOGDELTA < 31 -> 0 <= LDt ->
  let N := IZR (2 ^ LOGN) in
  let v := (IZR D * sqrt (IZR ((H + 1) * 3 ^ G)) / 12 * Rpower (2 * N) (/ (2 * IZR D)) * N * (IZR (2 ^ LOGq) / IZR (2 ^ LOGDELTA)) / IZR (2 ^ LDt))%R in
  cts_expected LOGN G H LOGq LOGDELTA LDt = Ok v /\ cts_expected_check LOGN G H LOGq LOGDELTA LDt = Ok v.
Proof.
  intros LOGN G H D LOGq LOGDELTA LDt HC Hq Hq31 Ht N v. pose proof (cts_constants_ok _ _ _ _ HC) as EC. destruct HC as [HD HG HL HH Hi Hi2].
  assert (P3 : 0 < 3 ^ G) by (apply Z.pow_pos_nonneg; lia). assert (HLN : 2 <= LOGN) by nia. assert (PN : 0 < 2 ^ LOGN) by (apply Z.pow_pos_nonneg; lia).
  assert (DR : (1 <= IZR D)%R) by (apply IZR_le; lia). assert (GR : (1 <= IZR G)%R) by (apply IZR_le; lia). assert (HR : (0 <= IZR H)%R) by (apply IZR_le; lia).
  assert (HLR : (IZR LOGN = IZR G * IZR D + 1)%R) by (rewrite <- mult_IZR, <- (plus_IZR _ 1); f_equal; lia).
  set (S := sqrt (IZR ((H + 1) * 3 ^ G))). set (d := IZR D) in *. set (g := IZR G) in *.
  assert (EN : N = Rpower 2 (g * d + 1)) by (unfold N; rewrite p2 by lia; rewrite HLR; reflexivity).
  assert (DV : forall x y, (x / Rpower 2 y = x * Rpower 2 (- y))%R) by (intros; rewrite Rpower_Ropp; reflexivity).
  assert (EV : v = (d * S / 12 * Rpower 2 ((g * d + 2) * / (2 * d) + (g * d + 1) + (IZR LOGq - IZR LOGDELTA) - IZR LDt))%R).
  { unfold v. fold S. rewrite !p2 by lia. rewrite p2_div. fold N. rewrite EN. replace (2 * Rpower 2 (g * d + 1))%R with (Rpower 2 (g * d + 2)) by (replace (g * d + 2)%R with (1 + (g * d + 1))%R by ring; rewrite Rpower_plus, <- p2_1; reflexivity).
    rewrite Rpower_mult. fold d. rewrite DV. rewrite !Rmult_assoc. unfold Rminus. rewrite !Rpower_plus. fold S. unfold Rdiv. ring. }
  split.
  - unfold cts_expected. rewrite EC. cbn [bind]. destruct (Z.leb_spec 0 (LOGq - LOGDELTA)); [|lia]. destruct (Z.ltb_spec (LOGq - LOGDELTA) 31); [|lia]. cbn [andb guard bind]. f_equal. fold S N.
    rewrite EV, EN, Rpower_mult. rewrite mult_IZR. fold d. rewrite !p2 by lia. rewrite minus_IZR. rewrite DV.
    replace ((g * d + 2) * / (2 * d) + (g * d + 1) + (IZR LOGq - IZR LOGDELTA) - IZR LDt)%R with (1 / (2 * d) + - IZR LDt + (g * d + 1) * (1 + 1 / (2 * d)) + (IZR LOGq - IZR LOGDELTA))%R by (field; lra).
    unfold Rminus. rewrite !Rpower_plus. fold d. unfold Rdiv. ring.
  - unfold cts_expected_check. rewrite EC. cbn [bind]. cbv zeta. rewrite int_in by nia. cbn [bind]. f_equal. rewrite EV. fold d g N.
    replace (Z.quot (2 ^ LOGN) 2) with (2 ^ (LOGN - 1)). 2:{ replace LOGN with (LOGN - 1 + 1) at 2 by lia. rewrite Z.pow_add_r, Z.quot_mul by lia. reflexivity. }
    assert (Q : forall k, 0 <= k -> (0 < IZR (2 ^ k))%R) by (intros k Hk; apply IZR_lt, Z.pow_pos_nonneg; lia). pose proof (Q LOGq ltac:(lia)) as Qq. pose proof (Q LOGN ltac:(lia)) as QN. fold N in QN.
    assert (P3R : (0 < IZR (3 ^ G))%R) by (apply IZR_lt; lia).
    assert (HP : (0 <= (IZR H + 1) / 12)%R) by lra. assert (TP : (0 <= IZR (3 ^ G) / 12)%R) by lra.
    assert (E1 : (sqrt ((IZR H + 1) / 12 * IZR (2 ^ LOGq) * IZR (2 ^ LOGq) * N) = sqrt ((IZR H + 1) / 12) * IZR (2 ^ LOGq) * sqrt N)%R).
    { rewrite (Rmult_assoc ((IZR H + 1) / 12)). rewrite sqrt_mult_alt by nra. rewrite sqrt_mult_alt by lra. rewrite sqrt_square by lra. reflexivity. }
    rewrite E1. rewrite mult_IZR. fold N.
    assert (E2 : (sqrt (IZR (3 ^ G) * N / 12) = sqrt (IZR (3 ^ G) / 12) * sqrt N)%R) by (rewrite <- sqrt_mult_alt by lra; f_equal; field).
    rewrite E2.
    assert (E3 : (sqrt ((IZR H + 1) / 12) * sqrt (IZR (3 ^ G) / 12) = S / 12)%R).
    { rewrite <- sqrt_mult_alt by lra. unfold S. rewrite mult_IZR, plus_IZR. replace ((IZR H + 1) / 12 * (IZR (3 ^ G) / 12))%R with ((IZR H + 1) * IZR (3 ^ G) * (/ 12 * / 12))%R by field.
      rewrite sqrt_mult_alt by nra. rewrite sqrt_square by lra. reflexivity. }
    assert (LR : IZR (LOGN - 1) = (g * d)%R) by (rewrite HL, mult_IZR; reflexivity). rewrite LR, minus_IZR. fold d.
    rewrite (p2 (LOGN - 1)), (p2 LOGq), (p2 LOGDELTA), (p2 LDt) by lia. rewrite LR, EN.
    replace (sqrt 2) with (sqrt (Rpower 2 1)) by (rewrite <- p2_1; reflexivity). rewrite !p2_sqrt. rewrite !Rpower_mult, (p2_div (1 * / 2)), !Rpower_mult.
    transitivity (d * (sqrt ((IZR H + 1) / 12) * sqrt (IZR (3 ^ G) / 12)) * (Rpower 2 (g * d * / 2) / Rpower 2 (IZR LOGDELTA) * Rpower 2 (IZR LOGq) * Rpower 2 ((g * d + 1) * / 2) * Rpower 2 ((g * d + 1) * / 2) / Rpower 2 (IZR LDt) * Rpower 2 ((1 * / 2 - (g * d + 1) * (1 / (g * d))) * (g * (d - 1))) * Rpower 2 1))%R.
    { rewrite <- p2_1. unfold Rdiv. ring. }
    rewrite E3. unfold Rdiv at 1. rewrite !DV. rewrite <- !Rpower_plus. unfold Rdiv. rewrite !Rmult_assoc. do 4 f_equal. field. nra.
Qed.

(** The programs' own parameters: H = 128 and q/Delta = 2^10 of rns.h *)
Example C98_case : cts_numbers 9 2 128 4 /\ cts_numbers 13 3 128 4 /\ cts_numbers 17 4 128 4.
Proof. repeat split; vm_compute; congruence. Qed.

(** The norm of z_amb the program prints as expected is not that of its sanity check: it divides the int H+1 by 12, so that it uses 10 instead
    of 129/12 = 10.75 and prints less than 97 % of it *)
Definition z_amb_norm LOGN H LOGq LOGDELTA := (sqrt (IZR (2 ^ (LOGN - 1))) / IZR (2 ^ LOGDELTA) * sqrt ((IZR H + 1) / 12 * IZR (2 ^ LOGq) * IZR (2 ^ LOGq) * IZR (2 ^ LOGN)))%R.
Theorem C98_z_amb_refuted : exists LOGN H LOGq LOGDELTA, LOGN = 9 /\ H = 128 /\ (z_amb_expected LOGN H LOGq LOGDELTA < 0.97 * z_amb_norm LOGN H LOGq LOGDELTA)%R.
Proof.
  exists 9, 128, 54, 44. split; [reflexivity|]. split; [reflexivity|]. unfold z_amb_expected, z_amb_norm. cbv zeta.
  set (q := IZR (2 ^ 54)). set (N := IZR (2 ^ 9)). set (D := IZR (2 ^ 44)).
  assert (Pq : (0 < q)%R) by (apply IZR_lt; reflexivity). assert (PN : (0 < N)%R) by (apply IZR_lt; reflexivity). assert (PD : (0 < D)%R) by (apply IZR_lt; reflexivity).
  change (Z.quot (2 ^ 9) 2) with (2 ^ (9 - 1)). change (Z.quot (128 + 1) 12) with 10. set (M := IZR (2 ^ (9 - 1))). assert (PM : (0 < M)%R) by (apply IZR_lt; reflexivity).
  assert (PX : (0 < q * q * N)%R) by (assert (0 < q * q)%R by nra; nra).
  replace (10 * q * q * N)%R with (10 * (q * q * N))%R by ring. replace ((128 + 1) / 12 * q * q * N)%R with ((128 + 1) / 12 * (q * q * N))%R by ring.
  rewrite (sqrt_mult_alt 10) by lra. rewrite (sqrt_mult_alt ((128 + 1) / 12)) by lra.
  assert (A : (sqrt 10 < 0.97 * sqrt ((128 + 1) / 12))%R).
  { replace (0.97)%R with (sqrt (0.97 * 0.97)) by (apply sqrt_square; lra). rewrite <- sqrt_mult_alt by lra. apply sqrt_lt_1_alt. lra. }
  assert (S1 : (0 < sqrt (q * q * N))%R) by (apply sqrt_lt_R0; auto). assert (S2 : (0 < sqrt M / D)%R) by (apply Rdiv_lt_0_compat; auto; apply sqrt_lt_R0; auto).
  replace (0.97 * (sqrt M / D * (sqrt ((128 + 1) / 12) * sqrt (q * q * N))))%R with (sqrt M / D * (0.97 * sqrt ((128 + 1) / 12) * sqrt (q * q * N)))%R by ring.
  apply Rmult_lt_compat_l; [exact S2|]. apply Rmult_lt_compat_r; assumption.
Qed.
