(** The rounding of IEEE 754 double precision: to nearest, halves to even.  It meets the record [arithmetic]. *)
From Coq Require Import ZArith Lia Reals Lra.
From Verif Require Import Base Util UtilFacts PiBound SpecEnc EncodeFacts.
From Verif Require Import Float SpecFloat FloatError.
Open Scope R_scope.

(** the nearest integer, of two the even one *)
Definition rhe (y : R) : Z :=
  let f := Int_part y in
  if Rlt_dec (y - IZR f) (/ 2) then f else if Rlt_dec (/ 2) (y - IZR f) then (f + 1)%Z else if Z.even f then f else (f + 1)%Z.
(** the exponent e with 2^e <= |x| < 2^(e+1) *)
Definition bexp (x : R) : Z := Int_part (ln (Rabs x) / ln 2).
(** distance between doubles near x: 2^(e-52), but 2^-1074 for subnormal numbers *)
Definition grid (x : R) : Z := Z.max (bexp x - 52) (-1074).
Definition fl64 (x : R) : R := if Req_EM_T x 0 then 0 else IZR (rhe (x * powerRZ 2 (- grid x))) * powerRZ 2 (grid x).
(** A machine with this rounding, the PI of util.h:11, and library functions that return the double nearest to the cosine and the sine *)
Definition F64 : fpu := mkfpu fl64 (fl64 (IZR 31415926535897932384626433 / IZR (10 ^ 25))) (fun x => fl64 (cos x)) (fun x => fl64 (sin x)).

(** 2^-53, half the smallest subnormal number, and a bound on the arguments considered; two units in the last place below 1 for cos, sin *)
Definition u64 : R := powerRZ 2 (-53).
Definition eta64 : R := powerRZ 2 (-1075).
Definition top64 : R := powerRZ 2 1023.
Definition t64 : R := powerRZ 2 (-52).

Lemma Int_part_bounds y : IZR (Int_part y) <= y < IZR (Int_part y) + 1.
Proof. pose proof (base_Int_part y). lra. Qed.
Lemma rhe_near y : Rabs (IZR (rhe y) - y) <= / 2.
Proof.
  pose proof (Int_part_bounds y) as H. unfold rhe. destruct (Rlt_dec _ _) as [A|A]; [apply Rabs_le; lra|].
  destruct (Rlt_dec _ _) as [B|B]; [rewrite plus_IZR; apply Rabs_le; lra|]. destruct (Z.even _); [|rewrite plus_IZR]; apply Rabs_le; lra.
Qed.
Lemma rhe_near_unique y z : Rabs (IZR z - y) < / 2 -> rhe y = z.
Proof.
  intros H. pose proof (rhe_near y) as H2. apply Rabs_def2 in H. apply abs_le in H2.
  assert (A : (-1 < rhe y - z < 1)%Z). { split; apply lt_IZR; rewrite minus_IZR; lra. } lia.
Qed.
Lemma rhe_IZR z : rhe (IZR z) = z.
Proof. apply rhe_near_unique. rewrite Rminus_diag_eq, Rabs_R0 by reflexivity. lra. Qed.

Lemma p2_pos k : 0 < powerRZ 2 k.
Proof. apply powerRZ_lt. lra. Qed.
Lemma p2_add a b : powerRZ 2 (a + b) = powerRZ 2 a * powerRZ 2 b.
Proof. apply powerRZ_add. lra. Qed.
Lemma p2_inv k : powerRZ 2 (- k) * powerRZ 2 k = 1.
Proof. rewrite <- p2_add. replace (- k + k)%Z with 0%Z by lia. reflexivity. Qed.
Lemma p2_le a b : (a <= b)%Z -> powerRZ 2 a <= powerRZ 2 b.
Proof.
  intros H. replace b with (a + (b - a))%Z by lia. rewrite p2_add. pose proof (p2_pos a). rewrite <- (Rmult_1_r (powerRZ 2 a)) at 1. apply Rmult_le_compat_l; [lra|].
  rewrite powerRZ_2 by lia. apply IZR_le. pose proof (Z.pow_pos_nonneg 2 (b - a)). lia.
Qed.
Lemma p2_lt_inv a b : powerRZ 2 a < powerRZ 2 b -> (a < b)%Z.
Proof. intros H. destruct (Z.lt_ge_cases a b) as [|C]; auto. apply p2_le in C. lra. Qed.

Lemma bexp_bounds x : x <> 0 -> powerRZ 2 (bexp x) <= Rabs x < powerRZ 2 (bexp x + 1).
Proof.
  intros Hx. assert (H0 : 0 < Rabs x) by (apply Rabs_pos_lt; auto). assert (L2 : 0 < ln 2) by (rewrite <- ln_1; apply ln_increasing; lra).
  pose proof (Int_part_bounds (ln (Rabs x) / ln 2)) as [H1 H2]. fold (bexp x) in H1, H2.
  assert (E : ln (Rabs x) = ln (Rabs x) / ln 2 * ln 2) by (field; lra).
  rewrite !powerRZ_Rpower by lra. unfold Rpower. rewrite <- (exp_ln (Rabs x)) by auto. split.
  - destruct (Rle_lt_or_eq_dec _ _ H1) as [A|A].
    + apply Rlt_le, exp_increasing. rewrite E. apply Rmult_lt_compat_r; auto.
    + rewrite E, <- A. lra.
  - apply exp_increasing. rewrite E. apply Rmult_lt_compat_r; auto. rewrite plus_IZR. auto.
Qed.
Lemma bexp_unique x e : powerRZ 2 e <= Rabs x < powerRZ 2 (e + 1) -> bexp x = e.
Proof.
  intros H. assert (Hx : x <> 0). { intros ->. rewrite Rabs_R0 in H. pose proof (p2_pos e). lra. }
  pose proof (bexp_bounds x Hx) as H'. assert (bexp x < e + 1)%Z by (apply p2_lt_inv; lra). assert (e < bexp x + 1)%Z by (apply p2_lt_inv; lra). lia.
Qed.

Lemma fl64_near x : Rabs (fl64 x - x) <= powerRZ 2 (grid x) / 2.
Proof.
  unfold fl64. pose proof (p2_pos (grid x)) as Hg. destruct (Req_EM_T x 0) as [->|Hx]; [rewrite Rminus_0_r, Rabs_R0; lra|].
  pose proof (p2_inv (grid x)) as HI. set (g := powerRZ 2 (grid x)) in *. set (gi := powerRZ 2 (- grid x)) in *.
  replace (IZR (rhe (x * gi)) * g - x) with ((IZR (rhe (x * gi)) - x * gi) * g) by (rewrite Rmult_minus_distr_r, (Rmult_assoc x), HI; ring).
  rewrite Rabs_mult, (Rabs_right g) by lra. replace (g / 2) with (/ 2 * g) by lra. apply Rmult_le_compat_r; [lra|]. apply rhe_near.
Qed.
Lemma fl64_0 : fl64 0 = 0.
Proof. unfold fl64. destruct (Req_EM_T 0 0); [reflexivity|contradiction]. Qed.
Lemma fl64_err x : Rabs (fl64 x - x) <= u64 * Rabs x + eta64.
Proof.
  destruct (Req_EM_T x 0) as [->|Hx].
  - rewrite fl64_0, Rminus_0_r, Rabs_R0. pose proof (p2_pos (-1075)). unfold eta64. lra.
  - pose proof (bexp_bounds x Hx) as [H _]. eapply Rle_trans; [apply fl64_near|]. pose proof (p2_pos (-1075)) as P1. pose proof (p2_pos (-53)) as P2. fold eta64 in P1. fold u64 in P2.
    assert (M : u64 * powerRZ 2 (bexp x) <= u64 * Rabs x) by (apply Rmult_le_compat_l; lra). pose proof (p2_pos (bexp x)). assert (0 < u64 * powerRZ 2 (bexp x)) by (apply Rmult_lt_0_compat; lra).
    unfold grid. destruct (Z.max_spec (bexp x - 52) (-1074)) as [[_ ->]|[_ ->]].
    + replace (powerRZ 2 (-1074) / 2) with eta64; [lra|]. unfold eta64. change (-1074)%Z with (-1075 + 1)%Z. rewrite p2_add. change (powerRZ 2 1) with (2 * 1). field.
    + replace (powerRZ 2 (bexp x - 52) / 2) with (u64 * powerRZ 2 (bexp x)); [lra|]. unfold u64. rewrite <- p2_add. replace (bexp x - 52)%Z with (-53 + bexp x + 1)%Z by lia. rewrite (p2_add (-53 + bexp x)). change (powerRZ 2 1) with (2 * 1). field.
Qed.
(** numbers of 53 bits are kept *)
Lemma fl64_exact m k : (Z.abs m < 2 ^ 53)%Z -> (-1074 <= k)%Z -> fl64 (IZR m * powerRZ 2 k) = IZR m * powerRZ 2 k.
Proof.
  intros Hm Hk. set (x := IZR m * powerRZ 2 k). unfold fl64. destruct (Req_EM_T x 0) as [->|Hx]; auto.
  pose proof (bexp_bounds x Hx) as [H _]. pose proof (p2_pos k) as Pk.
  assert (Hg : (grid x <= k)%Z).
  { unfold grid. apply Z.max_lub; auto. assert (A : powerRZ 2 (bexp x) < powerRZ 2 (53 + k)).
    { eapply Rle_lt_trans; [exact H|]. unfold x. rewrite Rabs_mult, (Rabs_right (powerRZ 2 k)) by lra. rewrite p2_add. apply Rmult_lt_compat_r; auto.
      rewrite powerRZ_2 by lia. rewrite <- abs_IZR. apply IZR_lt. lia. }
    apply p2_lt_inv in A. lia. }
  assert (E : x * powerRZ 2 (- grid x) = IZR (m * 2 ^ (k - grid x))).
  { unfold x. rewrite Rmult_assoc, <- p2_add. fold x. rewrite mult_IZR. rewrite <- powerRZ_2 by lia. f_equal. }
  rewrite E, rhe_IZR, <- E. rewrite Rmult_assoc, p2_inv. ring.
Qed.
Lemma fl64_int m k : (Z.abs m <= 2 ^ 53)%Z -> (0 <= k)%Z -> fl64 (IZR m * IZR (2 ^ k)) = IZR m * IZR (2 ^ k).
Proof.
  intros Hm Hk. rewrite <- powerRZ_2 by auto. assert (C : (Z.abs m < 2 ^ 53 \/ Z.abs m = 2 ^ 53)%Z) by lia. destruct C as [C|C]; [apply fl64_exact; lia|].
  assert (E : IZR m * powerRZ 2 k = IZR (m / 2) * powerRZ 2 (k + 1)).
  { assert (m = 2 ^ 53 \/ m = - 2 ^ 53)%Z as [->| ->] by lia; rewrite (p2_add k 1); change (powerRZ 2 1) with (2 * 1); [change (2 ^ 53 / 2)%Z with 4503599627370496%Z; change (2 ^ 53)%Z with 9007199254740992%Z|change (- 2 ^ 53 / 2)%Z with (-4503599627370496)%Z; change (- 2 ^ 53)%Z with (-9007199254740992)%Z]; lra. }
  rewrite E. apply fl64_exact; [|lia]. assert (m = 2 ^ 53 \/ m = - 2 ^ 53)%Z as [->| ->] by lia; reflexivity.
Qed.

Lemma p2_small k : (k <= -10)%Z -> 0 <= powerRZ 2 k <= / 1024.
Proof. intros H. split; [apply Rlt_le, p2_pos|]. apply p2_le in H. replace (powerRZ 2 (-10)) with (/ 1024) in H; auto. change (-10)%Z with (Z.opp 10). rewrite powerRZ_neg', powerRZ_2 by lia. reflexivity. Qed.

(** Double precision meets the assumptions. *)
Theorem arithmetic64 : arithmetic u64 eta64 top64 t64 (rnd F64) (dpi F64) (lcos F64) (lsin F64).
Proof.
  assert (EU : u64 + eta64 <= t64).
  { unfold t64. change (-52)%Z with (-53 + 1)%Z. rewrite p2_add. change (powerRZ 2 1) with (2 * 1). fold u64. assert (eta64 <= u64) by (apply p2_le; lia). lra. }
  assert (LT : forall y, Rabs y <= 1 -> Rabs (fl64 y - y) <= t64).
  { intros y Hy. eapply Rle_trans; [apply fl64_err|]. pose proof (p2_pos (-53)) as P. fold u64 in P. assert (u64 * Rabs y <= u64 * 1) by (apply Rmult_le_compat_l; lra). lra. }
  split; cbn [rnd dpi lcos lsin F64].
  - apply p2_small. lia.
  - apply p2_small. lia.
  - apply p2_small. lia.
  - unfold top64. apply Rle_trans with (powerRZ 2 3); [rewrite powerRZ_2 by lia; change (2 ^ 3)%Z with 8%Z; lra|apply p2_le; lia].
  - intros x _. apply fl64_err.
  - intros m k Hm Hk _. apply fl64_int; auto.
  - pose proof PI_bounds as [P1 P2]. set (p := IZR 31415926535897932384626433 / IZR (10 ^ 25)) in *.
    assert (Hp : 3 < p < 4). { unfold p. change (10 ^ 25)%Z with 10000000000000000000000000%Z. lra. }
    assert (Eb : bexp p = 1%Z). { apply bexp_unique. rewrite Rabs_right by lra. change (powerRZ 2 (1 + 1)) with (2 * (2 * 1)). change (powerRZ 2 1) with (2 * 1). lra. }
    pose proof (fl64_near p) as H. unfold grid in H. rewrite Eb in H. change (Z.max (1 - 52) (-1074)) with (-51)%Z in H.
    change (-51)%Z with (-53 + 2)%Z in H. rewrite p2_add in H. change (powerRZ 2 2) with (2 * (2 * 1)) in H. fold u64 in H.
    assert (D : PI - p < / 10 * u64).
    { assert (EQ : u64 = / IZR (2 ^ 53)) by (unfold u64; change (-53)%Z with (Z.opp 53); rewrite powerRZ_neg', powerRZ_2 by lia; reflexivity). rewrite EQ.
      unfold p in *. change (10 ^ 25)%Z with 10000000000000000000000000%Z in *. change (2 ^ 53)%Z with 9007199254740992%Z. lra. }
    assert (U3 : u64 * 3 <= u64 * PI). { apply Rmult_le_compat_l; [apply Rlt_le, p2_pos|lra]. }
    apply abs_le in H. apply Rabs_le. lra.
  - intros x _. apply LT. pose proof (COS_bound x). apply Rabs_le. lra.
  - intros x _. apply LT. pose proof (SIN_bound x). apply Rabs_le. lra.
Qed.
