(** Ring operations on coefficients act on slots. *)
From Coq Require Import ZArith List Bool Lia Reals Lra Ring Znumtheory.
From Verif Require Import Base BaseFacts Sums Util UtilFacts GSum Matrix MatrixFacts MatMulFacts DFT DFTTheory DFTFacts FFTFacts
  SpecZQ SpecPoly SpecMat Properties_Mat SpecDFT Properties_DFT SpecEnc.
Import ListNotations.
Open Scope Z_scope.

Definition HC : lawful RC := Clawful Rlawful.
Definition HR : ring_theory (@o0 RC) o1 oadd omul osub oopp eq := HC.
Add Ring RCr : HR.

Lemma slot_ext N a b j : (forall i, 0 <= i < N -> a i = b i) -> slot N a j = slot N b j.
Proof. intros H. unfold slot, evaluate. apply gsum_ext. intros k Hk. rewrite H by auto. reflexivity. Qed.
Lemma slot_add N a b j : slot N (fun i => a i + b i)%R j = (slot N a j + slot N b j)%num.
Proof.
  unfold slot, evaluate. rewrite <- (gsum_add HC). apply gsum_ext. intros k Hk. unfold real.
  replace (mk Rops (a k + b k)%R 0%R : RC) with ((mk Rops (a k) 0%R : RC) + mk Rops (b k) 0%R)%num by (apply RC_eq; cbn; ring). ring.
Qed.
Lemma slot_sub N a b j : slot N (fun i => a i - b i)%R j = (slot N a j - slot N b j)%num.
Proof.
  unfold slot, evaluate. rewrite <- (gsum_sub HC). apply gsum_ext. intros k Hk. unfold real.
  replace (mk Rops (a k - b k)%R 0%R : RC) with ((mk Rops (a k) 0%R : RC) - mk Rops (b k) 0%R)%num by (apply RC_eq; cbn; ring). ring.
Qed.
Lemma slot_scale N x a j : slot N (fun i => x * a i)%R j = (real x * slot N a j)%num.
Proof.
  unfold slot, evaluate. rewrite <- (gsum_scale HC). apply gsum_ext. intros k Hk. unfold real.
  replace (mk Rops (x * a k)%R 0%R : RC) with ((mk Rops x 0%R : RC) * mk Rops (a k) 0%R)%num by (apply RC_eq; cbn; ring). ring.
Qed.

(** polynomial at exp(i pi h/N) *)
Definition at_ (N h : Z) (a : Z -> R) : RC := gsum (K := RC) N (fun k => ((mk Rops (a k) 0%R : RC) * eN N (h * k)%Z)%num).
Lemma slot_at N a j : 0 < N -> slot N a j = at_ N (5 ^ j) a.
Proof. intros. apply slot_eN. auto. Qed.
Lemma at_mod N h a : 0 < N -> at_ N (h mod (2 * N)) a = at_ N h a.
Proof.
  intros HN. unfold at_. apply gsum_ext. intros k Hk. f_equal. rewrite <- (eN_mod N (h mod (2 * N) * k)) by auto.
  rewrite Zmult_mod_idemp_l. apply eN_mod. auto.
Qed.

Lemma eN_oddN N h : 0 < N -> Z.odd h = true -> eN N (h * N) = (- (1))%num.
Proof.
  intros HN Hh. rewrite <- eN_mod by auto. apply Z.odd_spec in Hh. destruct Hh as [m ->].
  replace ((2 * m + 1) * N) with (N + m * (2 * N)) by lia. rewrite Z_mod_plus_full, eN_mod, eN_N by auto. reflexivity.
Qed.
Lemma eN_minus N h x : 0 < N -> Z.odd h = true -> eN N (h * (x - N)) = (- eN N (h * x))%num.
Proof.
  intros HN Hh. replace (h * x) with (h * (x - N) + h * N) by lia. rewrite eN_add, eN_oddN by auto. ring.
Qed.

Lemma real_sum n (f : Z -> R) : (mk Rops (gsum (K := Rops) n f) 0%R : RC) = gsum (K := RC) n (fun k => mk Rops (f k) 0%R).
Proof.
  unfold gsum. induction (Z.to_nat n) as [|k IH]; [reflexivity|]. cbn [sumn]. rewrite <- IH. apply RC_eq; cbn; ring.
Qed.

Lemma at_negconv N h a b : 0 < N -> Z.odd h = true -> at_ N h (rnegconv N a b) = (at_ N h a * at_ N h b)%num.
Proof.
  intros HN Hh. unfold at_ at 1.
  transitivity (gsum (K := RC) N (fun i => gsum (K := RC) N (fun k =>
    ((mk Rops (a k) 0%R : RC) * (mk Rops (if (k <=? i)%Z then b (i - k)%Z else (- b (N + i - k)%Z)%R) 0%R) * eN N (h * i)%Z)%num))).
  - apply gsum_ext. intros i Hi. unfold rnegconv. rewrite real_sum. rewrite <- (gsum_scale_r HC). apply gsum_ext. intros k Hk.
    f_equal. apply RC_eq; cbn; ring.
  - rewrite (gsum_swap HC). unfold at_ at 1. rewrite <- (gsum_scale_r HC). apply gsum_ext. intros k Hk. unfold at_.
    rewrite <- (gsum_scale HC).
    rewrite <- (gsum_shift HC N (- k) (fun x => ((mk Rops (a k) 0%R : RC) * eN N (h * k)%Z * ((mk Rops (b x) 0%R : RC) * eN N (h * x)%Z))%num)).
    apply gsum_ext. intros i Hi. destruct (Z.leb_spec k i).
    + rewrite Z.mod_small by lia. replace (i + - k) with (i - k) by lia. replace (h * i) with (h * k + h * (i - k)) by lia.
      rewrite eN_add. ring.
    + replace ((i + - k) mod N) with (N + i - k) by (rewrite <- (Z.mod_add (i + - k) 1 N) by lia; rewrite Z.mod_small; lia).
      replace (h * i) with (h * k + h * (N + i - k - N)) by lia. rewrite eN_add, eN_minus by auto.
      replace (mk Rops (- b (N + i - k)%Z)%R 0%R : RC) with (- (mk Rops (b (N + i - k)%Z) 0%R : RC))%num by (apply RC_eq; cbn; ring). ring.
Qed.

Lemma at_substituted N g u v h a b : 0 < N -> u * g + v * (2 * N) = 1 -> Z.odd h = true -> rsubstituted N g a b ->
  at_ N h b = at_ N (h * g) a.
Proof.
  intros HN Hu Hh Hs. unfold at_ at 1.
  assert (Hug : forall i, (u * (g * i)) mod N = i mod N).
  { intros i. replace (u * (g * i)) with (i + (- (2 * v * i)) * N) by (transitivity (i * (u * g + v * (2 * N)) - 2 * v * i * N); [rewrite Hu|]; ring). apply Z.mod_add. lia. }
  rewrite <- (gsum_reindex HC N (fun i => (g * i) mod N) (fun i => (u * i) mod N)).
  - apply gsum_ext. intros i Hi. specialize (Hs i Hi). cbv zeta in Hs.
    assert (Ej : eN N (h * g * i) = eN N (h * ((g * i) mod (2 * N)))).
    { rewrite <- eN_mod by auto. rewrite <- (eN_mod N (h * _)) by auto. rewrite Zmult_mod_idemp_r. apply f_equal. apply f_equal2; [lia|reflexivity]. }
    rewrite Ej. pose proof (Z.mod_pos_bound (g * i) (2 * N) ltac:(lia)) as Hb.
    assert (Em : (g * i) mod N = ((g * i) mod (2 * N)) mod N).
    { rewrite (Z.mul_comm 2 N). rewrite Z.rem_mul_r by lia. rewrite (Z.mul_comm N), Z.mod_add, Z.mod_mod by lia. reflexivity. }
    rewrite Em. set (j := (g * i) mod (2 * N)) in *. clearbody j. rewrite Hs. destruct (Z.ltb_spec j N).
    + rewrite Z.mod_small by lia. reflexivity.
    + replace (j mod N) with (j - N) by (rewrite <- (Z.mod_add j (-1) N) by lia; rewrite Z.mod_small; lia).
      rewrite eN_minus by auto.
      replace (mk Rops (- b (j - N)%Z)%R 0%R : RC) with (- (mk Rops (b (j - N)%Z) 0%R : RC))%num by (apply RC_eq; cbn; ring). ring.
  - intros i Hi. split; [apply Z.mod_pos_bound; auto|]. rewrite Zmult_mod_idemp_r, Hug. apply Z.mod_small. auto.
  - intros i Hi. split; [apply Z.mod_pos_bound; auto|]. rewrite Zmult_mod_idemp_r.
    replace (g * (u * i)) with (u * (g * i)) by lia. rewrite Hug. apply Z.mod_small. auto.
Qed.

Lemma odd_pow5 j : 0 <= j -> Z.odd (5 ^ j) = true.
Proof. intros Hj. destruct (five_odd j Hj) as [u ->]. replace (4 * u) with (2 * (2 * u)) by lia. rewrite Z.odd_add_mul_2. reflexivity. Qed.

Lemma slot_negconv N a b j : 0 < N -> 0 <= j -> slot N (rnegconv N a b) j = (slot N a j * slot N b j)%num.
Proof. intros. rewrite !slot_at by auto. apply at_negconv; auto using odd_pow5. Qed.

Lemma at_conj N h a : at_ N (- h) a = conjugate (at_ N h a).
Proof.
  unfold at_, conjugate, gsum, cre, cim. induction (Z.to_nat N) as [|k IH]; [apply RC_eq; cbn; ring|]. cbn [sumn]. rewrite IH.
  unfold eN, cosN, sinN. replace (- h * Z.of_nat k) with (- (h * Z.of_nat k)) by lia. rewrite opp_IZR.
  rewrite <- Ropp_mult_distr_r, cos_neg, sin_neg. apply RC_eq; cbn; ring.
Qed.

Section Pow.
Context (LOGN : Z) (HL : 2 <= LOGN <= 27).
Let N := 2 ^ LOGN.
Let n := 2 ^ (LOGN - 1).

Lemma pow5_period j : 0 <= j -> (5 ^ j) mod (2 * N) = (5 ^ (j mod n)) mod (2 * N).
Proof.
  intros Hj. assert (Hn : 0 < n) by (apply Z.pow_pos_nonneg; lia).
  assert (HNp : 0 < N) by (apply Z.pow_pos_nonneg; lia).
  destruct (five_pow2 (Z.to_nat (LOGN - 1))) as [z Ez].
  rewrite Z2Nat.id in Ez by lia. fold n in Ez. assert (E2 : N = 2 * n) by (apply N2; auto).
  assert (E1 : (5 ^ n) mod (2 * N) = 1).
  { rewrite Ez. replace (1 + 4 * n + 8 * n * z) with (1 + (1 + 2 * z) * (2 * N)) by lia. rewrite Z_mod_plus_full. apply Z.mod_small. lia. }
  rewrite (Z.div_mod j n) at 1 by lia. pose proof (Z.mod_pos_bound j n Hn). pose proof (Z.div_pos j n Hj Hn).
  rewrite Z.pow_add_r, Z.pow_mul_r by nia. rewrite <- Zmult_mod_idemp_l.
  rewrite Zpow_facts.Zpower_mod, E1 by lia. rewrite Z.pow_1_l by lia. rewrite Z.mod_1_l by lia. rewrite Z.mul_1_l. reflexivity.
Qed.
Lemma inv5 r : 0 <= r -> exists u v, u * 5 ^ r + v * (2 * N) = 1.
Proof.
  intros Hr. assert (H : rel_prime (5 ^ r) (2 * N)).
  { unfold N. rewrite <- Z.pow_succ_r by lia. apply Zpow_facts.rel_prime_Zpower; try lia.
    apply bezout_rel_prime. apply Bezout_intro with 1 (-2). lia. }
  apply rel_prime_bezout in H. destruct H as [u v E]. exists u, v. exact E.
Qed.
Lemma slot_rot a b j r : 0 <= j -> 0 <= r -> rsubstituted N (5 ^ r) a b -> slot N b j = slot N a ((j + r) mod n).
Proof.
  intros Hj Hr Hs. assert (HNp : 0 < N) by (apply Z.pow_pos_nonneg; lia). rewrite !slot_at by auto.
  destruct (inv5 r Hr) as (u & v & E). rewrite (at_substituted N (5 ^ r) u v (5 ^ j) a b) by auto using odd_pow5.
  rewrite <- Z.pow_add_r by lia. rewrite <- at_mod by auto. rewrite pow5_period by lia. apply at_mod. auto.
Qed.
Lemma slot_conj a b j : 0 <= j -> rsubstituted N (-1) a b -> slot N b j = conjugate (slot N a j).
Proof.
  intros Hj Hs. assert (HNp : 0 < N) by (apply Z.pow_pos_nonneg; lia). rewrite !slot_at by auto.
  rewrite (at_substituted N (-1) (-1) 0 (5 ^ j) a b) by (auto using odd_pow5; lia).
  replace (5 ^ j * -1) with (- 5 ^ j) by lia. apply at_conj.
Qed.
End Pow.

(** ** sizes *)
Lemma modulus_nonneg z : (0 <= modulus z)%R.
Proof. apply sqrt_pos. Qed.
Lemma modulus_add (x y : CC) : (modulus (x + y)%num <= modulus x + modulus y)%R.
Proof.
  destruct x as [x1 x2], y as [y1 y2]. unfold modulus, cre, cim. cbn.
  pose proof (triangle 0 0 (x1 + y1) (x2 + y2) x1 x2) as T. unfold dist_euc, Rsqr in T.
  replace ((0 - (x1 + y1)) * (0 - (x1 + y1)) + (0 - (x2 + y2)) * (0 - (x2 + y2)))%R with ((x1 + y1) * (x1 + y1) + (x2 + y2) * (x2 + y2))%R in T by ring.
  replace ((0 - x1) * (0 - x1) + (0 - x2) * (0 - x2))%R with (x1 * x1 + x2 * x2)%R in T by ring.
  replace ((x1 - (x1 + y1)) * (x1 - (x1 + y1)) + (x2 - (x2 + y2)) * (x2 - (x2 + y2)))%R with (y1 * y1 + y2 * y2)%R in T by ring.
  exact T.
Qed.
Lemma modulus_mul (x y : CC) : (modulus (x * y)%num = modulus x * modulus y)%R.
Proof.
  destruct x as [x1 x2], y as [y1 y2]. unfold modulus, cre, cim. cbn. rewrite <- sqrt_mult_alt by nra. f_equal. ring.
Qed.
Lemma modulus_real x : modulus (real x) = Rabs x.
Proof. unfold modulus, real, cre, cim. cbn. rewrite <- sqrt_Rsqr_abs. unfold Rsqr. f_equal. ring. Qed.
Lemma modulus_eN N k : modulus (eN N k) = 1%R.
Proof.
  unfold modulus, eN, cosN, sinN, cre, cim. cbn. set (x := (PI / IZR N * IZR k)%R). pose proof (sin2_cos2 x) as H. unfold Rsqr in H.
  rewrite Rplus_comm, H. apply sqrt_1.
Qed.
Lemma modulus_sum n (f : Z -> CC) (B : R) : 0 <= n -> (forall k, 0 <= k < n -> (modulus (f k) <= B)%R) -> (modulus (gsum n f) <= IZR n * B)%R.
Proof.
  intros Hn H. apply (gsum_ind n (fun n => (modulus (gsum n f) <= IZR n * B)%R)); auto.
  - rewrite gsum_0 by lia. unfold modulus, cre, cim. cbn. rewrite Rmult_0_l, Rplus_0_l, sqrt_0. lra.
  - intros m Hm IH. rewrite gsum_S by lia. rewrite plus_IZR. pose proof (modulus_add (gsum m f) (f m)). specialize (H m Hm). lra.
Qed.
Lemma modulus_opp (x : CC) : modulus (- x)%num = modulus x.
Proof. destruct x. unfold modulus, cre, cim. cbn. f_equal. ring. Qed.
Lemma modulus_slot N a j B : 0 < N -> (forall k, 0 <= k < N -> (Rabs (a k) <= B)%R) -> (modulus (slot N a j) <= IZR N * B)%R.
Proof.
  intros HN H. rewrite slot_eN by auto. apply modulus_sum; [lia|]. intros k Hk. rewrite modulus_mul, modulus_eN, Rmult_1_r.
  change (mk Rops (a k) 0%R) with (real (a k)). rewrite modulus_real. auto.
Qed.
