(** CoeffToSlot and SlotToCoeff on ciphertexts. *)
From Coq Require Import ZArith List Bool Lia Reals Lra Ring.
From Verif Require Import Base BaseFacts Sums ZQ ZQFacts RQ RQFacts Conv Rot Core CoreFacts Util UtilFacts GSum Matrix MatrixFacts MatMulFacts DFT DFTTheory DFTFacts FFTFacts
  SpecZQ SpecPoly SpecPolyFacts SpecScheme SpecMat Properties_Mat SpecDFT Properties_DFT SpecEnc SlotFacts
  Encode EncodeFacts Properties_Conv Properties_Core Properties_Rot Properties_Enc Properties_Plain SpecLin LinTrans LinTransFacts LinSlots Properties_Lin GroupFacts GroupSlots Bootstrap BootFacts SpecBoot.
Import ListNotations.
Open Scope Z_scope.
Add Ring RCbs : HR.

Lemma reverses_brv L j r : 0 <= L -> reverses L j r <-> r = brv (Z.to_nat L) j.
Proof.
  intros HL. pose proof (brv_range (Z.to_nat L) j) as Hr. rewrite Z2Nat.id in Hr by auto. split.
  - intros [H1 H2]. apply Z.bits_inj'. intros b Hb. destruct (Z_lt_le_dec b L).
    + rewrite H2 by auto. rewrite brv_bit by lia. f_equal. lia.
    + rewrite <- (Z.mod_small r (2 ^ L)), <- (Z.mod_small (brv _ j) (2 ^ L)) by auto. rewrite !Z.mod_pow2_bits_high by lia. reflexivity.
  - intros ->. split; [auto|]. intros b Hb. rewrite brv_bit by lia. f_equal. lia.
Qed.

(** ** the polynomial -X^(N/2) *)
Definition mhalf (N i : Z) : Z := if i =? N / 2 then -1 else 0.
Lemma cts_pti_ok LOGQ N : 1 <= LOGQ -> 0 < N -> cts_pti LOGQ N = Ok (repP LOGQ N (mhalf N)).
Proof.
  intros HQ HN. unfold cts_pti. rewrite rq_setzero_ok by (auto; try lia; apply objP_new). cbn [bind].
  assert (Hh : 0 <= N / 2 < N) by (split; [apply Z.div_pos; lia|apply Z.div_lt; lia]).
  assert (E1 : wr (rep LOGQ 0) 0 1 = Ok (raw (len LOGQ) 1)).
  { pose proof (len_bounds LOGQ HQ) as Hl. unfold rep. rewrite Z.mod_0_l by (apply Z.pow_nonzero; lia). unfold raw, wtab, wr.
    rewrite lset_tab by lia. f_equal. apply tab_ext. intros i Hi. destruct (Z.eqb_spec i 0) as [->|]; [reflexivity|].
    unfold dg. rewrite Z.div_0_l by (apply Z.pow_nonzero; lia). rewrite Z.div_small; [reflexivity|]. split; [lia|]. apply Z.pow_gt_1; lia. }
  unfold repP at 1. rewrite (pupd_tab N _ _ _ _ Hh E1). cbn [bind].
  rewrite (pupd_tab N _ (N / 2) (zq_negate LOGQ) (rep LOGQ (-1)) Hh) by (rewrite Z.eqb_refl; apply zq_negate_raw; auto).
  f_equal. apply tab_ext. intros i Hi. unfold mhalf. destruct (i =? N / 2); reflexivity.
Qed.
Lemma slot_mhalf LOGN j : 1 <= LOGN -> 0 <= j -> slot (2 ^ LOGN) (fun i => IZR (mhalf (2 ^ LOGN) i)) j = mk Rops 0%R (-1)%R.
Proof.
  intros HL Hj. set (N := 2 ^ LOGN). assert (HN : 0 < N) by (apply Z.pow_pos_nonneg; lia).
  assert (EN : N = 2 * (N / 2)).
  { unfold N. replace LOGN with (Z.succ (LOGN - 1)) by lia. rewrite Z.pow_succ_r by lia. rewrite Z.mul_comm, Z.div_mul; lia. }
  rewrite slot_at by auto. unfold at_.
  rewrite (gsum_ext _ _ (fun k => if k =? N / 2 then (- eN N (5 ^ j * (N / 2)))%num else 0%num)).
  2:{ intros k Hk. unfold mhalf. destruct (Z.eqb_spec k (N / 2)) as [->|]; apply RC_eq; cbn; ring. }
  rewrite (gsum_delta HC) by lia.
  destruct (five_odd j Hj) as [u E]. rewrite E.
  rewrite <- eN_mod by auto. replace ((1 + 4 * u) * (N / 2)) with (N / 2 + u * (2 * N)) by lia. rewrite Z_mod_plus_full, eN_mod by auto.
  replace (eN N (N / 2)) with (eN (2 * (N / 2)) (N / 2)) by (rewrite <- EN; reflexivity). rewrite eN_half by lia. apply RC_eq; cbn; ring.
Qed.

(** ** slots of integer polynomials *)
Lemma slots_ext N D a b j : (forall i, 0 <= i < N -> a i = b i) -> slots N D a j = slots N D b j.
Proof. intros H. apply slot_ext. intros i Hi. rewrite H by auto. reflexivity. Qed.
Lemma slots_add N D a b j : slots N D (fun i => a i + b i) j = (slots N D a j + slots N D b j)%num.
Proof. unfold slots. rewrite <- slot_add. apply slot_ext. intros i Hi. rewrite plus_IZR. unfold Rdiv. ring. Qed.
Lemma slots_sub N D a b j : slots N D (fun i => a i - b i) j = (slots N D a j - slots N D b j)%num.
Proof. unfold slots. rewrite <- slot_sub. apply slot_ext. intros i Hi. rewrite minus_IZR. unfold Rdiv. ring. Qed.
Lemma slots_conj LOGN D a b j : 2 <= LOGN <= 27 -> 0 <= j -> substituted (2 ^ LOGN) (-1) a b -> slots (2 ^ LOGN) D b j = conjugate (slots (2 ^ LOGN) D a j).
Proof. intros HL Hj H. unfold slots. apply (slot_conj LOGN HL (fun i => IZR (a i) / D)%R); auto. apply (div_sub LOGN). apply (real_sub LOGN). auto. Qed.
Lemma slots_mhalf LOGN D a j : 1 <= LOGN -> 0 <= j -> slots (2 ^ LOGN) D (negconv (2 ^ LOGN) a (mhalf (2 ^ LOGN))) j = (slots (2 ^ LOGN) D a j * mk Rops 0%R (-1)%R)%num.
Proof.
  intros HL Hj. rewrite <- (slot_mhalf LOGN j HL Hj). unfold slots. rewrite <- slot_negconv by (auto; apply Z.pow_pos_nonneg; lia). apply slot_ext. intros i Hi.
  rewrite real_negconv. unfold rnegconv. unfold Rdiv. rewrite Rmult_comm.
  pose proof (gsum_scale Rlawful (2 ^ LOGN) (/ D)%R (fun k => (IZR (a k) * (if (k <=? i)%Z then IZR (mhalf (2 ^ LOGN) (i - k)%Z) else - IZR (mhalf (2 ^ LOGN) (2 ^ LOGN + i - k)%Z)))%R)) as G.
  cbn [omul Rops] in G. rewrite <- G. apply (gsum_ext (K := Rops)). intros k Hk. match goal with |- @eq _ ?x ?y => change (@eq R x y) end. ring.
Qed.
Lemma slots_small N D e (E : Z) j : 0 < N -> (0 < D)%R -> (forall i, 0 <= i < N -> 2 * Z.abs (e i) <= E) -> (modulus (slots N D e j) <= IZR N * IZR E / (2 * D))%R.
Proof.
  intros HN HD H. eapply Rle_trans; [apply (modulus_slot N _ j (IZR E / (2 * D))%R HN)|].
  - intros k Hk. unfold Rdiv. rewrite Rabs_mult, (Rabs_right (/ D)) by (apply Rle_ge, Rlt_le, Rinv_0_lt_compat; auto). rewrite <- abs_IZR.
    specialize (H k Hk). apply IZR_le in H. rewrite mult_IZR in H. rewrite Rinv_mult by lra. rewrite <- Rmult_assoc. apply Rmult_le_compat_r; [apply Rlt_le, Rinv_0_lt_compat; auto|]. lra.
  - apply Req_le. unfold Rdiv. ring.
Qed.

(** ** rows of the groups *)
Lemma rprod_const k x : rprod k (fun _ => x) = (x ^ k)%R.
Proof. induction k; cbn [rprod pow]; [reflexivity|]. rewrite IHk. reflexivity. Qed.
Lemma cts_row LOGN G D : 2 <= LOGN <= 27 -> LOGN - 1 = Z.of_nat (G * D) -> ((2 * cts_factor LOGN) ^ G = Rpower 2 (- / INR D))%R.
Proof.
  intros HL E. assert (HG : (1 <= G)%nat) by nia. assert (HD : (1 <= D)%nat) by nia.
  assert (Hl : (0 < IZR (LOGN - 1))%R) by (apply IZR_lt; lia).
  assert (E1 : (2 * cts_factor LOGN = Rpower 2 (- / IZR (LOGN - 1)))%R).
  { unfold cts_factor. replace (IZR (2 ^ LOGN)) with (Rpower 2 (IZR LOGN)).
    2:{ rewrite <- (Z2Nat.id LOGN) by lia. rewrite <- INR_IZR_INZ, Rpower_pow by lra. rewrite pow_IZR. reflexivity. }
    rewrite Rpower_mult. unfold Rdiv. rewrite Rmult_1_l, <- Rpower_Ropp. rewrite <- (Rpower_1 2) at 1 by lra. rewrite <- Rpower_plus. f_equal.
    rewrite minus_IZR in *. field. lra. }
  rewrite E1. rewrite <- Rpower_pow by apply exp_pos. rewrite Rpower_mult. f_equal. rewrite E, <- INR_IZR_INZ, mult_INR.
  assert (INR G <> 0)%R by (apply not_0_INR; lia). assert (INR D <> 0)%R by (apply not_0_INR; lia). field. auto.
Qed.
Lemma cts_row_le D : (1 <= D)%nat -> (Rpower 2 (- / INR D) <= 1)%R.
Proof.
  intros HD. rewrite <- (Rpower_O 2) by lra. apply Rle_Rpower; [lra|]. assert (0 < / INR D)%R by (apply Rinv_0_lt_compat, lt_0_INR; lia). lra.
Qed.
Lemma rows_ext' (a b : nat -> R) dl z0 kp : (forall d, a d = b d) -> forall D, size_after a dl z0 kp D = size_after b dl z0 kp D /\ error_after a dl z0 kp D = error_after b dl z0 kp D.
Proof. intros H. induction D; cbn; [auto|]. destruct IHD as [-> ->]. rewrite H. auto. Qed.

(** ** the statics *)
Lemma cts_static_is LOGQ LOGN LOGDELTA G stc : 2 <= LOGN <= 27 -> cts_static LOGQ LOGN LOGDELTA G stc ->
  (match stc with Some t => Ok t | None => cts_tables LOGN end) = Ok (cts_tabs LOGN).
Proof.
  intros HL H. induction H as [|RM rnd stc st pos ct s ct0 ct1 stc' st' pos' ct0' ct1' H IH E]; [apply cts_tables_ok; auto|].
  unfold CoeffToSlot in E. rewrite IH in E. cbn [bind] in E. destruct (cts_tabs LOGN) as [U V].
  repeat match type of E with
    | bind ?x _ = _ => let v := fresh "v" in destruct x as [v| | |]; cbn [bind] in E; try discriminate E
    | (let (_, _) := ?v in _) = _ => destruct v
    end.
  inversion E; subst; reflexivity.
Qed.
Lemma stc_static_is LOGQ LOGN LOGDELTA G sts : 2 <= LOGN <= 27 -> stc_static LOGQ LOGN LOGDELTA G sts ->
  (match sts with Some t => Ok t | None => stc_tables LOGN end) = Ok (stc_tabs LOGN).
Proof.
  intros HL H. induction H as [|RM rnd sts st pos ct0 ct1 s ct_ sts' st' pos' ct' H IH E]; [apply stc_tables_ok; auto|].
  unfold SlotToCoeff in E. rewrite IH in E. cbn [bind] in E. destruct (stc_tabs LOGN) as [[[U V] U'] V'].
  repeat match type of E with
    | bind ?x _ = _ => let v := fresh "v" in destruct x as [v| | |]; cbn [bind] in E; try discriminate E
    | (let (_, _) := ?v in _) = _ => destruct v
    end.
  inversion E; subst; reflexivity.
Qed.
