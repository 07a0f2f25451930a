(** Decimation-in-time factorisation of the transform at the roots of index 5^j, over any commutative ring with a
    system of roots of unity [e]. *)
From Coq Require Import ZArith List Bool Lia Ring.
From Verif Require Import Base BaseFacts UtilFacts GSum.
Open Scope Z_scope.

(** ** 5^(2^t) modulo 8*2^t *)
Lemma five_pow2 (t : nat) : exists z, 5 ^ (2 ^ Z.of_nat t) = 1 + 4 * 2 ^ Z.of_nat t + 8 * 2 ^ Z.of_nat t * z.
Proof.
  induction t as [|t [z IH]].
  - exists 0. reflexivity.
  - rewrite Nat2Z.inj_succ, Z.pow_succ_r by lia. set (M := 2 ^ Z.of_nat t) in *.
    assert (0 < M) by (unfold M; apply Z.pow_pos_nonneg; lia).
    replace (2 * M) with (M + M) by lia. rewrite Z.pow_add_r by lia. rewrite IH.
    exists (M + 4 * M * z * z + z + 4 * M * z). ring.
Qed.
Lemma five_odd j : 0 <= j -> exists u, 5 ^ j = 1 + 4 * u.
Proof.
  intros Hj. pattern j. apply natlike_ind; auto.
  - exists 0. reflexivity.
  - intros x Hx [u E]. exists (1 + 5 * u). rewrite Z.pow_succ_r, E by auto. lia.
Qed.
Lemma five_shift (t : nat) j : 0 <= j -> exists z, 5 ^ (j + 2 ^ Z.of_nat t) = 5 ^ j + 4 * 2 ^ Z.of_nat t + 8 * 2 ^ Z.of_nat t * z.
Proof.
  intros Hj. destruct (five_pow2 t) as [z E]. destruct (five_odd j Hj) as [u Eu].
  assert (0 < 2 ^ Z.of_nat t) by (apply Z.pow_pos_nonneg; lia).
  exists (2 * u + 5 ^ j * z). rewrite Z.pow_add_r, E by lia. rewrite Eu. ring.
Qed.

Lemma p2S (t : nat) : 2 ^ Z.of_nat (S t) = 2 * 2 ^ Z.of_nat t.
Proof. rewrite Nat2Z.inj_succ, Z.pow_succ_r by lia. reflexivity. Qed.
Lemma p2p (t : nat) : 0 < 2 ^ Z.of_nat t.
Proof. apply Z.pow_pos_nonneg; lia. Qed.

(** positions in a block *)
Lemma blk_low M p : 0 < M -> p mod (2 * M) < M -> (p + M) mod (2 * M) = p mod (2 * M) + M.
Proof.
  intros HM H. pose proof (Z.mod_pos_bound p (2 * M) ltac:(lia)). rewrite <- Zplus_mod_idemp_l. apply Z.mod_small. lia.
Qed.
Lemma blk_high M p : 0 < M -> M <= p mod (2 * M) -> (p - M) mod (2 * M) = p mod (2 * M) - M.
Proof.
  intros HM H. pose proof (Z.mod_pos_bound p (2 * M) ltac:(lia)). rewrite <- Zminus_mod_idemp_l. apply Z.mod_small. lia.
Qed.
Lemma blk_up M p : 0 < M -> (p + M) mod M = p mod M.
Proof. intros. replace (p + M) with (p + 1 * M) by lia. apply Z.mod_add. lia. Qed.
Lemma blk_down M p : 0 < M -> (p - M) mod M = p mod M.
Proof. intros. replace (p - M) with (p + (-1) * M) by lia. apply Z.mod_add. lia. Qed.

Section Theory.
Context {K : ops} (HK : lawful K).
Let HR : ring_theory (@o0 K) o1 oadd omul osub oopp eq := HK.
Let HC : ring_theory (@o0 (Cops K)) o1 oadd omul osub oopp eq := Clawful HK.
Add Ring Kdf : HR.
Add Ring Cdf : HC.
Notation C := (Cops K).
Notation conj := (cconj K : C -> C).

Definition stage (M : Z) (w x : Z -> C) (p : Z) : C :=
  if p mod (2 * M) <? M then (x p + w (p mod M)%Z * x (p + M)%Z)%num else (x (p - M)%Z - w (p mod M)%Z * x p)%num.
Definition istage (M : Z) (w y : Z -> C) (p : Z) : C :=
  if p mod (2 * M) <? M then (y p + y (p + M)%Z)%num else (conj (w (p mod M)%Z) * (y (p - M)%Z - y p))%num.

Lemma stage_ext M w x x' p : (forall p, x p = x' p) -> stage M w x p = stage M w x' p.
Proof. intros H. unfold stage. rewrite !H. reflexivity. Qed.
Lemma istage_ext M w x x' p : (forall p, x p = x' p) -> istage M w x p = istage M w x' p.
Proof. intros H. unfold istage. rewrite !H. reflexivity. Qed.
Lemma stage_scale M w a x p : stage M w (fun p => a * x p)%num p = (a * stage M w x p)%num.
Proof. unfold stage. destruct (_ <? _); ring. Qed.
Lemma istage_scale M w a x p : istage M w (fun p => a * x p)%num p = (a * istage M w x p)%num.
Proof. unfold istage. destruct (_ <? _); ring. Qed.

Definition unitary (M : Z) (w : Z -> C) := forall i, 0 <= i < M -> (conj (w i) * w i)%num = 1%num.

Lemma istage_stage M w x p : 0 < M -> unitary M w -> istage M w (stage M w x) p = ((1 + 1) * x p)%num.
Proof.
  intros HM Hw. unfold istage. destruct (Z.ltb_spec (p mod (2 * M)) M) as [H|H].
  - unfold stage. rewrite (blk_low M p HM H). destruct (Z.ltb_spec (p mod (2 * M)) M); [|lia].
    pose proof (Z.mod_pos_bound p (2 * M) ltac:(lia)).
    destruct (Z.ltb_spec (p mod (2 * M) + M) M); [lia|]. rewrite blk_up by auto. replace (p + M - M) with p by lia. ring.
  - unfold stage. rewrite (blk_high M p HM H). destruct (Z.ltb_spec (p mod (2 * M)) M); [lia|].
    pose proof (Z.mod_pos_bound p (2 * M) ltac:(lia)).
    destruct (Z.ltb_spec (p mod (2 * M) - M) M); [|lia]. rewrite blk_down by auto. replace (p - M + M) with p by lia.
    transitivity ((conj (w (p mod M)%Z) * w (p mod M)%Z) * ((1 + 1) * x p))%num; [ring|].
    rewrite Hw by (apply Z.mod_pos_bound; auto). ring.
Qed.

Lemma stage_istage M w y p : 0 < M -> unitary M w -> stage M w (istage M w y) p = ((1 + 1) * y p)%num.
Proof.
  intros HM Hw. unfold stage. destruct (Z.ltb_spec (p mod (2 * M)) M) as [H|H].
  - unfold istage. rewrite (blk_low M p HM H). destruct (Z.ltb_spec (p mod (2 * M)) M); [|lia].
    pose proof (Z.mod_pos_bound p (2 * M) ltac:(lia)).
    destruct (Z.ltb_spec (p mod (2 * M) + M) M); [lia|]. rewrite blk_up by auto. replace (p + M - M) with p by lia.
    transitivity (y p + y (p + M)%Z + (conj (w (p mod M)%Z) * w (p mod M)%Z) * (y p - y (p + M)%Z))%num; [ring|].
    rewrite Hw by (apply Z.mod_pos_bound; auto). ring.
  - unfold istage. rewrite (blk_high M p HM H). destruct (Z.ltb_spec (p mod (2 * M)) M); [lia|].
    pose proof (Z.mod_pos_bound p (2 * M) ltac:(lia)).
    destruct (Z.ltb_spec (p mod (2 * M) - M) M); [|lia]. rewrite ?blk_down by auto. replace (p - M + M) with p by lia.
    transitivity (y (p - M)%Z + y p - (conj (w (p mod M)%Z) * w (p mod M)%Z) * (y (p - M)%Z - y p))%num; [ring|].
    rewrite Hw by (apply Z.mod_pos_bound; auto). ring.
Qed.

(** ** adjointness *)
Lemma pair_sum M c (h : Z -> C) : 0 < M -> 0 <= c ->
  gsum (2 * M * c) h = gsum (2 * M * c) (fun p => if p mod (2 * M) <? M then (h p + h (p + M)%Z)%num else 0%num).
Proof.
  intros HM Hc. pattern c. apply natlike_ind; auto.
  - rewrite Z.mul_0_r. rewrite !gsum_0 by lia. reflexivity.
  - intros x Hx IH. replace (2 * M * Z.succ x) with (2 * M * x + 2 * M) by lia.
    rewrite !(gsum_split (Clawful HK)) by nia. rewrite IH. f_equal.
    replace (@gsum (Cops K) (2 * M)) with (@gsum (Cops K) (M + M)) by (f_equal; lia). rewrite !(gsum_split (Clawful HK)) by lia.
    rewrite (gsum_zero (Clawful HK) M (fun i => if (2 * M * x + (M + i)) mod (2 * M) <? M then _ else _)).
    2:{ intros i Hi. replace (2 * M * x + (M + i)) with (M + i + x * (2 * M)) by lia. rewrite Z.mod_add, Z.mod_small by lia.
        destruct (Z.ltb_spec (M + i) M); [lia|reflexivity]. }
    rewrite (gsum_ext M (fun i => if (2 * M * x + i) mod (2 * M) <? M then _ else _)
       (fun i => h (2 * M * x + i)%Z + h (2 * M * x + (M + i))%Z)%num).
    + rewrite (gsum_add (Clawful HK)). ring.
    + intros i Hi. replace (2 * M * x + i) with (i + x * (2 * M)) at 1 by lia. rewrite Z.mod_add, Z.mod_small by lia.
      destruct (Z.ltb_spec i M); [|lia]. do 2 f_equal. lia.
Qed.

Lemma one_l (a : C) : (1 * a)%num = a.
Proof. ring. Qed.
Lemma conj_conj (a : C) : conj (conj a) = a.
Proof. apply c_eq; unfold cre, cim; cbn; ring. Qed.
Lemma conj_add (a b : C) : conj (a + b)%num = (conj a + conj b)%num.
Proof. apply c_eq; unfold cre, cim; cbn; ring. Qed.
Lemma conj_sub (a b : C) : conj (a - b)%num = (conj a - conj b)%num.
Proof. apply c_eq; unfold cre, cim; cbn; ring. Qed.
Lemma conj_mul (a b : C) : conj (a * b)%num = (conj a * conj b)%num.
Proof. apply c_eq; unfold cre, cim; cbn; ring. Qed.
Lemma conj_gsum n (f : Z -> C) : conj (gsum n f) = gsum n (fun i => conj (f i)).
Proof.
  destruct (Z.le_gt_cases n 0); [rewrite !gsum_0; auto; apply c_eq; unfold cre, cim; cbn; ring|].
  apply (gsum_ind n (fun n => conj (gsum n f) = gsum n (fun i => conj (f i)))); [|intros m Hm IH; rewrite !gsum_S, conj_add, IH by lia; reflexivity|lia].
  rewrite !gsum_0 by lia. apply c_eq; unfold cre, cim; cbn; ring.
Qed.

Lemma stage_adjoint M c w x y : 0 < M -> 0 <= c ->
  gsum (2 * M * c) (fun p => stage M w x p * conj (y p))%num = gsum (2 * M * c) (fun p => x p * conj (istage M w y p))%num.
Proof.
  intros HM Hc. rewrite (pair_sum M c (fun p => stage M w x p * conj (y p))%num), (pair_sum M c (fun p => x p * conj (istage M w y p))%num) by auto.
  apply gsum_ext. intros p Hp. destruct (Z.ltb_spec (p mod (2 * M)) M) as [H|H]; auto.
  pose proof (Z.mod_pos_bound p (2 * M) ltac:(lia)).
  unfold stage, istage. rewrite (blk_low M p HM H). destruct (Z.ltb_spec (p mod (2 * M)) M); [|lia].
  destruct (Z.ltb_spec (p mod (2 * M) + M) M); [lia|]. rewrite blk_up by auto. replace (p + M - M) with p by lia.
  rewrite conj_mul, conj_conj, conj_add, conj_sub. ring.
Qed.

(** ** the stages of the transform *)
Context (L : nat) (e : Z -> C).
Let N := 2 * 2 ^ Z.of_nat L.
Context (He0 : e 0 = 1%num) (Hadd : forall a b, e (a + b) = (e a * e b)%num) (HeN : e N = (- (1))%num)
  (Hunit : forall a, (conj (e a) * e a)%num = 1%num).

(** twiddle factors for blocks of size 2^(t+1) *)
Definition tw (t : nat) (i : Z) : C := e (2 ^ Z.of_nat (L - 1 - t) * 5 ^ i).
Fixpoint fwd (t : nat) (x : Z -> C) : Z -> C :=
  match t with O => x | S t' => stage (2 ^ Z.of_nat t') (tw t') (fwd t' x) end.
Fixpoint bwd (t : nat) (y : Z -> C) : Z -> C :=
  match t with O => y | S t' => bwd t' (istage (2 ^ Z.of_nat t') (tw t') y) end.

Lemma e_period a z : e (a + 2 * N * z) = e a.
Proof.
  assert (H2 : e (2 * N) = 1%num) by (replace (2 * N) with (N + N) by lia; rewrite Hadd, HeN; ring).
  assert (H : forall z, e (2 * N * z) = 1%num).
  { apply Z.bi_induction.
    - intros ? ? ->. reflexivity.
    - rewrite Z.mul_0_r. auto.
    - intros n. replace (2 * N * Z.succ n) with (2 * N * n + 2 * N) by lia. rewrite Hadd, H2.
      split; intros E; [rewrite E; ring|]. rewrite <- E. ring. }
  rewrite Hadd, H. ring.
Qed.
Lemma e_mod a : e (a mod (2 * N)) = e a.
Proof.
  assert (0 < N) by (unfold N; pose proof (p2p L); lia).
  rewrite (Z.div_mod a (2 * N)) at 2 by lia. rewrite Z.add_comm, e_period. reflexivity.
Qed.

Lemma fwd_poly (t : nat) (c : Z -> C) k j : (t <= L)%nat -> 0 <= k -> 0 <= j < 2 ^ Z.of_nat t ->
  fwd t (fun p => c (brv L p)) (2 ^ Z.of_nat t * k + j)
  = gsum (2 ^ Z.of_nat t) (fun l => c (brv (L - t) k + 2 ^ Z.of_nat (L - t) * l)%Z * e (2 ^ Z.of_nat (L - t) * 5 ^ j * l)%Z)%num.
Proof.
  revert k j. induction t as [|t IH]; intros k j Ht Hk Hj.
  - cbn [fwd]. change (2 ^ Z.of_nat 0) with 1 in *. assert (j = 0) as -> by lia.
    replace (1 * k + 0) with k by lia. replace 1 with (0 + 1) at 1 by lia. rewrite gsum_S, gsum_0 by lia.
    rewrite !Z.mul_0_r, He0, Z.add_0_r, Nat.sub_0_r. ring.
  - cbn [fwd]. set (M := 2 ^ Z.of_nat t) in *. pose proof (p2p t) as HM. fold M in HM.
    rewrite p2S in Hj |- *. fold M in Hj |- *. remember (L - S t)%nat as s eqn:Es.
    assert (Hs : (L - t = S s)%nat) by lia. rewrite Hs in IH.
    assert (EN : 2 ^ Z.of_nat s * (4 * M) = N).
    { unfold N, M. replace L with (s + S t)%nat by lia. rewrite Nat2Z.inj_add, Z.pow_add_r by lia. rewrite p2S. ring. }
    rewrite (gsum_even_odd (Clawful HK)) by lia. set (P := 2 ^ Z.of_nat s) in *.
    assert (H2P : 2 ^ Z.of_nat (S s) = 2 * P) by apply p2S. rewrite H2P in IH.
    assert (Hb0 : brv (S s) (2 * k) = brv s k).
    { cbn [brv]. replace (2 * k) with (k * 2) by lia. rewrite Z.mod_mul, Z.div_mul by lia. lia. }
    assert (Hb1 : brv (S s) (2 * k + 1) = brv s k + P).
    { cbn [brv]. replace (2 * k + 1) with (1 + k * 2) by lia. rewrite Z.mod_add, Z.div_add by lia.
      change (1 mod 2) with 1. change (1 / 2) with 0. unfold P. rewrite Z.add_0_l. lia. }
    assert (Htw : forall i, tw t i = e (P * 5 ^ i)).
    { intros i. unfold tw. replace (L - 1 - t)%nat with s by lia. reflexivity. }
    unfold stage. replace (2 * M * k + j) with (j + k * (2 * M)) at 1 by lia. rewrite Z.mod_add, Z.mod_small by lia.
    destruct (Z.ltb_spec j M) as [Hlt|Hge].
    + replace ((2 * M * k + j) mod M) with j
        by (replace (2 * M * k + j) with (j + 2 * k * M) by lia; rewrite Z.mod_add, Z.mod_small by lia; reflexivity).
      replace (2 * M * k + j) with (M * (2 * k) + j) by lia. replace (M * (2 * k) + j + M) with (M * (2 * k + 1) + j) by lia.
      rewrite !IH by lia. rewrite Hb0, Hb1, Htw. rewrite <- (gsum_scale (Clawful HK)), <- (gsum_add (Clawful HK)).
      apply gsum_ext. intros l Hl.
      replace (brv s k + 2 * P * l) with (brv s k + P * (2 * l)) by lia.
      replace (brv s k + P + 2 * P * l) with (brv s k + P * (2 * l + 1)) by lia.
      replace (P * 5 ^ j * (2 * l + 1)) with (P * 5 ^ j + 2 * P * 5 ^ j * l) by lia.
      replace (P * 5 ^ j * (2 * l)) with (2 * P * 5 ^ j * l) by lia. rewrite Hadd. ring.
    + replace ((2 * M * k + j) mod M) with (j - M)
        by (replace (2 * M * k + j) with (j - M + (2 * k + 1) * M) by lia; rewrite Z.mod_add, Z.mod_small by lia; reflexivity).
      set (j' := j - M) in *. replace (2 * M * k + j - M) with (M * (2 * k) + j') by lia.
      replace (2 * M * k + j) with (M * (2 * k + 1) + j') by lia.
      rewrite !IH by lia. rewrite Hb0, Hb1, Htw. rewrite <- (gsum_scale (Clawful HK)), <- (gsum_sub (Clawful HK)).
      apply gsum_ext. intros l Hl.
      replace (brv s k + 2 * P * l) with (brv s k + P * (2 * l)) by lia.
      replace (brv s k + P + 2 * P * l) with (brv s k + P * (2 * l + 1)) by lia.
      destruct (five_shift t j' ltac:(lia)) as [z Ez]. fold M in Ez. replace (j' + M) with j in Ez by lia.
      assert (Ej : P * 5 ^ j = P * 5 ^ j' + N + 2 * N * z) by (rewrite Ez; rewrite <- EN; ring).
      replace (P * 5 ^ j * (2 * l)) with (2 * P * 5 ^ j' * l + 2 * N * (l + 2 * z * l)) by (rewrite Ej; ring).
      replace (P * 5 ^ j * (2 * l + 1)) with (N + (P * 5 ^ j' + 2 * P * 5 ^ j' * l) + 2 * N * (l + 2 * z * l + z)) by (rewrite Ej; ring).
      rewrite !e_period, !Hadd, HeN. ring.
Qed.

Lemma tw_unitary t : unitary (2 ^ Z.of_nat t) (tw t).
Proof. intros i Hi. apply Hunit. Qed.

Fixpoint two_pow (t : nat) : C := match t with O => 1%num | S t' => ((1 + 1) * two_pow t')%num end.

Lemma fwd_ext t x x' p : (forall p, x p = x' p) -> fwd t x p = fwd t x' p.
Proof. revert p. induction t; intros p H; cbn [fwd]; auto. apply stage_ext. auto. Qed.
Lemma bwd_ext t x x' p : (forall p, x p = x' p) -> bwd t x p = bwd t x' p.
Proof. revert x x' p. induction t; intros x x' p H; cbn [bwd]; auto. apply IHt. intros. apply istage_ext. auto. Qed.
Lemma fwd_scale t a x p : fwd t (fun p => a * x p)%num p = (a * fwd t x p)%num.
Proof. revert p. induction t; intros p; cbn [fwd]; auto. rewrite (stage_ext _ _ _ _ _ IHt). apply stage_scale. Qed.
Lemma bwd_scale t a x p : bwd t (fun p => a * x p)%num p = (a * bwd t x p)%num.
Proof.
  revert x p. induction t; intros x p; cbn [bwd]; auto. rewrite <- IHt. apply bwd_ext. intros. apply istage_scale.
Qed.

Lemma bwd_fwd t x p : bwd t (fwd t x) p = (two_pow t * x p)%num.
Proof.
  revert x p. induction t; intros x p; cbn [fwd bwd two_pow]; [ring|].
  rewrite (bwd_ext t _ (fun p => (1 + 1) * fwd t x p)%num).
  - rewrite bwd_scale, IHt. ring.
  - intros q. apply istage_stage; [apply p2p|apply tw_unitary].
Qed.
Lemma fwd_bwd t y p : fwd t (bwd t y) p = (two_pow t * y p)%num.
Proof.
  revert y p. induction t; intros y p; cbn [fwd bwd two_pow]; [ring|].
  rewrite (stage_ext _ _ _ (fun p => two_pow t * istage (2 ^ Z.of_nat t) (tw t) y p)%num) by auto.
  rewrite stage_scale, stage_istage by (apply p2p || apply tw_unitary). ring.
Qed.

Lemma fwd_adjoint t x y : (t <= L)%nat ->
  gsum (2 ^ Z.of_nat L) (fun p => fwd t x p * conj (y p))%num = gsum (2 ^ Z.of_nat L) (fun p => x p * conj (bwd t y p))%num.
Proof.
  revert y. induction t; intros y Ht; cbn [fwd bwd]; auto. rewrite <- IHt by lia.
  assert (E : 2 ^ Z.of_nat L = 2 * 2 ^ Z.of_nat t * 2 ^ Z.of_nat (L - 1 - t)).
  { rewrite <- p2S. rewrite <- Z.pow_add_r by lia. f_equal. lia. }
  rewrite E. apply stage_adjoint; [apply p2p|]. pose proof (p2p (L - 1 - t)). lia.
Qed.

(** the whole transform *)
Theorem fwd_full (c : Z -> C) j : 0 <= j < 2 ^ Z.of_nat L ->
  fwd L (fun p => c (brv L p)) j = gsum (2 ^ Z.of_nat L) (fun l => c l * e (5 ^ j * l)%Z)%num.
Proof.
  intros Hj. pose proof (fwd_poly L c 0 j ltac:(lia) ltac:(lia) Hj) as H. rewrite Z.mul_0_r, Z.add_0_l in H. rewrite H.
  apply gsum_ext. intros l Hl. rewrite Nat.sub_diag. change (2 ^ Z.of_nat 0) with 1. cbn [brv]. rewrite !Z.mul_1_l, Z.add_0_l. reflexivity.
Qed.

Theorem bwd_full y k : 0 <= k < 2 ^ Z.of_nat L ->
  bwd L y (brv L k) = gsum (2 ^ Z.of_nat L) (fun j => conj (e (5 ^ j * k)%Z) * y j)%num.
Proof.
  intros Hk. pose (c := fun l : Z => if l =? k then (1%num : C) else 0%num).
  pose proof (fwd_adjoint L (fun p => c (brv L p)) y (Nat.le_refl L)) as H.
  rewrite (gsum_ext _ _ (fun j => e (5 ^ j * k)%Z * conj (y j))%num) in H.
  2:{ intros j Hj. rewrite fwd_full by auto. f_equal. rewrite (gsum_single (Clawful HK) _ k); auto.
      - unfold c. rewrite Z.eqb_refl. ring.
      - intros l Hl Hne. unfold c. destruct (Z.eqb_spec l k); [contradiction|]. ring. }
  rewrite (gsum_single (Clawful HK) _ (brv L k) (fun p => c (brv L p) * conj (bwd L y p))%num) in H.
  2:{ apply brv_range. }
  2:{ intros p Hp Hne. unfold c. destruct (Z.eqb_spec (brv L p) k) as [E|]; [|ring]. exfalso. apply Hne.
      rewrite <- E. symmetry. apply brv_involutive. auto. }
  unfold c in H. rewrite brv_involutive, Z.eqb_refl in H by auto.
  rewrite <- (conj_conj (bwd L y (brv L k))). transitivity (conj (1 * conj (bwd L y (brv L k)))%num).
  { f_equal. symmetry. exact (one_l _). }
  rewrite <- H, conj_gsum. apply gsum_ext. intros j Hj. rewrite conj_mul, conj_conj. reflexivity.
Qed.

(** the form with N real coefficients *)
Theorem folded (m : Z -> K) j : e (2 ^ Z.of_nat L) = (ci K : C) -> 0 <= j ->
  gsum N (fun k => mk K (m k) 0 * e (5 ^ j * k)%Z)%num
  = gsum (2 ^ Z.of_nat L) (fun l => (mk K (m l) (m (l + 2 ^ Z.of_nat L)%Z)) * e (5 ^ j * l)%Z)%num.
Proof.
  intros Hi Hj. pose proof (p2p L) as HL. unfold N. replace (2 * 2 ^ Z.of_nat L) with (2 ^ Z.of_nat L + 2 ^ Z.of_nat L) by lia.
  rewrite (gsum_split (Clawful HK)) by lia. rewrite <- (gsum_add (Clawful HK)). apply gsum_ext. intros l Hl.
  destruct (five_odd j Hj) as [u Eu].
  replace (5 ^ j * (2 ^ Z.of_nat L + l)) with (2 ^ Z.of_nat L + 5 ^ j * l + 2 * N * u) by (unfold N; rewrite Eu; set (n := 2 ^ Z.of_nat L); clearbody n; clear; ring).
  rewrite e_period, Hadd, Hi. replace (l + 2 ^ Z.of_nat L) with (2 ^ Z.of_nat L + l) by lia.
  set (a := m (2 ^ Z.of_nat L + l)). set (b := e (5 ^ j * l)). clearbody a b. apply c_eq; unfold cre, cim; cbn.
   ring. ring.
Qed.
End Theory.
