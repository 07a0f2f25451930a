(** Facts about log, bitReverse and rand_uint64 (Util.v). *)
From Coq Require Import ZArith List Bool Lia.
From Verif Require Import Base BaseFacts Util.
Import ListNotations.
Open Scope Z_scope.

(** *** log *)

Lemma log_pow k N : 0 <= k <= 30 -> 2 ^ (k - 1) < N <= 2 ^ k -> log_ N = Ok k.
Proof.
  intros Hk HN. unfold log_.
  rewrite (while_closed _ _ (fun i => (Z.of_nat i, 2 ^ Z.of_nat i)) (Z.to_nat k) 40 (0, 1)).
  - cbn [bind]. f_equal. lia.
  - lia.
  - reflexivity.
  - intros i Hi. split.
    + f_equal. apply Z.ltb_lt. assert (2 ^ Z.of_nat i <= 2 ^ (k - 1)) by (apply Z.pow_le_mono_r; lia). lia.
    + assert (E : 2 ^ Z.of_nat (S i) = 2 ^ Z.of_nat i * 2)
        by (rewrite Nat2Z.inj_succ, Z.pow_succ_r by lia; lia).
      unfold int_, in_int. rewrite <- E.
      assert (2 ^ Z.of_nat (S i) <= 2 ^ 30) by (apply Z.pow_le_mono_r; lia).
      assert (0 < 2 ^ Z.of_nat (S i)) by (apply Z.pow_pos_nonneg; lia).
      destruct (Z.leb_spec (- 2 ^ 31) (2 ^ Z.of_nat (S i))); [|lia].
      destruct (Z.ltb_spec (2 ^ Z.of_nat (S i)) (2 ^ 31)); [|lia]. cbn [andb bind]. f_equal. f_equal. lia.
  - rewrite Z2Nat.id by lia. f_equal. apply Z.ltb_ge. lia.
Qed.

Lemma log_small N : N <= 1 -> log_ N = Ok 0.
Proof.
  intros HN. unfold log_. cbn [while_ bind]. destruct (Z.ltb_spec 1 N); [lia|]. reflexivity.
Qed.

Lemma log_undef N : 2 ^ 30 < N -> log_ N = Undef.
Proof.
  intros HN. unfold log_. do 31 (cbn [while_ bind]; match goal with |- context [if ?a <? N then _ else _] =>
    let v := eval vm_compute in a in change a with v; destruct (Z.ltb_spec v N) as [_|Hx]; [|exfalso; lia] end;
    match goal with |- context [int_ ?a] => let v := eval vm_compute in (int_ a) in change (int_ a) with v end).
  reflexivity.
Qed.

(** *** bitReverse *)

Definition brstep (k mh ml x : Z) : Z :=
  Z.lor (Z.shiftr (Z.land x mh) k) (Z.shiftl (Z.land x ml) k mod 2 ^ 32).

Lemma brstep_bit k mh ml x i : 0 <= k -> 0 <= i < 32 ->
  Z.testbit (brstep k mh ml x) i =
  (Z.testbit x (i + k) && Z.testbit mh (i + k)) || (Z.testbit x (i - k) && Z.testbit ml (i - k)).
Proof.
  intros Hk Hi. unfold brstep. rewrite Z.lor_spec, Z.shiftr_spec, Z.land_spec by lia.
  rewrite Z.mod_pow2_bits_low, Z.shiftl_spec, Z.land_spec by lia. reflexivity.
Qed.

Lemma bitReverse32_bit x i : 0 <= x < 2 ^ 32 -> 0 <= i < 32 ->
  Z.testbit (bitReverse32 x) i = Z.testbit x (31 - i).
Proof.
  intros Hx Hi. unfold bitReverse32. cbv zeta.
  fold (brstep 1 2863311530 1431655765 x).
  set (x1 := brstep 1 _ _ x). fold (brstep 2 3435973836 858993459 x1).
  set (x2 := brstep 2 _ _ x1). fold (brstep 4 4042322160 252645135 x2).
  set (x3 := brstep 4 _ _ x2). fold (brstep 8 4278255360 16711935 x3).
  set (x4 := brstep 8 _ _ x3).
  assert (Hlow : forall j, 0 <= j < 16 -> Z.testbit x4 j = Z.testbit x (15 - j) /\
                                          Z.testbit x4 (j + 16) = Z.testbit x (31 - j)).
  { intros j Hj.
    assert (Hc : exists n, j = Z.of_nat n /\ (n < 16)%nat) by (exists (Z.to_nat j); lia).
    destruct Hc as (n & -> & Hn).
    do 16 (destruct n as [|n]; [
      unfold x4, x3, x2, x1; split;
      repeat (rewrite brstep_bit by (cbn; lia); cbn -[brstep Z.testbit];
        repeat match goal with |- context [Z.testbit (Zpos ?a) ?b] =>
           let v := eval vm_compute in (Z.testbit (Zpos a) b) in change (Z.testbit (Zpos a) b) with v end;
        rewrite ?andb_true_r, ?andb_false_r, ?orb_false_r, ?orb_false_l); reflexivity|]).
    lia. }
  assert (Hhi : forall j, 32 <= j -> Z.testbit x4 j = false).
  { intros j Hj. unfold x4, brstep. rewrite Z.lor_spec, Z.shiftr_spec, Z.land_spec by lia.
    rewrite Z.mod_pow2_bits_high by lia.
    replace (Z.testbit 4278255360 (j + 8)) with false; [rewrite andb_false_r; reflexivity|].
    symmetry. apply Z.bits_above_log2; [lia|]. change (Z.log2 4278255360) with 31. lia. }
  rewrite Z.lor_spec, Z.shiftr_spec, Z.mod_pow2_bits_low, Z.shiftl_spec by lia.
  destruct (Z_lt_le_dec i 16).
  - destruct (Hlow i ltac:(lia)) as [_ ->]. rewrite (Z.testbit_neg_r _ (i - 16)) by lia.
    rewrite orb_false_r. reflexivity.
  - rewrite Hhi by lia. destruct (Hlow (i - 16) ltac:(lia)) as [-> _]. cbn [orb]. f_equal. lia.
Qed.

Lemma lt_pow2_bits x d : 0 <= d -> 0 <= x -> (forall i, d <= i -> Z.testbit x i = false) -> x < 2 ^ d.
Proof.
  intros Hd Hx Hb. assert (E : x = x mod 2 ^ d).
  { apply Z.bits_inj'. intros i Hi. destruct (Z_lt_le_dec i d).
    - rewrite Z.mod_pow2_bits_low by lia. reflexivity.
    - rewrite Z.mod_pow2_bits_high, Hb by lia. reflexivity. }
  rewrite E. apply Z.mod_pos_bound. apply Z.pow_pos_nonneg; lia.
Qed.

Lemma pow2_bits_lt x d i : 0 <= x < 2 ^ d -> d <= i -> Z.testbit x i = false.
Proof.
  intros Hx Hi. destruct (Z_lt_le_dec d 0).
  - rewrite Z.pow_neg_r in Hx by lia. lia.
  - rewrite <- (Z.mod_small x (2 ^ d)) by lia. apply Z.mod_pow2_bits_high. lia.
Qed.

Lemma bitReverse32_range x : 0 <= x < 2 ^ 32 -> 0 <= bitReverse32 x < 2 ^ 32.
Proof.
  intros Hx. assert (G : forall k mh ml x, 0 <= x -> 0 <= mh -> 0 <= brstep k mh ml x).
  { intros. unfold brstep. apply Z.lor_nonneg. split.
    - apply Z.shiftr_nonneg. apply Z.land_nonneg. auto.
    - apply Z.mod_pos_bound. lia. }
  assert (H0 : 0 <= bitReverse32 x).
  { unfold bitReverse32. cbv zeta. apply Z.lor_nonneg. split.
    - apply Z.shiftr_nonneg. repeat (apply G; [|lia]). lia.
    - apply Z.mod_pos_bound. lia. }
  split; auto. apply lt_pow2_bits; auto; try lia. intros i Hi. unfold bitReverse32. cbv zeta.
  rewrite Z.lor_spec, Z.shiftr_spec by lia. rewrite (Z.mod_pow2_bits_high) by lia.
  rewrite orb_false_r. rewrite Z.lor_spec, Z.shiftr_spec, Z.land_spec by lia.
  rewrite Z.mod_pow2_bits_high by lia.
  replace (Z.testbit 4278255360 (i + 16 + 8)) with false; [rewrite andb_false_r; reflexivity|].
  symmetry. apply Z.bits_above_log2; [lia|]. change (Z.log2 4278255360) with 31. lia.
Qed.

(** Bit reversal of the low [d] bits, as a number. *)
Fixpoint brv (d : nat) (x : Z) : Z :=
  match d with O => 0 | S d' => 2 ^ Z.of_nat d' * (x mod 2) + brv d' (x / 2) end.

Lemma brv_range d x : 0 <= brv d x < 2 ^ Z.of_nat d.
Proof.
  revert x. induction d as [|d IH]; intros x; [cbn; lia|]. cbn [brv].
  specialize (IH (x / 2)). rewrite Nat2Z.inj_succ, Z.pow_succ_r by lia.
  pose proof (Z.mod_pos_bound x 2 ltac:(lia)). assert (x mod 2 = 0 \/ x mod 2 = 1) as [->| ->] by lia; lia.
Qed.

Lemma brv_bit d x i : 0 <= i < Z.of_nat d -> Z.testbit (brv d x) i = Z.testbit x (Z.of_nat d - 1 - i).
Proof.
  revert x i. induction d as [|d IH]; intros x i Hi; [lia|]. cbn [brv].
  pose proof (brv_range d (x / 2)) as Hr. set (r := brv d (x / 2)) in *.
  assert (E : 2 ^ Z.of_nat d * (x mod 2) + r = Z.lor (Z.shiftl (x mod 2) (Z.of_nat d)) r).
  { rewrite <- Z.add_nocarry_lxor || idtac. rewrite Z.shiftl_mul_pow2 by lia. rewrite Z.mul_comm.
    rewrite <- Z.lxor_lor, <- Z.add_nocarry_lxor; auto.
    - apply Z.bits_inj'. intros j Hj. rewrite Z.land_spec, Z.bits_0.
      rewrite <- Z.shiftl_mul_pow2 by lia. rewrite Z.shiftl_spec by lia.
      destruct (Z_lt_le_dec j (Z.of_nat d)).
      + rewrite (Z.testbit_neg_r _ (j - _)) by lia. reflexivity.
      + rewrite (pow2_bits_lt r (Z.of_nat d)) by lia. apply andb_false_r.
    - apply Z.bits_inj'. intros j Hj. rewrite Z.land_spec, Z.bits_0.
      rewrite <- Z.shiftl_mul_pow2 by lia. rewrite Z.shiftl_spec by lia.
      destruct (Z_lt_le_dec j (Z.of_nat d)).
      + rewrite (Z.testbit_neg_r _ (j - _)) by lia. reflexivity.
      + rewrite (pow2_bits_lt r (Z.of_nat d)) by lia. apply andb_false_r. }
  rewrite E, Z.lor_spec, Z.shiftl_spec by lia. destruct (Z.eq_dec i (Z.of_nat d)) as [->|].
  - rewrite (pow2_bits_lt r (Z.of_nat d)) by lia. rewrite orb_false_r, Z.sub_diag.
    replace (Z.of_nat (S d) - 1 - Z.of_nat d) with 0 by lia.
    rewrite <- (Z.pow_1_r 2) at 1. rewrite Z.mod_pow2_bits_low by lia. reflexivity.
  - rewrite (Z.testbit_neg_r _ (i - _)) by lia. cbn [orb]. unfold r. rewrite IH by lia.
    rewrite <- (Z.pow_1_r 2) at 1. rewrite <- Z.shiftr_div_pow2 by lia. rewrite Z.shiftr_spec by lia.
    f_equal. lia.
Qed.

Lemma bitReverse_brv d x : 0 < d <= 32 -> 0 <= x < 2 ^ 32 -> bitReverse x d = Ok (brv (Z.to_nat d) x).
Proof.
  intros Hd Hx. unfold bitReverse, shr32. destruct (Z.leb_spec 0 (32 - d)); [|lia].
  destruct (Z.ltb_spec (32 - d) 32); [|lia]. cbn [andb]. f_equal.
  pose proof (bitReverse32_range x Hx) as Hr. pose proof (brv_range (Z.to_nat d) x) as Hv.
  rewrite Z2Nat.id in Hv by lia.
  apply Z.bits_inj'. intros i Hi. rewrite Z.shiftr_spec by lia. destruct (Z_lt_le_dec i d).
  - rewrite bitReverse32_bit, brv_bit by lia. f_equal. lia.
  - rewrite (pow2_bits_lt _ d i) by lia. apply (pow2_bits_lt _ 32); lia.
Qed.

Lemma bitReverse_undef x d : d <= 0 \/ 32 < d -> bitReverse x d = Undef.
Proof.
  intros Hd. unfold bitReverse, shr32.
  destruct (Z.leb_spec 0 (32 - d)), (Z.ltb_spec (32 - d) 32); cbn; auto; lia.
Qed.

Lemma brv_involutive d x : 0 <= x < 2 ^ Z.of_nat d -> brv d (brv d x) = x.
Proof.
  intros Hx. pose proof (brv_range d (brv d x)).
  apply Z.bits_inj'. intros i Hi. destruct (Z_lt_le_dec i (Z.of_nat d)).
  - rewrite !brv_bit by lia. f_equal. lia.
  - rewrite !(pow2_bits_lt _ (Z.of_nat d) i) by lia. reflexivity.
Qed.

Lemma brv_inj d x y : 0 <= x < 2 ^ Z.of_nat d -> 0 <= y < 2 ^ Z.of_nat d -> brv d x = brv d y -> x = y.
Proof. intros Hx Hy E. rewrite <- (brv_involutive d x), <- (brv_involutive d y), E by auto. reflexivity. Qed.

(** Reversal of the concatenation of a high bit. *)
Lemma brv_high d x b : 0 <= x < 2 ^ Z.of_nat d -> 0 <= b <= 1 ->
  brv (S d) (b * 2 ^ Z.of_nat d + x) = b + 2 * brv d x.
Proof.
  revert x. induction d as [|d IH]; intros x Hx Hb.
  - cbn in Hx. replace x with 0 by lia. cbn [brv]. change (Z.of_nat 0) with 0.
    rewrite Z.pow_0_r, Z.mul_1_r, Z.add_0_r, Z.mod_small by lia. lia.
  - set (y := b * 2 ^ Z.of_nat (S d) + x). change (brv (S (S d)) y) with (2 ^ Z.of_nat (S d) * (y mod 2) + brv (S d) (y / 2)).
    assert (E : 2 ^ Z.of_nat (S d) = 2 * 2 ^ Z.of_nat d) by (rewrite Nat2Z.inj_succ, Z.pow_succ_r; lia).
    rewrite E in *.
    assert (Ey : y = x + b * 2 ^ Z.of_nat d * 2) by (unfold y; rewrite E; lia).
    rewrite Ey, Z.mod_add, Z.div_add by lia.
    replace (x / 2 + b * 2 ^ Z.of_nat d) with (b * 2 ^ Z.of_nat d + x / 2) by lia.
    rewrite IH; auto.
    + cbn [brv]. lia.
    + split; [apply Z.div_pos; lia|apply Z.div_lt_upper_bound; lia].
Qed.

Lemma brv_0 d : brv d 0 = 0.
Proof. induction d as [|d IH]; cbn [brv]; auto. rewrite Z.mod_0_l, Z.div_0_l by lia. lia. Qed.

(** Reversal of a number with leading zeros. *)
Lemma brv_pad d e x : 0 <= x < 2 ^ Z.of_nat d -> brv (d + e) x = 2 ^ Z.of_nat e * brv d x.
Proof.
  intros Hx. induction e as [|e IH].
  - rewrite Nat.add_0_r. change (2 ^ Z.of_nat 0) with 1. lia.
  - rewrite Nat.add_succ_r. replace x with (0 * 2 ^ Z.of_nat (d + e) + x) at 1 by lia.
    rewrite brv_high; [rewrite IH, Nat2Z.inj_succ, Z.pow_succ_r; lia| |lia].
    assert (2 ^ Z.of_nat d <= 2 ^ Z.of_nat (d + e)) by (apply Z.pow_le_mono_r; lia). lia.
Qed.

(** *** rand_uint64 *)

Lemma rand_uint64_ok RM rnd pos : 0 <= RM < 2 ^ 31 ->
  rand_uint64 RM rnd pos =
  (((((rnd (pos + 0)%nat * (RM + 1) + rnd (pos + 1)%nat) * (RM + 1) + rnd (pos + 2)%nat) * (RM + 1)
     + rnd (pos + 3)%nat) * (RM + 1) + rnd (pos + 4)%nat) mod W, (pos + 5)%nat).
Proof.
  intros HR. unfold rand_uint64. f_equal. cbn [fold_left].
  assert (Hw : wadd RM 1 = RM + 1) by (unfold wadd, wrap; apply Z.mod_small; unfold W; lia).
  rewrite Hw. unfold wadd, wmul, wrap. cbn [Z.mul]. rewrite Zmod_0_l.
  assert (G : forall a b x y, a mod W = b mod W -> ((a * x) mod W + y) mod W = ((b * x) + y) mod W).
  { intros a b x y E. rewrite Zplus_mod_idemp_l. rewrite <- Zplus_mod_idemp_l, <- Zmult_mod_idemp_l, E.
    rewrite Zmult_mod_idemp_l, Zplus_mod_idemp_l. reflexivity. }
  repeat (apply G; rewrite ?Zmod_mod). rewrite Z.add_0_l. reflexivity.
Qed.
