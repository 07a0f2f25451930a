(** Chebyshev polynomials and convert_frc_tou. *)
From Coq Require Import ZArith List Bool Lia Reals Lra Ring.
From Verif Require Import Base BaseFacts GSum Matrix MatrixFacts DFT DFTTheory DFTFacts FFTFacts SpecDFT SlotFacts SpecCheb Poly.
Import ListNotations.
Open Scope Z_scope.
Add Ring RCch : HR.

Lemma real_mul a b : real (a * b) = (real a * real b)%num.
Proof. apply RC_eq; cbn; ring. Qed.
Lemma real_add a b : real (a + b) = (real a + real b)%num.
Proof. apply RC_eq; cbn; ring. Qed.
Lemma real_sub a b : real (a - b) = (real a - real b)%num.
Proof. apply RC_eq; cbn; ring. Qed.
Lemma real_2 : real 2 = (1 + 1)%num.
Proof. apply RC_eq; cbn; ring. Qed.
Lemma cheb_SS x n : cheb x (S (S n)) = ((1 + 1) * x * cheb x (S n) - cheb x n)%num.
Proof. rewrite <- real_2. reflexivity. Qed.

(** T_{m+i} + T_{m-i} = 2 T_m T_i *)
Lemma cheb_prod x i : forall m, (i <= m)%nat -> (cheb x (m + i) + cheb x (m - i))%num = ((1 + 1) * cheb x m * cheb x i)%num.
Proof.
  induction i as [i IH] using lt_wf_ind. intros m Hm.
  destruct i as [|[|i]].
  - rewrite Nat.add_0_r, Nat.sub_0_r. cbn [cheb]. ring.
  - destruct m as [|m]; [lia|]. replace (S m + 1)%nat with (S (S m)) by lia. replace (S m - 1)%nat with m by lia. rewrite cheb_SS. cbn [cheb]. ring.
  - assert (E1 := IH (S i) ltac:(lia) m ltac:(lia)). assert (E2 := IH i ltac:(lia) m ltac:(lia)).
    replace (m + S (S i))%nat with (S (S (m + i))) by lia.
    replace (m + S i)%nat with (S (m + i)) in E1 by lia.
    assert (E3 : cheb x (m - i) = ((1 + 1) * x * cheb x (m - S i) - cheb x (m - S (S i)))%num).
    { replace (m - i)%nat with (S (S (m - S (S i)))) by lia. replace (m - S i)%nat with (S (m - S (S i))) by lia. apply cheb_SS. }
    rewrite (cheb_SS x (m + i)), (cheb_SS x i).
    replace (cheb x (m - S (S i))) with ((1 + 1) * x * cheb x (m - S i) - cheb x (m - i))%num by (rewrite E3; ring).
    replace ((1 + 1) * cheb x m * ((1 + 1) * x * cheb x (S i) - cheb x i))%num
      with ((1 + 1) * x * ((1 + 1) * cheb x m * cheb x (S i)) - (1 + 1) * cheb x m * cheb x i)%num by ring.
    rewrite <- E1, <- E2. ring.
Qed.

(** ** one step of the conversion *)
Definition low (H : Z) (c : Z -> R) (n : Z) : R := if n =? 0 then c 0 else (c n - c (2 * H - n)%Z)%R.
Definition high (H : Z) (c : Z -> R) (n : Z) : R := if n =? 0 then c H else (c (H + n)%Z * 2)%R.
Lemma cheb_halves (k : nat) c x :
  cheb_value (S k) c x = (cheb_value k (low (2 ^ Z.of_nat k) c) x + cheb x (2 ^ k) * cheb_value k (high (2 ^ Z.of_nat k) c) x)%num.
Proof.
  unfold cheb_value. set (H := 2 ^ Z.of_nat k). assert (HH : 0 < H) by (apply Z.pow_pos_nonneg; lia).
  replace (2 ^ Z.of_nat (S k)) with (H + H) by (unfold H; rewrite Nat2Z.inj_succ, Z.pow_succ_r by lia; lia).
  rewrite (gsum_split HC) by lia.
  assert (Ek : (2 ^ k)%nat = Z.to_nat H) by (unfold H; rewrite <- (Nat2Z.id (2 ^ k)%nat), Nat2Z.inj_pow; reflexivity). rewrite Ek.
  set (T := fun n => cheb x (Z.to_nat n)).
  assert (Hp : forall n, 0 <= n <= H -> T (H + n)%Z = ((1 + 1) * T H * T n - T (H - n)%Z)%num).
  { intros n Hn. pose proof (cheb_prod x (Z.to_nat n) (Z.to_nat H) ltac:(lia)) as P.
    replace (Z.to_nat H + Z.to_nat n)%nat with (Z.to_nat (H + n)) in P by lia.
    replace (Z.to_nat H - Z.to_nat n)%nat with (Z.to_nat (H - n)) in P by lia. fold (T (H + n)%Z) (T (H - n)%Z) (T H) (T n) in P.
    replace (T (H + n)%Z) with ((T (H + n)%Z + T (H - n)%Z) - T (H - n)%Z)%num by ring. rewrite P. reflexivity. }
  assert (HF : forall f : Z -> RC, gsum H f = (f 0%Z + gsum (H - 1) (fun m => f (1 + m)%Z))%num).
  { intros f. replace H with (1 + (H - 1)) at 1 by lia. rewrite (gsum_split HC 1 (H - 1)) by lia. f_equal. rewrite <- (Z.add_0_l 1), gsum_S, gsum_0 by lia. ring. }
  change (gsum H (fun i => (real (c i) * T i)%num) + gsum H (fun i => (real (c (H + i)%Z) * T (H + i)%Z)%num) =
    gsum H (fun n => (real (low H c n) * T n)%num) + T H * gsum H (fun n => (real (high H c n) * T n)%num))%num.
  rewrite !HF. rewrite Z.add_0_r. replace (T 0) with (1%num : RC) by reflexivity.
  rewrite <- (gsum_rev HC (H - 1) (fun m => (real (c (H + (1 + m))%Z) * T (H + (1 + m))%Z)%num)).
  unfold low at 1, high at 1. rewrite Z.eqb_refl.
  set (A := gsum (H - 1) (fun m => (real (c (1 + m)%Z) * T (1 + m)%Z)%num)).
  set (B := gsum (H - 1) (fun m => (real (low H c (1 + m)%Z) * T (1 + m)%Z)%num)).
  set (D := gsum (H - 1) (fun m => (real (high H c (1 + m)%Z) * T (1 + m)%Z)%num)).
  match goal with |- context [gsum (H - 1) ?f] => set (E := gsum (H - 1) f) end.
  assert (Q : (A + E)%num = (B + T H * D)%num).
  2: { transitivity (real (c 0%Z) + real (c H) * T H + (A + E))%num; [ring|]. rewrite Q. ring. }
  unfold D. rewrite <- (gsum_rev HC (H - 1) (fun m => (real (high H c (1 + m)%Z) * T (1 + m)%Z)%num)), <- (gsum_scale HC).
  unfold A, B, E. rewrite <- !(gsum_add HC). apply gsum_ext. intros m Hm.
  unfold low, high. destruct (Z.eqb_spec (1 + m) 0); [lia|]. destruct (Z.eqb_spec (1 + (H - 1 - 1 - m)) 0); [lia|].
  rewrite real_sub, real_mul, real_2. rewrite Hp by lia.
  replace (2 * H - (1 + m)) with (H + (1 + (H - 1 - 1 - m))) by lia.
  replace (H - (1 + (H - 1 - 1 - m))) with (1 + m) by lia. ring.
Qed.
Lemma testbit_low k n : 0 <= n < 2 ^ Z.of_nat k -> Z.testbit n (Z.of_nat k) = false.
Proof.
  intros H. destruct (Z.eq_dec n 0) as [->|]; [apply Z.bits_0|]. apply Z.bits_above_log2; [lia|]. apply Z.log2_lt_pow2; lia.
Qed.
Lemma bit_product_high k x n K : 0 <= n < 2 ^ Z.of_nat K -> (k <= K)%nat -> bit_product k x (2 ^ Z.of_nat K + n) = bit_product k x n.
Proof.
  intros Hn. induction k as [|k IH]; intros Hk; [reflexivity|]. cbn [bit_product]. rewrite IH by lia. f_equal.
  replace (Z.testbit (2 ^ Z.of_nat K + n) (Z.of_nat k)) with (Z.testbit n (Z.of_nat k)); [reflexivity|].
  rewrite <- (Z.mod_pow2_bits_low n (Z.of_nat K)), <- (Z.mod_pow2_bits_low (2 ^ Z.of_nat K + n) (Z.of_nat K)) by lia. f_equal.
  replace (2 ^ Z.of_nat K + n) with (n + 1 * 2 ^ Z.of_nat K) by lia. rewrite Z_mod_plus_full. reflexivity.
Qed.
Lemma product_halves (k : nat) u x :
  product_value (S k) u x = (product_value k u x + cheb x (2 ^ k) * product_value k (fun n => u (2 ^ Z.of_nat k + n)%Z) x)%num.
Proof.
  unfold product_value. assert (HH : 0 < 2 ^ Z.of_nat k) by (apply Z.pow_pos_nonneg; lia).
  replace (2 ^ Z.of_nat (S k)) with (2 ^ Z.of_nat k + 2 ^ Z.of_nat k) by (rewrite Nat2Z.inj_succ, Z.pow_succ_r by lia; lia).
  rewrite (gsum_split HC) by lia. rewrite <- (gsum_scale HC). f_equal; apply gsum_ext; intros n Hn; cbn [bit_product].
  - rewrite testbit_low by auto. ring.
  - rewrite bit_product_high by (auto; lia).
    replace (Z.testbit (2 ^ Z.of_nat k + n) (Z.of_nat k)) with true; [ring|].
    replace (2 ^ Z.of_nat k + n) with (1 * 2 ^ Z.of_nat k + n) by lia. symmetry. rewrite Z.testbit_true by lia.
    rewrite Z.div_add_l, (Z.div_small n) by lia. reflexivity.
Qed.

(** ** convert_frc_tou in closed form *)
Fixpoint conv_u (k : nat) (c : Z -> R) (n : Z) : R :=
  match k with
  | S (S O) => if n =? 0 then c 0 else if n =? 1 then (c 1%Z - c 3%Z)%R else if n =? 2 then c 2 else (c 3%Z * 2)%R
  | O => c n
  | S k => let H := 2 ^ Z.of_nat k in if n <? H then conv_u k (low H c) n else conv_u k (high H c) (n - H)
  end.
Lemma conv_u_value k : (2 <= k)%nat -> forall c x, product_value k (conv_u k c) x = cheb_value k c x.
Proof.
  induction k as [k IH] using lt_wf_ind. intros Hk c x. destruct k as [|[|[|k]]]; [lia|lia| |].
  - unfold product_value, cheb_value. change (2 ^ Z.of_nat 2) with 4. change 4 with (0 + 1 + 1 + 1 + 1). rewrite !gsum_S, !gsum_0 by lia.
    cbn [conv_u bit_product]. change (0 + 1 + 1 + 1) with 3. change (0 + 1 + 1) with 2. change (0 + 1) with 1. cbn [Z.eqb Pos.eqb].
    change (Z.to_nat 0) with 0%nat. change (Z.to_nat 1) with 1%nat. change (Z.to_nat 2) with 2%nat. change (Z.to_nat 3) with 3%nat.
    change (Z.testbit 0 (Z.of_nat 0)) with false. change (Z.testbit 0 (Z.of_nat 1)) with false. change (Z.testbit 1 (Z.of_nat 0)) with true. change (Z.testbit 1 (Z.of_nat 1)) with false.
    change (Z.testbit 2 (Z.of_nat 0)) with false. change (Z.testbit 2 (Z.of_nat 1)) with true. change (Z.testbit 3 (Z.of_nat 0)) with true. change (Z.testbit 3 (Z.of_nat 1)) with true.
    change (2 ^ 0)%nat with 1%nat. change (2 ^ 1)%nat with 2%nat. rewrite !cheb_SS. cbn [cheb]. rewrite real_sub, real_mul, real_2. ring.
  - rewrite product_halves, cheb_halves. rewrite <- (IH (S (S k)) ltac:(lia) ltac:(lia) (low _ c)), <- (IH (S (S k)) ltac:(lia) ltac:(lia) (high _ c)).
    change (conv_u (S (S (S k))) c) with (fun n => let H := 2 ^ Z.of_nat (S (S k)) in if n <? H then conv_u (S (S k)) (low H c) n else conv_u (S (S k)) (high H c) (n - H)).
    set (H := 2 ^ Z.of_nat (S (S k))). cbv zeta. f_equal; [|f_equal].
    + unfold product_value. apply gsum_ext. intros n Hn. fold H in Hn. destruct (Z.ltb_spec n H); [reflexivity|lia].
    + unfold product_value. apply gsum_ext. intros n Hn. fold H in Hn. destruct (Z.ltb_spec (H + n) H); [lia|]. replace (H + n - H) with n by lia. reflexivity.
Qed.
(** the cells off, ..., off + 2^k - 1 of u *)
Definition patched (n off : Z) (g : Z -> option R) (f : Z -> R) (j : Z) : option R := if (off <=? j) && (j <? off + n) then Some (f (j - off)) else g j.
Lemma convert_ok k : (2 <= k)%nat -> forall fuel c u off M g, (k <= fuel)%nat -> 0 <= off -> off + 2 ^ Z.of_nat k <= M -> u = tab M g ->
  convert_frc_tou fuel (gtab (2 ^ Z.of_nat k) c) u off (2 ^ Z.of_nat k) = Ok (tab M (patched (2 ^ Z.of_nat k) off g (conv_u k c))).
Proof.
  induction k as [k IH] using lt_wf_ind. intros Hk fuel c u off M g Hf Ho HM ->. destruct fuel as [|fuel]; [lia|].
  destruct k as [|[|[|k]]]; [lia|lia| |].
  - change (2 ^ Z.of_nat 2) with 4 in *. cbn [convert_frc_tou]. change (4 =? 4) with true. cbv iota.
    rewrite !grd_gtab by lia. cbn [bind]. repeat (rewrite gwr_tab by lia; cbn [bind]). f_equal. apply tab_ext. intros j Hj. unfold patched. cbn [conv_u].
    destruct (Z.eqb_spec j (off + 3)), (Z.eqb_spec j (off + 2)), (Z.eqb_spec j (off + 1)), (Z.eqb_spec j off), (Z.leb_spec off j), (Z.ltb_spec j (off + 4)),
      (Z.eqb_spec (j - off) 0), (Z.eqb_spec (j - off) 1), (Z.eqb_spec (j - off) 2); cbn [andb]; try lia; reflexivity.
  - set (K := S (S k)) in *. assert (E : 2 ^ Z.of_nat (S K) = 2 * 2 ^ Z.of_nat K) by (rewrite Nat2Z.inj_succ, Z.pow_succ_r by lia; lia).
    set (H := 2 ^ Z.of_nat K) in *. assert (HH : 4 <= H) by (unfold H; change 4 with (2 ^ 2); apply Z.pow_le_mono_r; lia). rewrite E in *.
    cbn [convert_frc_tou]. destruct (Z.eqb_spec (2 * H) 4) as [|_]; [lia|].
    replace (Z.quot (2 * H) 2) with H by (rewrite Z.mul_comm, Z.quot_mul; lia). cbv zeta.
    rewrite !gfresh_tab. rewrite (fill_gtab _ _ _ c); [|lia|]. 2: { intros i g' Hi. rewrite grd_gtab by lia. reflexivity. }
    cbn [bind]. rewrite (fill_gtab _ _ _ (fun i => c (i + H))); [|lia|]. 2: { intros i g' Hi. rewrite grd_gtab by lia. reflexivity. }
    cbn [bind].
    rewrite (for_closed _ (fun i => (gtab H (fun n => if H - i <? n then low H c n else c n), gtab H (fun n => if (1 <=? n) && (n <? i) then high H c n else c (n + H)))) 1 H
      _ (gtab H (low H c), gtab H (high H c))); [|lia| | |].
    + cbn [bind]. rewrite (IH K ltac:(lia) ltac:(lia) fuel (low H c) _ off M g) by (auto; lia). cbn [bind]. fold H.
      rewrite (IH K ltac:(lia) ltac:(lia) fuel (high H c) _ (off + H) M (patched H off g (conv_u K (low H c)))) by (auto; fold H; lia). fold H. f_equal.
      apply tab_ext. intros j Hj. unfold patched. change (conv_u (S K) c (j - off)) with (if j - off <? H then conv_u K (low H c) (j - off) else conv_u K (high H c) (j - off - H)).
      replace (j - (off + H)) with (j - off - H) by lia.
      destruct (Z.leb_spec (off + H) j), (Z.ltb_spec j (off + H + H)), (Z.leb_spec off j), (Z.ltb_spec j (off + H)), (Z.ltb_spec j (off + 2 * H)), (Z.ltb_spec (j - off) H); cbn [andb]; try lia; reflexivity.
    + f_equal; apply gtab_ext; intros n Hn.
      * destruct (Z.ltb_spec (H - 1) n); [lia|reflexivity].
      * destruct (Z.leb_spec 1 n), (Z.ltb_spec n 1); cbn [andb]; try lia; reflexivity.
    + f_equal; apply gtab_ext; intros n Hn.
      * destruct (Z.ltb_spec (H - H) n); [reflexivity|]. unfold low. replace n with 0 by lia. reflexivity.
      * destruct (Z.leb_spec 1 n), (Z.ltb_spec n H); cbn [andb]; try lia; [reflexivity|]. unfold high. replace n with 0 by lia. reflexivity.
    + intros i Hi. rewrite !grd_gtab by lia. cbn [bind]. unfold gtab at 1. rewrite gwr_tab by lia. cbn [bind].
      unfold gtab at 1. rewrite gwr_tab by lia. cbn [bind]. do 2 f_equal; apply tab_ext; intros n Hn.
      * destruct (Z.ltb_spec (H - i) (H - i)); [lia|]. destruct (Z.ltb_spec i i); [lia|]. rewrite andb_false_r.
        destruct (Z.eqb_spec n (H - i)), (Z.ltb_spec (H - i) n), (Z.ltb_spec (H - (i + 1)) n); try lia; subst; try reflexivity.
        unfold low. destruct (Z.eqb_spec (H - i) 0); [lia|]. do 2 f_equal. f_equal. lia.
      * destruct (Z.ltb_spec i i); [lia|]. rewrite andb_false_r.
        destruct (Z.eqb_spec n i), (Z.leb_spec 1 n), (Z.ltb_spec n i), (Z.ltb_spec n (i + 1)); cbn [andb]; try lia; subst; try reflexivity.
        unfold high. destruct (Z.eqb_spec i 0); [lia|]. do 2 f_equal. f_equal. lia.
Qed.
