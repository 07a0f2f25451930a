(** Facts about the decimal conversions fr_str / to_str of Z_Q.h. *)
From Coq Require Import ZArith List Bool Lia.
From Verif Require Import Base BaseFacts ZQ ZQFacts ZQFacts2.
Import ListNotations.
Open Scope Z_scope.

(** Digit [i] of [V] in base [b]. *)
Definition dgb (b V i : Z) : Z := (V / b ^ i) mod b.

Lemma dgb_range b V i : 0 < b -> 0 <= dgb b V i < b.
Proof. intros. apply Z.mod_pos_bound. auto. Qed.

Lemma div_pow_S b V i : 1 < b -> 0 <= i -> V / b ^ i = b * (V / b ^ (i + 1)) + dgb b V i.
Proof.
  intros Hb Hi. unfold dgb. assert (0 < b ^ i) by (apply Z.pow_pos_nonneg; lia).
  rewrite Z.pow_add_r, Z.pow_1_r by lia. rewrite <- Z.div_div by lia. apply Z.div_mod. lia.
Qed.

(** One step of long division of [V] (base [b]) by [c]. *)
Lemma longdiv b c V i : 1 < b -> 1 < c -> 0 <= i ->
  let rem := (V / b ^ (i + 1)) mod c * b + dgb b V i in
  rem / c = dgb b (V / c) i /\ rem mod c = (V / b ^ i) mod c.
Proof.
  intros Hb Hc Hi rem. assert (Hp : 0 < b ^ i) by (apply Z.pow_pos_nonneg; lia).
  set (P1 := V / b ^ (i + 1)) in *. set (P0 := V / b ^ i).
  assert (E0 : P0 = b * P1 + dgb b V i) by (apply div_pow_S; auto).
  assert (ER : rem = P0 - c * (b * (P1 / c))).
  { unfold rem. rewrite E0. rewrite (Z.mod_eq P1 c) by lia. ring. }
  assert (Hp1 : 0 < b ^ (i + 1)) by (apply Z.pow_pos_nonneg; lia).
  split.
  - rewrite ER. replace (P0 - c * (b * (P1 / c))) with (P0 + (- (b * (P1 / c))) * c) by ring.
    rewrite Z.div_add by lia. unfold P0, P1.
    rewrite !Z.div_div by lia. rewrite (Z.mul_comm (b ^ i)), (Z.mul_comm (b ^ (i + 1))).
    rewrite <- !Z.div_div by lia. rewrite (div_pow_S b (V / c) i) by auto. lia.
  - rewrite ER. replace (P0 - c * (b * (P1 / c))) with (P0 + (- (b * (P1 / c))) * c) by ring.
    apply Z.mod_add. lia.
Qed.

Lemma dgb_valf32 V i : 0 <= i -> dgb (2 ^ 32) V (2 * i) + dgb (2 ^ 32) V (2 * i + 1) * 2 ^ 32 = dg V i.
Proof.
  intros H. unfold dgb, dg, Wp. rewrite <- !Z.pow_mul_r by lia.
  replace (32 * (2 * i)) with (64 * i) by lia.
  replace (32 * (2 * i + 1)) with (64 * i + 32) by lia.
  rewrite Z.pow_add_r by lia. pose proof (pow2_pos (64 * i) ltac:(lia)).
  rewrite <- Z.div_div by lia. set (x := V / 2 ^ (64 * i)).
  replace W with (2 ^ 32 * 2 ^ 32) by reflexivity. rewrite Z.rem_mul_r by lia. lia.
Qed.

Lemma zero_flag b V i (z : bool) : 1 < b -> 0 <= i -> 0 <= V ->
  z = (V / b ^ (i + 1) =? 0) ->
  (if dgb b V i =? 0 then z else false) = (V / b ^ i =? 0).
Proof.
  intros Hb Hi HV ->. rewrite (div_pow_S b V i) by auto.
  pose proof (dgb_range b V i ltac:(lia)).
  assert (0 < b ^ (i + 1)) by (apply Z.pow_pos_nonneg; lia).
  assert (0 <= V / b ^ (i + 1)) by (apply Z.div_pos; lia).
  destruct (Z.eqb_spec (dgb b V i) 0) as [->|];
  destruct (Z.eqb_spec (V / b ^ (i + 1)) 0) as [->|]; symmetry; (apply Z.eqb_eq || apply Z.eqb_neq); nia.
Qed.

(** Number of base-[b] digits (at least one). *)
Lemma ndigits b V m : 1 < b -> 0 <= V -> V < b ^ Z.of_nat m -> (1 <= m)%nat ->
  exists k, (1 <= k <= m)%nat /\ V < b ^ Z.of_nat k /\ (k = 1%nat \/ b ^ Z.of_nat (k - 1) <= V).
Proof.
  intros Hb HV. induction m; intros H Hm; [lia|].
  destruct (Nat.eq_dec m 0) as [->|].
  - exists 1%nat. split; [lia|]. auto.
  - destruct (Z_lt_le_dec V (b ^ Z.of_nat m)).
    + destruct IHm as (k & Hk & H1 & H2); auto; [lia|]. exists k. split; [lia|]. auto.
    + exists (S m). split; [lia|]. split; auto. right. replace (S m - 1)%nat with m by lia. auto.
Qed.

Section FrStr.
Variables (LOGQ : Z) (n : Z) (V : Z).
Hypothesis HQ : 1 <= LOGQ.
Hypothesis Hn : 0 <= n <= 520.
Hypothesis HV : 0 <= V < 10 ^ n.
Hypothesis HVW : V < Wp (len LOGQ).

Let Adig (U : Z) : arr := tab 520 (fun i => if i <? n then Some (dgb 10 U i) else None).

Lemma fr_inner U : 0 <= U < 10 ^ n ->
  for_down (n - 1) 0 (fun i '(A, rem, zero) =>
               let rem := wmul rem 10 in
               a <- rd A i ;;
               let rem := wadd rem a in
               x <- wshr rem 32 ;;
               A <- wr A i (to_int x) ;;
               a <- rd A i ;;
               let zero := if a =? 0 then zero else false in
               rem <- wshl rem 32 ;; rem <- wshr rem 32 ;;
               Ok (A, rem, zero)) (Adig U, 0, true)
  = Ok (Adig (U / 2 ^ 32), U mod 2 ^ 32, U / 2 ^ 32 =? 0).
Proof.
  intros HU.
  apply (for_down_closed _ (fun i =>
     (tab 520 (fun j => if j <? n then Some (if i <? j then dgb 10 (U / 2 ^ 32) j else dgb 10 U j) else None),
      (U / 10 ^ (i + 1)) mod 2 ^ 32, U / 2 ^ 32 / 10 ^ (i + 1) =? 0))).
  - lia.
  - replace (n - 1 + 1) with n by lia.
    assert (E : U / 10 ^ n = 0) by (apply Z.div_small; lia). f_equal; [f_equal|].
    + apply tab_ext. intros j Hj. zcase; auto.
    + rewrite E. reflexivity.
    + rewrite Z.div_div by (try apply Z.pow_pos_nonneg; lia). rewrite (Z.mul_comm (2 ^ 32)).
      rewrite <- Z.div_div by (try apply Z.pow_pos_nonneg; lia). rewrite E. reflexivity.
  - change (0 - 1 + 1) with 0. rewrite Z.pow_0_r, !Z.div_1_r. apply f_equal2; [|reflexivity]. apply f_equal2; [|reflexivity].
    apply tab_ext. intros j Hj. zcase; auto.
  - intros i Hi. cbv beta iota zeta. rewrite rd_tab by lia.
    destruct (Z.ltb_spec i n); [|lia]. rewrite Z.ltb_irrefl. cbn [bind].
    destruct (longdiv 10 (2 ^ 32) U i ltac:(lia) ltac:(lia) ltac:(lia)) as [E1 E2]. cbv zeta in E1, E2.
    set (R := (U / 10 ^ (i + 1)) mod 2 ^ 32) in *.
    assert (HR : 0 <= R < 2 ^ 32) by (apply Z.mod_pos_bound; lia).
    pose proof (dgb_range 10 U i ltac:(lia)) as Hd.
    assert (HW : W = 2 ^ 32 * 2 ^ 32) by reflexivity.
    assert (Ew : wadd (wmul R 10) (dgb 10 U i) = R * 10 + dgb 10 U i).
    { unfold wmul, wadd. rewrite (wrap_small (R * 10)) by (unfold is_word; nia).
      apply wrap_small. unfold is_word; nia. }
    rewrite Ew. rewrite wshr_ok by lia. cbn [bind]. rewrite E1.
    pose proof (dgb_range 10 (U / 2 ^ 32) i ltac:(lia)) as Hd2.
    assert (Ei : to_int (dgb 10 (U / 2 ^ 32) i) = dgb 10 (U / 2 ^ 32) i).
    { unfold to_int. rewrite Z.mod_small by lia. zcase. }
    rewrite Ei. rewrite wr_tab by lia. cbn [bind]. rewrite rd_tab by lia. rewrite Z.eqb_refl. cbn [bind].
    rewrite wshl_ok by lia. cbn [bind]. rewrite wshr_ok by lia. cbn [bind].
    rewrite shl_shr by lia. change (64 - 32) with 32. rewrite E2.
    assert (HU2 : 0 <= U / 2 ^ 32) by (apply Z.div_pos; lia).
    rewrite (zero_flag 10 (U / 2 ^ 32) i _ ltac:(lia) ltac:(lia) HU2 eq_refl).
    replace (i - 1 + 1) with i by lia. f_equal. apply f_equal2; [|reflexivity]. apply f_equal2; [|reflexivity].
    apply tab_ext. intros j Hj. destruct (Z.eqb_spec j i).
    + subst j. zcase. auto.
    + zcase; auto.
Qed.

Lemma fr_str_loop D (str : list Z) : length D = Z.to_nat (len LOGQ) ->
  n = Z.of_nat (length str) ->
  (forall i, 0 <= i < n -> lget str (n - 1 - i) = Ok (48 + dgb 10 V i)) ->
  zq_fr_str LOGQ D str = Ok (raw (len LOGQ) V).
Proof.
  intros HD En Hstr. pose proof (len_bounds LOGQ HQ) as Hl. unfold zq_fr_str. rewrite <- En.
  rewrite fresh_tab.
  rewrite (for_closed _ (fun i => tab 520 (fun j => if j <? i then Some (dgb 10 V j) else None))
            0 n _ (Adig V)).
  2: lia.
  2:{ apply tab_ext. intros j Hj. zcase; auto. }
  2:{ reflexivity. }
  2:{ intros i Hi. rewrite Hstr by lia. cbn [bind]. rewrite wr_tab by lia. f_equal.
      apply tab_ext. intros j Hj. destruct (Z.eqb_spec j i).
      - subst j. zcase. f_equal. lia.
      - zcase; auto. }
  cbn [bind].
  destruct (ndigits (2 ^ 32) V (Z.to_nat (2 * len LOGQ))) as (m & Hm & HVm & _).
  { lia. } { lia. }
  { rewrite Z2Nat.id by lia. rewrite <- Z.pow_mul_r by lia.
    replace (32 * (2 * len LOGQ)) with (64 * len LOGQ) by lia. exact HVW. }
  { lia. }
  (* values after k rounds *)
  set (Vk := fun k : nat => V / 2 ^ (32 * Z.of_nat k)).
  assert (HVk : forall k, 0 <= Vk k < 10 ^ n).
  { intros k. unfold Vk. pose proof (pow2_pos (32 * Z.of_nat k) ltac:(lia)). split.
    - apply Z.div_pos; lia.
    - eapply Z.le_lt_trans; [|apply HV]. apply Z.div_le_upper_bound; [lia|]. nia. }
  assert (HVS : forall k, Vk (S k) = Vk k / 2 ^ 32).
  { intros k. unfold Vk. pose proof (pow2_pos (32 * Z.of_nat k) ltac:(lia)).
    rewrite Z.div_div by lia. rewrite <- Z.pow_add_r by lia. do 2 f_equal. lia. }
  (* minimal round count with zero quotient *)
  destruct (ndigits (2 ^ 32) V m) as (k0 & Hk0 & HVk0 & Hmin); [lia|lia|auto|lia|].
  assert (Hzero : forall k, (k < k0)%nat -> (1 <= k)%nat -> (Vk k =? 0) = false).
  { intros k Hk Hk1. apply Z.eqb_neq. unfold Vk.
    destruct Hmin as [->|Hmin]; [lia|].
    intros E. apply Z.div_small_iff in E; [|pose proof (pow2_pos (32 * Z.of_nat k)); lia].
    destruct E as [E|E]; [|lia]. rewrite <- Z.pow_mul_r in Hmin by lia.
    pose proof (Z.pow_le_mono_r 2 (32 * Z.of_nat k) (32 * Z.of_nat (k0 - 1)) ltac:(lia) ltac:(lia)). lia. }
  assert (Hlast : Vk k0 = 0).
  { unfold Vk. apply Z.div_small. rewrite <- Z.pow_mul_r in HVk0 by lia. lia. }
  set (st := fun k : nat => (Adig (Vk k),
        tab (len LOGQ * 2) (fun j => if j <? Z.of_nat k then Some (dgb (2 ^ 32) V j) else None),
        match k with O => false | _ => Vk k =? 0 end, Z.of_nat k)).
  rewrite (while_closed _ _ st k0).
  - unfold st. cbn [bind].
    destruct k0 as [|k0']; [lia|]. set (k0 := S k0') in *.
    rewrite (for_closed _ (fun i => tab (len LOGQ * 2) (fun j => if j <? i then Some (dgb (2 ^ 32) V j) else None))
               (Z.of_nat k0) (2 * len LOGQ) _ (wtab (len LOGQ * 2) (dgb (2 ^ 32) V))).
    2: lia.
    2: reflexivity.
    2:{ apply tab_ext. intros j Hj. zcase; auto. }
    2:{ intros i Hi. rewrite wr_tab by lia. f_equal. apply tab_ext. intros j Hj.
        destruct (Z.eqb_spec j i).
        - subst j. zcase. f_equal. unfold dgb. rewrite <- Z.pow_mul_r in * by lia.
          rewrite Z.div_small; [reflexivity|]. split; [lia|].
          pose proof (Z.pow_le_mono_r 2 (32 * Z.of_nat k0) (32 * i) ltac:(lia) ltac:(lia)). lia.
        - zcase; auto. }
    cbn [bind].
    destruct (arr_tab None D _ HD) as [g ->].
    apply (for_closed _ (fun i => tab (len LOGQ) (fun j => if j <? i then Some (dg V j) else g j))).
    + lia.
    + apply tab_ext. intros j Hj. zcase; auto.
    + apply tab_ext. intros j Hj. zcase; auto.
    + intros i Hi. rewrite !rd_wtab by lia. cbn [bind]. rewrite wshl_ok by lia. cbn [bind].
      rewrite wr_tab by lia. f_equal. apply tab_ext. intros j Hj.
      destruct (Z.eqb_spec j i).
      * subst j. zcase. f_equal. rewrite <- dgb_valf32 by lia.
        pose proof (dgb_range (2 ^ 32) V (2 * i) ltac:(lia)).
        pose proof (dgb_range (2 ^ 32) V (2 * i + 1) ltac:(lia)).
        assert (HW : W = 2 ^ 32 * 2 ^ 32) by reflexivity.
        unfold wadd. rewrite (wrap_small (dgb _ _ (2 * i + 1) * _)) by (unfold is_word; nia).
        apply wrap_small. unfold is_word. nia.
      * zcase; auto.
  - lia.
  - unfold st. f_equal. f_equal. f_equal.
    + unfold Vk. cbn [Z.of_nat]. rewrite Z.mul_0_r, Z.pow_0_r, Z.div_1_r. reflexivity.
    + rewrite fresh_tab. apply tab_ext. intros j Hj. cbn [Z.of_nat]. zcase; auto.
  - intros k Hk. split.
    + unfold st. destruct k; [reflexivity|]. rewrite Hzero by lia. reflexivity.
    + unfold st at 1. cbv beta iota. rewrite fr_inner by (apply HVk). cbn [bind].
      rewrite wr_tab by lia. cbn [bind]. unfold st. rewrite HVS.
      replace (Z.of_nat k + 1) with (Z.of_nat (S k)) by lia. f_equal. f_equal. f_equal. f_equal.
      apply tab_ext. intros j Hj. destruct (Z.eqb_spec j (Z.of_nat k)).
      * subst j. zcase. f_equal. unfold Vk, dgb. rewrite <- Z.pow_mul_r by lia. reflexivity.
      * zcase; auto.
  - unfold st. destruct k0; [lia|]. rewrite Hlast. reflexivity.
Qed.
End FrStr.

Section ToStr.
Variables (LOGQ : Z) (V : Z).
Hypothesis HQ : 1 <= LOGQ.
Hypothesis HV : 0 <= V < Wp (len LOGQ).

Let n := 2 * len LOGQ.
Let Adig (U : Z) : arr := wtab n (dgb (2 ^ 32) U).

Lemma to_inner U : 0 <= U < Wp (len LOGQ) ->
  for_down (n - 1) 0 (fun i '(A, rem, zero) =>
               rem <- wshl rem 32 ;;
               a <- rd A i ;;
               let rem := wadd rem a in
               x <- wdiv rem 10 ;;
               A <- wr A i x ;;
               a <- rd A i ;;
               let zero := if a =? 0 then zero else false in
               rem <- wmod rem 10 ;;
               Ok (A, rem, zero)) (Adig U, 0, true)
  = Ok (Adig (U / 10), U mod 10, U / 10 =? 0).
Proof.
  intros HU. pose proof (len_bounds LOGQ HQ) as Hl.
  assert (Hn2 : Wp (len LOGQ) = (2 ^ 32) ^ n).
  { unfold Wp, n. rewrite <- Z.pow_mul_r by lia. f_equal. lia. }
  rewrite Hn2 in HU.
  apply (for_down_closed _ (fun i =>
     (wtab n (fun j => if i <? j then dgb (2 ^ 32) (U / 10) j else dgb (2 ^ 32) U j),
      (U / (2 ^ 32) ^ (i + 1)) mod 10, U / 10 / (2 ^ 32) ^ (i + 1) =? 0))).
  - lia.
  - replace (n - 1 + 1) with n by lia.
    assert (0 < (2 ^ 32) ^ n) by lia.
    assert (E : U / (2 ^ 32) ^ n = 0) by (apply Z.div_small; lia). f_equal; [f_equal|].
    + apply wtab_ext. intros j Hj. zcase; auto.
    + rewrite E. reflexivity.
    + rewrite Z.div_div by lia. rewrite (Z.mul_comm 10).
      rewrite <- Z.div_div by lia. rewrite E. reflexivity.
  - change (0 - 1 + 1) with 0. rewrite Z.pow_0_r, !Z.div_1_r. f_equal. f_equal.
    apply wtab_ext. intros j Hj. zcase; auto.
  - intros i Hi. cbv beta iota zeta. rewrite wshl_ok by lia. cbn [bind]. rewrite rd_wtab by lia. cbn [bind].
    rewrite Z.ltb_irrefl.
    destruct (longdiv (2 ^ 32) 10 U i ltac:(lia) ltac:(lia) ltac:(lia)) as [E1 E2]. cbv zeta in E1, E2.
    set (R := (U / (2 ^ 32) ^ (i + 1)) mod 10) in *.
    assert (HR : 0 <= R < 10) by (apply Z.mod_pos_bound; lia).
    pose proof (dgb_range (2 ^ 32) U i ltac:(lia)) as Hd.
    assert (HW : W = 2 ^ 32 * 2 ^ 32) by reflexivity.
    assert (Ew : wadd (wrap (R * 2 ^ 32)) (dgb (2 ^ 32) U i) = R * 2 ^ 32 + dgb (2 ^ 32) U i).
    { unfold wadd. rewrite (wrap_small (R * 2 ^ 32)) by (unfold is_word; nia).
      apply wrap_small. unfold is_word; nia. }
    rewrite Ew. unfold wdiv, wmod. change (10 =? 0) with false. cbv iota. cbn [bind]. rewrite E1.
    rewrite wr_wtab by lia. cbn [bind]. rewrite rd_wtab by lia. rewrite Z.eqb_refl. cbn [bind].
    rewrite E2.
    assert (HU2 : 0 <= U / 10) by (apply Z.div_pos; lia).
    rewrite (zero_flag (2 ^ 32) (U / 10) i _ ltac:(lia) ltac:(lia) HU2 eq_refl).
    replace (i - 1 + 1) with i by lia. f_equal. f_equal. f_equal.
    apply wtab_ext. intros j Hj. destruct (Z.eqb_spec j i).
    + subst j. zcase; auto.
    + zcase; auto.
Qed.

Lemma to_str_loop (str : arr) S : LOGQ <= 1300 -> 520 <= S -> length str = Z.to_nat S ->
  exists (m : nat) g, str = tab S g /\ (1 <= m <= 405)%nat /\
    V < 10 ^ Z.of_nat m /\ (m = 1%nat \/ 10 ^ Z.of_nat (m - 1) <= V) /\
    zq_to_str LOGQ (raw (len LOGQ) V) str =
    Ok (tab S (fun i => if i <? Z.of_nat m then Some (48 + dgb 10 V (Z.of_nat m - 1 - i))
                        else if i =? Z.of_nat m then Some 0 else g i)).
Proof.
  intros HQ2 HS Hlen. pose proof (len_bounds LOGQ HQ) as Hl.
  destruct (ndigits 10 V 405) as (m & Hm & HVm & Hmin).
  { lia. } { lia. }
  { eapply Z.lt_le_trans; [apply HV|]. unfold Wp.
    eapply Z.le_trans; [apply (Z.pow_le_mono_r 2 (64 * len LOGQ) 1344); lia|].
    vm_compute. discriminate. }
  { lia. }
  destruct (arr_tab None str _ Hlen) as [g ->].
  exists m, g. split; [reflexivity|]. split; [lia|]. split; [auto|]. split; [auto|].
  unfold zq_to_str. change (Z.quot (LOGQ + 63) 64) with (len LOGQ). fold n.
  rewrite fresh_tab.
  rewrite (for_closed _ (fun i => tab n (fun j => if j <? 2 * i then Some (dgb (2 ^ 32) V j) else None))
             0 (len LOGQ) _ (Adig V)).
  2: lia.
  2:{ apply tab_ext. intros j Hj. zcase; auto. }
  2:{ apply tab_ext. intros j Hj. zcase; auto. }
  2:{ intros i Hi. rewrite rd_raw by lia. cbn [bind]. rewrite wshl_ok by lia. cbn [bind].
      rewrite wshr_ok by lia. cbn [bind]. rewrite wr_tab by lia. cbn [bind].
      rewrite wshr_ok by lia. cbn [bind]. rewrite wr_tab by lia. f_equal.
      rewrite shl_shr by lia. change (64 - 32) with 32.
      pose proof (dgb_range (2 ^ 32) V (2 * i) ltac:(lia)).
      pose proof (dgb_range (2 ^ 32) V (2 * i + 1) ltac:(lia)).
      apply tab_ext. intros j Hj. rewrite <- dgb_valf32 by lia.
      destruct (Z.eqb_spec j (2 * i + 1)); [|destruct (Z.eqb_spec j (2 * i))].
      - subst j. zcase. f_equal. rewrite Z.div_add by lia. rewrite (Z.div_small (dgb _ _ (2 * i))) by lia. lia.
      - subst j. zcase. f_equal. rewrite Z.mod_add by lia. apply Z.mod_small. lia.
      - zcase; auto. }
  cbn [bind]. unfold assert_. destruct (Z.leb_spec LOGQ 1300); [|lia]. cbn [bind].
  set (Vk := fun k : nat => V / 10 ^ Z.of_nat k).
  assert (HVk : forall k, 0 <= Vk k < Wp (len LOGQ)).
  { intros k. unfold Vk. assert (0 < 10 ^ Z.of_nat k) by (apply Z.pow_pos_nonneg; lia). split.
    - apply Z.div_pos; lia.
    - eapply Z.le_lt_trans; [|apply HV]. apply Z.div_le_upper_bound; [lia|]. nia. }
  assert (HVS : forall k, Vk (Datatypes.S k) = Vk k / 10).
  { intros k. unfold Vk. assert (0 < 10 ^ Z.of_nat k) by (apply Z.pow_pos_nonneg; lia).
    rewrite Z.div_div by lia. do 1 f_equal. rewrite Nat2Z.inj_succ, Z.pow_succ_r by lia. ring. }
  assert (Hzero : forall k, (k < m)%nat -> (1 <= k)%nat -> (Vk k =? 0) = false).
  { intros k Hk Hk1. apply Z.eqb_neq. unfold Vk.
    destruct Hmin as [->|Hmin]; [lia|].
    assert (0 < 10 ^ Z.of_nat k) by (apply Z.pow_pos_nonneg; lia).
    intros E. apply Z.div_small_iff in E; [|lia].
    destruct E as [E|E]; [|lia].
    pose proof (Z.pow_le_mono_r 10 (Z.of_nat k) (Z.of_nat (m - 1)) ltac:(lia) ltac:(lia)). lia. }
  assert (Hlast : Vk m = 0) by (unfold Vk; apply Z.div_small; lia).
  set (st := fun k : nat => (Adig (Vk k),
        tab 520 (fun j => if j <? Z.of_nat k then Some (dgb 10 V j) else None),
        match k with O => false | _ => Vk k =? 0 end, Z.of_nat k)).
  rewrite (while_closed _ _ st m).
  - unfold st. cbn [bind].
    rewrite (for_closed _ (fun i => tab S (fun j => if j <? i then Some (48 + dgb 10 V (Z.of_nat m - 1 - j)) else g j))
               0 (Z.of_nat m) _ (tab S (fun j => if j <? Z.of_nat m then Some (48 + dgb 10 V (Z.of_nat m - 1 - j)) else g j))).
    + cbn [bind]. rewrite wr_tab by lia. f_equal. apply tab_ext. intros j Hj. zcase; auto.
    + lia.
    + apply tab_ext. intros j Hj. zcase; auto.
    + reflexivity.
    + intros i Hi. rewrite rd_tab by lia. destruct (Z.ltb_spec (Z.of_nat m - 1 - i) (Z.of_nat m)); [|lia].
      cbn [bind]. rewrite wr_tab by lia. f_equal. apply tab_ext. intros j Hj.
      destruct (Z.eqb_spec j i); [subst j|]; zcase; auto.
  - lia.
  - unfold st. apply f_equal2; [|reflexivity]. apply f_equal2; [|reflexivity]. apply f_equal2.
    + unfold Vk. cbn [Z.of_nat]. rewrite Z.pow_0_r, Z.div_1_r. reflexivity.
    + rewrite fresh_tab. apply tab_ext. intros j Hj. cbn [Z.of_nat]. zcase; auto.
  - intros k Hk. split.
    + unfold st. destruct k; [reflexivity|]. rewrite Hzero by lia. reflexivity.
    + unfold st at 1. cbv beta iota. rewrite to_inner by (apply HVk). cbn [bind].
      assert (Ei : to_int (Vk k mod 10) = Vk k mod 10).
      { pose proof (Z.mod_pos_bound (Vk k) 10 ltac:(lia)). unfold to_int.
        rewrite (Z.mod_small (Vk k mod 10)) by lia. zcase. }
      rewrite Ei. rewrite wr_tab by lia. cbn [bind]. unfold st. rewrite HVS.
      replace (Z.of_nat k + 1) with (Z.of_nat (Datatypes.S k)) by lia. f_equal. f_equal. f_equal. f_equal.
      apply tab_ext. intros j Hj. destruct (Z.eqb_spec j (Z.of_nat k)).
      * subst j. zcase. reflexivity.
      * zcase; auto.
  - unfold st. destruct m; [lia|]. rewrite Hlast. reflexivity.
Qed.
End ToStr.

Lemma to_str_abort LOGQ D str : 1 <= LOGQ -> (exists v, D = raw (len LOGQ) v) -> 1300 < LOGQ ->
  zq_to_str LOGQ D str = Abort.
Proof.
  intros HQ [V ->] H. pose proof (len_bounds LOGQ HQ) as Hl.
  unfold zq_to_str. change (Z.quot (LOGQ + 63) 64) with (len LOGQ).
  rewrite fresh_tab.
  destruct (for_inv (fun i A =>
         x <- rd (raw (len LOGQ) V) i ;; y <- wshl x 32 ;; y <- wshr y 32 ;;
         A <- wr A (2 * i) y ;;
         y <- wshr x 32 ;;
         wr A (2 * i + 1) y) (fun _ A => exists g, A = tab (2 * len LOGQ) g) 0 (len LOGQ)
      (tab (2 * len LOGQ) (fun _ => None))) as (A & E & _).
  - lia.
  - eauto.
  - intros i A Hi [g ->]. rewrite rd_raw by lia. cbn [bind]. rewrite wshl_ok by lia. cbn [bind].
    rewrite wshr_ok by lia. cbn [bind]. rewrite wr_tab by lia. cbn [bind].
    rewrite wshr_ok by lia. cbn [bind]. rewrite wr_tab by lia. eauto.
  - rewrite E. cbn [bind]. unfold assert_. destruct (Z.leb_spec LOGQ 1300); [lia|]. reflexivity.
Qed.
