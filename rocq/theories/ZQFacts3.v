(** Remaining facts for the Z_Q properties: self-aliased addition, decimal strings, resize in place. *)
From Coq Require Import ZArith List Bool Lia.
From Verif Require Import Base BaseFacts ZQ ZQFacts ZQFacts2 ZQStr SpecZQ SpecZQFacts.
Import ListNotations.
Open Scope Z_scope.

(** ** x += x *)

Lemma zq_add_self_raw LOGQ v : 1 <= LOGQ ->
  zq_add_self LOGQ (raw (len LOGQ) v) =
  Ok (rep LOGQ (valf (Z.to_nat (len LOGQ)) (fun j => wrap (2 * dg v j)))).
Proof.
  intros H. pose proof (len_bounds LOGQ H) as Hl. unfold zq_add_self, zq_add_gen.
  set (f := fun j => wrap (2 * dg v j)).
  rewrite (for_closed _ (fun i => (wtab (len LOGQ) (fun j => if j <? i then f j else dg v j), false))
             0 (len LOGQ) _ (wtab (len LOGQ) f, false)).
  - cbn [bind]. rewrite (wtab_raw _ f) by (intros; apply wrap_word).
    apply remove_clutter_ok. auto.
  - lia.
  - f_equal. apply wtab_ext. intros j Hj. zcase; auto.
  - f_equal. apply wtab_ext. intros j Hj. zcase; auto.
  - intros i Hi. cbv beta iota. rewrite rd_wtab by lia. cbn [bind]. rewrite Z.ltb_irrefl.
    rewrite wr_wtab by lia. cbn [bind]. rewrite rd_wtab by lia. cbn [bind].
    rewrite Z.eqb_refl, Z.ltb_irrefl. cbn [bind andb orb]. f_equal. f_equal.
    apply wtab_ext. intros j Hj. zcase; subst; auto. unfold f, wadd. f_equal. lia.
Qed.

(** The carries dropped by [x += x]. *)
Fixpoint lost (v : Z) (n : nat) : Z :=
  match n with
  | O => 0
  | S m => lost v m + (if dg v (Z.of_nat m) <? 2 ^ 63 then 0 else 1) * Wp (Z.of_nat m + 1)
  end.

Lemma double_lost v n : valf n (fun j => wrap (2 * dg v j)) = 2 * (v mod Wp (Z.of_nat n)) - lost v n.
Proof.
  induction n.
  - cbn. rewrite Z.mod_1_r. reflexivity.
  - rewrite valf_S, IHn, Nat2Z.inj_succ. unfold Z.succ. rewrite mod_Wp_S by lia. cbn [lost].
    rewrite Wp_S by lia. pose proof (dg_word v (Z.of_nat n)) as Hd. unfold is_word in Hd.
    assert (HW : W = 2 * 2 ^ 63) by reflexivity.
    destruct (Z.ltb_spec (dg v (Z.of_nat n)) (2 ^ 63)).
    + rewrite wrap_small by (unfold is_word; lia). ring.
    + unfold wrap. replace ((2 * dg v (Z.of_nat n)) mod W) with (2 * dg v (Z.of_nat n) - W)
        by (apply (Z.mod_unique _ _ 1); lia). ring.
Qed.

Lemma lost_bounds v n : 0 <= lost v n /\ ((1 <= n)%nat -> lost v n <= 2 * Wp (Z.of_nat n) - 1).
Proof.
  induction n as [|n IH]; [cbn; lia|]. cbn [lost]. rewrite Nat2Z.inj_succ. unfold Z.succ.
  pose proof (Wp_pos (Z.of_nat n + 1) ltac:(lia)).
  destruct IH as [H0 H1]. split; [destruct (_ <? _); lia|]. intros _.
  rewrite Wp_S in * by lia. pose proof (Wp_pos (Z.of_nat n) ltac:(lia)).
  assert (HW : 4 <= W) by (vm_compute; discriminate).
  destruct (Nat.eq_dec n 0) as [->|].
  - cbn [lost]. destruct (_ <? _); lia.
  - specialize (H1 ltac:(lia)). destruct (_ <? _); nia.
Qed.

Lemma lost_zero v n : lost v n = 0 <-> forall j, 0 <= j < Z.of_nat n -> dg v j < 2 ^ 63.
Proof.
  induction n as [|n IH]; [cbn; split; [intros; lia|auto]|]. cbn [lost].
  pose proof (proj1 (lost_bounds v n)). pose proof (Wp_pos (Z.of_nat n + 1) ltac:(lia)).
  destruct (Z.ltb_spec (dg v (Z.of_nat n)) (2 ^ 63)).
  - rewrite Z.mul_0_l, Z.add_0_r. rewrite IH. split; intros HH j Hj.
    + destruct (Z.eq_dec j (Z.of_nat n)); [subst; auto|apply HH; lia].
    + apply HH. lia.
  - split; intros HH; [lia|]. specialize (HH (Z.of_nat n) ltac:(lia)). lia.
Qed.

(** [x += x] is right exactly if no word but the topmost has its top bit set. *)
Lemma self_add_iff LOGQ v : 1 <= LOGQ -> 0 <= v < Wp (len LOGQ) ->
  (zq_add_self LOGQ (raw (len LOGQ) v) = Ok (rep LOGQ (2 * v))
   <-> forall j, 0 <= j < len LOGQ - 1 -> dg v j < 2 ^ 63).
Proof.
  intros H Hv. pose proof (len_bounds LOGQ H) as Hl. rewrite zq_add_self_raw by auto.
  rewrite double_lost. rewrite Z2Nat.id by lia. rewrite (Z.mod_small v) by auto.
  set (n := Z.to_nat (len LOGQ - 1)).
  assert (En : Z.to_nat (len LOGQ) = S n) by lia. rewrite En. cbn [lost].
  assert (EZ : Z.of_nat n = len LOGQ - 1) by lia. rewrite EZ.
  replace (len LOGQ - 1 + 1) with (len LOGQ) by lia.
  set (b := if dg v (len LOGQ - 1) <? 2 ^ 63 then 0 else 1).
  assert (Erep : rep LOGQ (2 * v - (lost v n + b * Wp (len LOGQ))) = rep LOGQ (2 * v - lost v n)).
  { rewrite <- rep_raw_mod by auto. rewrite <- (rep_raw_mod LOGQ (2 * v - lost v n)) by auto. f_equal.
    replace (2 * v - (lost v n + b * Wp (len LOGQ))) with (2 * v - lost v n + (- b) * Wp (len LOGQ)) by ring.
    apply Z.mod_add. pose proof (Wp_pos (len LOGQ)); lia. }
  rewrite Erep.
  transitivity (lost v n = 0).
  - split.
    + intros E. assert (E' : rep LOGQ (2 * v - lost v n) = rep LOGQ (2 * v)) by congruence.
      apply rep_inj in E'; auto.
      destruct (lost_bounds v n) as [B0 B1].
      assert (HB : 0 <= lost v n < 2 ^ LOGQ).
      { split; auto. destruct (Nat.eq_dec n 0) as [En0|].
        - rewrite En0. cbn. apply pow2_pos. lia.
        - specialize (B1 ltac:(lia)). rewrite EZ in B1. unfold Wp in B1.
          assert (2 ^ (64 * (len LOGQ - 1) + 1) <= 2 ^ LOGQ) by (apply Z.pow_le_mono_r; lia).
          rewrite Z.pow_add_r in H0 by lia. lia. }
      pose proof (pow2_pos LOGQ ltac:(lia)).
      assert (Hz : lost v n mod 2 ^ LOGQ = 0).
      { replace (lost v n) with (2 * v - (2 * v - lost v n)) by ring.
        rewrite Zminus_mod, E'. rewrite Z.sub_diag. apply Z.mod_0_l. lia. }
      rewrite Z.mod_small in Hz by lia. auto.
    + intros ->. rewrite Z.sub_0_r. reflexivity.
  - rewrite lost_zero, EZ. reflexivity.
Qed.

(** ** decimal strings *)

Lemma dec_value_acc s : forall acc, dec_value acc s = acc * 10 ^ Z.of_nat (length s) + dec_value 0 s.
Proof.
  induction s as [|c s IH]; intros acc.
  - cbn. lia.
  - cbn [dec_value length]. rewrite IH, (IH (0 * 10 + (c - 48))). rewrite Nat2Z.inj_succ, Z.pow_succ_r by lia.
    ring.
Qed.

Lemma dec_value_bound s : Forall is_digit s -> 0 <= dec_value 0 s < 10 ^ Z.of_nat (length s).
Proof.
  induction s as [|c s IH]; intros H.
  - cbn. lia.
  - inversion_clear H. specialize (IH H1). unfold is_digit in H0. cbn [dec_value length].
    rewrite dec_value_acc. rewrite Nat2Z.inj_succ, Z.pow_succ_r by lia. nia.
Qed.

Lemma dec_digits s : Forall is_digit s ->
  s = tab (Z.of_nat (length s)) (fun i => 48 + dgb 10 (dec_value 0 s) (Z.of_nat (length s) - 1 - i)).
Proof.
  induction s as [|c s IH]; intros H.
  - reflexivity.
  - inversion_clear H. specialize (IH H1). cbn [length]. rewrite Nat2Z.inj_succ. unfold Z.succ.
    rewrite tab_cons by lia. pose proof (dec_value_bound s H1) as Hb.
    cbn [dec_value]. rewrite dec_value_acc.
    set (n := Z.of_nat (length s)) in *. set (V := dec_value 0 s) in *. unfold is_digit in H0.
    assert (Hp : 0 < 10 ^ n) by (apply Z.pow_pos_nonneg; lia).
    replace (0 * 10 + (c - 48)) with (c - 48) by ring. f_equal.
    + replace (n + 1 - 1 - 0) with n by lia. unfold dgb.
      rewrite (Z.add_comm (_ * _) V), Z.div_add, (Z.div_small V) by lia. rewrite Z.mod_small by lia. lia.
    + replace (n + 1 - 1) with n by lia. rewrite IH at 1. apply tab_ext. intros i Hi.
      replace (n - (i + 1)) with (n - 1 - i) by lia. f_equal. unfold dgb.
      replace (10 ^ n) with (10 ^ (n - 1 - i) * (10 * 10 ^ i)).
      2:{ rewrite <- Z.pow_succ_r by lia. rewrite <- Z.pow_add_r by lia. f_equal. lia. }
      replace ((c - 48) * (10 ^ (n - 1 - i) * (10 * 10 ^ i)) + V)
        with (V + ((c - 48) * 10 ^ i) * 10 * 10 ^ (n - 1 - i)) by ring.
      rewrite Z.div_add by (assert (0 < 10 ^ (n - 1 - i)) by (apply Z.pow_pos_nonneg; lia); lia).
      rewrite Z.mod_add by lia. reflexivity.
Qed.

Lemma dec_value_tab V m : 0 <= V < 10 ^ Z.of_nat m ->
  dec_value 0 (tab (Z.of_nat m) (fun i => 48 + dgb 10 V (Z.of_nat m - 1 - i))) = V.
Proof.
  revert V. induction m; intros V HV.
  - cbn in *. lia.
  - rewrite Nat2Z.inj_succ in *. unfold Z.succ in *. rewrite tab_cons by lia. cbn [dec_value].
    rewrite dec_value_acc, tab_length.
    set (n := Z.of_nat m) in *. assert (Hp : 0 < 10 ^ n) by (apply Z.pow_pos_nonneg; lia).
    replace (n + 1 - 1) with n by lia. replace (n - 0) with n by lia.
    replace (tab n (fun i => 48 + dgb 10 V (n - (i + 1))))
      with (tab n (fun i => 48 + dgb 10 (V mod 10 ^ n) (n - 1 - i))).
    + rewrite IHm by (apply Z.mod_pos_bound; lia). rewrite Z2Nat.id by lia.
      unfold dgb. rewrite Z.pow_add_r in HV by lia.
      rewrite (Z.mod_small (V / 10 ^ n) 10).
      * pose proof (Z.div_mod V (10 ^ n) ltac:(lia)). lia.
      * split; [apply Z.div_pos; lia|apply Z.div_lt_upper_bound; lia].
    + apply tab_ext. intros i Hi. replace (n - (i + 1)) with (n - 1 - i) by lia. f_equal.
      unfold dgb. set (k := n - 1 - i).
      rewrite (Z.div_mod V (10 ^ n)) at 2 by lia.
      replace (10 ^ n) with (10 ^ k * (10 * 10 ^ i)) at 2.
      2:{ rewrite <- Z.pow_succ_r by lia. rewrite <- Z.pow_add_r by lia. f_equal. lia. }
      replace (10 ^ k * (10 * 10 ^ i) * (V / 10 ^ n) + V mod 10 ^ n)
        with (V mod 10 ^ n + (10 ^ i * (V / 10 ^ n)) * 10 * 10 ^ k) by ring.
      rewrite Z.div_add by (assert (0 < 10 ^ k) by (apply Z.pow_pos_nonneg; lia); lia).
      rewrite Z.mod_add by lia. reflexivity.
Qed.

Lemma fr_str_ok LOGQ D s : 1 <= LOGQ -> length D = Z.to_nat (len LOGQ) ->
  Forall is_digit s -> (length s <= 520)%nat -> dec_value 0 s < Wp (len LOGQ) ->
  zq_fr_str LOGQ D s = Ok (raw (len LOGQ) (dec_value 0 s)).
Proof.
  intros HQ HD Hs Hn HV. apply (fr_str_loop LOGQ (Z.of_nat (length s))); auto.
  - lia.
  - apply dec_value_bound; auto.
  - intros i Hi. rewrite (dec_digits s Hs) at 1. rewrite lget_tab by lia. do 2 f_equal. f_equal. lia.
Qed.

Lemma seq_plus a b : seq a b = map (Nat.add a) (seq 0 b).
Proof.
  induction b; auto. rewrite !seq_S, map_app, IHb. cbn [map]. reflexivity.
Qed.

Lemma tab_app {A} n m (f : Z -> A) : 0 <= n -> 0 <= m ->
  tab (n + m) f = tab n f ++ tab m (fun i => f (n + i)).
Proof.
  intros Hn Hm. unfold tab. rewrite Z2Nat.inj_add by lia. rewrite seq_app, map_app. f_equal.
  rewrite Nat.add_0_l, seq_plus, map_map. apply map_ext. intros k. f_equal. lia.
Qed.

Lemma map_tab {A B} (h : A -> B) n f : map h (tab n f) = tab n (fun i => h (f i)).
Proof. unfold tab. rewrite map_map. reflexivity. Qed.

Lemma skipn_tab {A} n (f : Z -> A) k : 0 <= k <= n ->
  skipn (Z.to_nat k) (tab n f) = tab (n - k) (fun i => f (k + i)).
Proof.
  intros H. replace n with (k + (n - k)) at 1 by lia. rewrite tab_app by lia.
  rewrite skipn_app, tab_length, Nat.sub_diag. cbn [skipn].
  rewrite skipn_all2 by (rewrite tab_length; lia). reflexivity.
Qed.

Lemma Forall_tab {A} (P : A -> Prop) n f : (forall i, 0 <= i < n -> P (f i)) -> Forall P (tab n f).
Proof.
  intros H. apply Forall_forall. intros x Hx. unfold tab in Hx. apply in_map_iff in Hx.
  destruct Hx as (k & <- & Hk). apply in_seq in Hk. apply H. lia.
Qed.

Lemma to_str_ok LOGQ v buf : 1 <= LOGQ <= 1300 -> 0 <= v < Wp (len LOGQ) -> (520 <= length buf)%nat ->
  exists s, zq_to_str LOGQ (raw (len LOGQ) v) buf =
              Ok (map Some s ++ Some 0 :: skipn (S (length s)) buf) /\
    Forall is_digit s /\ dec_value 0 s = v /\ (1 <= length s <= 405)%nat /\
    (s = [48] \/ hd 0 s <> 48).
Proof.
  intros HQ Hv Hb.
  destruct (to_str_loop LOGQ v ltac:(lia) Hv buf (Z.of_nat (length buf))) as (m & g & Eb & Hm & H1 & H2 & E);
    [lia|lia|lia|].
  set (f := fun i => 48 + dgb 10 v (Z.of_nat m - 1 - i)).
  exists (tab (Z.of_nat m) f). rewrite E. rewrite tab_length. split; [|split; [|split; [|split]]].
  - f_equal. rewrite map_tab. set (S0 := Z.of_nat (length buf)) in *.
    replace (tab S0 _) with (tab (Z.of_nat m + (1 + (S0 - Z.of_nat m - 1))) (fun i =>
        if i <? Z.of_nat m then Some (48 + dgb 10 v (Z.of_nat m - 1 - i))
        else if i =? Z.of_nat m then Some 0 else g i)) by (f_equal; lia).
    rewrite tab_app by lia. f_equal.
    + apply tab_ext. intros i Hi. zcase. reflexivity.
    + rewrite tab_cons by lia. f_equal.
      * rewrite Z.add_0_r. zcase. reflexivity.
      * rewrite Eb. replace (S (Z.to_nat (Z.of_nat m))) with (Z.to_nat (Z.of_nat m + 1)) by lia.
        rewrite skipn_tab by lia. replace (1 + (S0 - Z.of_nat m - 1) - 1) with (S0 - (Z.of_nat m + 1)) by lia.
        apply tab_ext. intros i Hi. zcase. f_equal. lia.
  - apply Forall_tab. intros i Hi. unfold is_digit, f. pose proof (dgb_range 10 v (Z.of_nat m - 1 - i) ltac:(lia)). lia.
  - apply dec_value_tab. lia.
  - lia.
  - unfold f. destruct H2 as [->|H2].
    + cbn [Z.of_nat Pos.of_succ_nat] in *. destruct (Z.eq_dec v 0) as [->|].
      * left. reflexivity.
      * right. rewrite tab_cons by lia. cbn [hd]. change (1 - 1 - 0) with 0. unfold dgb.
        rewrite Z.pow_0_r, Z.div_1_r. rewrite Z.mod_small by lia. lia.
    + right. rewrite tab_cons by lia. cbn [hd]. rewrite Z.sub_0_r.
      replace (Z.of_nat m - 1) with (Z.of_nat (m - 1)) by lia. unfold dgb.
      assert (0 < 10 ^ Z.of_nat (m - 1)) by (apply Z.pow_pos_nonneg; lia).
      assert (10 ^ Z.of_nat m = 10 * 10 ^ Z.of_nat (m - 1)).
      { rewrite <- Z.pow_succ_r by lia. f_equal. lia. }
      assert (1 <= v / 10 ^ Z.of_nat (m - 1)) by (apply Z.div_le_lower_bound; lia).
      assert (v / 10 ^ Z.of_nat (m - 1) < 10) by (apply Z.div_lt_upper_bound; lia).
      rewrite Z.mod_small by lia. lia.
Qed.
