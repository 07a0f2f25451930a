(** Facts about the model of Z_Q.h: every operation as an equation on [raw]/[rep] arrays. *)
From Coq Require Import ZArith List Bool Lia.
From Verif Require Import Base BaseFacts ZQ.
Import ListNotations.
Open Scope Z_scope.

(** The canonical representation of [v] modulo [2^LOGQ]. *)
Definition rep (LOGQ v : Z) : arr := raw (len LOGQ) (v mod 2 ^ LOGQ).

Lemma pow2_pos n : 0 <= n -> 0 < 2 ^ n.
Proof. intros. apply Z.pow_pos_nonneg; lia. Qed.

Lemma len_div LOGQ : 0 <= LOGQ -> len LOGQ = (LOGQ + 63) / 64.
Proof. intros. unfold len. apply Z.quot_div_nonneg; lia. Qed.

Lemma len_bounds LOGQ : 1 <= LOGQ -> 1 <= len LOGQ /\ 64 * (len LOGQ - 1) < LOGQ <= 64 * len LOGQ.
Proof.
  intros. rewrite len_div by lia.
  pose proof (Z.div_mod (LOGQ + 63) 64 ltac:(lia)).
  pose proof (Z.mod_pos_bound (LOGQ + 63) 64 ltac:(lia)). lia.
Qed.

Lemma len_unique LOGQ l : 64 * (l - 1) < LOGQ <= 64 * l -> 1 <= LOGQ -> len LOGQ = l.
Proof. intros. pose proof (len_bounds LOGQ ltac:(lia)). lia. Qed.


Lemma mod_mod_pow v a b : 0 <= a <= b -> (v mod 2 ^ b) mod 2 ^ a = v mod 2 ^ a.
Proof.
  intros H. pose proof (pow2_pos a ltac:(lia)). pose proof (pow2_pos (b - a) ltac:(lia)).
  replace (2 ^ b) with (2 ^ a * 2 ^ (b - a)) by (rewrite <- Z.pow_add_r by lia; f_equal; lia).
  rewrite Z.rem_mul_r by lia.
  rewrite Z.mul_comm, Z.mod_add by lia. apply Z.mod_mod. lia.
Qed.

Lemma rep_congr LOGQ u v : u mod 2 ^ LOGQ = v mod 2 ^ LOGQ -> rep LOGQ u = rep LOGQ v.
Proof. intros H. unfold rep. rewrite H. reflexivity. Qed.

Lemma rep_mod LOGQ v : 0 <= LOGQ -> rep LOGQ (v mod 2 ^ LOGQ) = rep LOGQ v.
Proof. intros H. apply rep_congr. apply Z.mod_mod. pose proof (pow2_pos LOGQ H). lia. Qed.

Lemma rep_raw_mod LOGQ v : 1 <= LOGQ -> rep LOGQ (v mod Wp (len LOGQ)) = rep LOGQ v.
Proof.
  intros H. apply rep_congr. unfold Wp. apply mod_mod_pow.
  pose proof (len_bounds LOGQ H). lia.
Qed.

Lemma mod_le_Wp LOGQ v : 1 <= LOGQ -> 0 <= v mod 2 ^ LOGQ < Wp (len LOGQ).
Proof.
  intros H. pose proof (pow2_pos LOGQ ltac:(lia)). pose proof (Z.mod_pos_bound v (2 ^ LOGQ) ltac:(lia)).
  pose proof (len_bounds LOGQ H). unfold Wp.
  pose proof (Z.pow_le_mono_r 2 LOGQ (64 * len LOGQ) ltac:(lia) ltac:(lia)). lia.
Qed.

Lemma rep_inj LOGQ u v : 1 <= LOGQ -> rep LOGQ u = rep LOGQ v -> u mod 2 ^ LOGQ = v mod 2 ^ LOGQ.
Proof.
  intros H E. unfold rep in E. apply raw_inj in E; [|pose proof (len_bounds LOGQ H); lia].
  rewrite (Z.mod_small (u mod _)), (Z.mod_small (v mod _)) in E by (apply mod_le_Wp; auto). exact E.
Qed.

Lemma dg_div v n j : 0 <= n -> 0 <= j -> dg (v / Wp n) j = dg v (j + n).
Proof.
  intros. unfold dg. pose proof (Wp_pos n H). pose proof (Wp_pos j H0).
  rewrite Z.div_div by lia. rewrite Wp_add by lia. rewrite (Z.mul_comm (Wp j)). reflexivity.
Qed.

(** Digits of a value cut to [LOGQ] bits. *)
Lemma dg_cut LOGQ v j : 1 <= LOGQ -> 0 <= j < len LOGQ ->
  dg (v mod 2 ^ LOGQ) j =
  if j =? len LOGQ - 1 then dg v j mod 2 ^ (LOGQ - 64 * (len LOGQ - 1)) else dg v j.
Proof.
  intros H Hj. pose proof (len_bounds LOGQ H) as Hl.
  destruct (Z.eqb_spec j (len LOGQ - 1)) as [->|Hne].
  - set (m := len LOGQ - 1) in *. set (r := LOGQ - 64 * m).
    assert (Hr : 0 < r <= 64) by lia.
    replace (2 ^ LOGQ) with (Wp m * 2 ^ r)
      by (unfold Wp; rewrite <- Z.pow_add_r by lia; f_equal; lia).
    pose proof (Wp_pos m ltac:(lia)). pose proof (pow2_pos r ltac:(lia)).
    unfold dg. rewrite Z.rem_mul_r by lia.
    rewrite (Z.mul_comm (Wp m)), Z.div_add by lia.
    rewrite (Z.div_small (v mod Wp m)) by (apply Z.mod_pos_bound; lia).
    rewrite Z.add_0_l. unfold W. rewrite (mod_mod_pow _ r 64) by lia.
    rewrite Z.mod_small; auto.
    pose proof (Z.mod_pos_bound (v / Wp m) (2 ^ r) ltac:(lia)).
    pose proof (Z.pow_le_mono_r 2 r 64 ltac:(lia) ltac:(lia)). lia.
  - rewrite <- (dg_mod (v mod 2 ^ LOGQ) (j + 1)), <- (dg_mod v (j + 1)) by lia.
    unfold Wp at 1 2. rewrite mod_mod_pow by lia. reflexivity.
Qed.

Lemma remove_clutter_ok LOGQ v : 1 <= LOGQ ->
  remove_clutter LOGQ (raw (len LOGQ) v) = Ok (rep LOGQ v).
Proof.
  intros H. pose proof (len_bounds LOGQ H) as Hl. unfold remove_clutter, raw.
  rewrite rd_wtab by lia. cbn [bind]. rewrite wshl_ok by lia. cbn [bind].
  rewrite wr_wtab by lia. cbn [bind]. rewrite rd_wtab by lia. cbn [bind].
  rewrite Z.eqb_refl. rewrite wshr_ok by lia. cbn [bind]. rewrite wr_wtab by lia.
  f_equal. apply wtab_ext. intros j Hj. rewrite dg_cut by auto.
  destruct (j =? len LOGQ - 1) eqn:E; auto.
  apply Z.eqb_eq in E. subst j. rewrite shl_shr by lia.
  f_equal. f_equal. lia.
Qed.

(** Carry into word [i] of the sum [u+v]. *)
Definition carry (u v i : Z) : Z := (u mod Wp i + v mod Wp i) / Wp i.

Lemma carry_bool u v i : 0 <= i -> carry u v i = 0 \/ carry u v i = 1.
Proof.
  intros H. unfold carry. pose proof (Wp_pos i H).
  pose proof (Z.mod_pos_bound u (Wp i) ltac:(lia)).
  pose proof (Z.mod_pos_bound v (Wp i) ltac:(lia)).
  assert (0 <= (u mod Wp i + v mod Wp i) / Wp i < 2); [|lia].
  split; [apply Z.div_pos; lia|apply Z.div_lt_upper_bound; lia].
Qed.

Lemma carry_S u v i : 0 <= i ->
  carry u v (i + 1) = (dg u i + dg v i + carry u v i) / W /\
  dg (u + v) i = (dg u i + dg v i + carry u v i) mod W.
Proof.
  intros H. pose proof (Wp_pos i H). pose proof W_pos. split.
  - unfold carry. rewrite !mod_Wp_S by lia. rewrite Wp_S by lia.
    rewrite <- Z.div_div by lia.
    replace (u mod Wp i + Wp i * dg u i + (v mod Wp i + Wp i * dg v i))
      with (u mod Wp i + v mod Wp i + (dg u i + dg v i) * Wp i) by ring.
    rewrite Z.div_add by lia. f_equal. ring.
  - unfold carry.
    assert (E : (u + v) / Wp i = u / Wp i + v / Wp i + (u mod Wp i + v mod Wp i) / Wp i).
    { rewrite (Z.div_mod u (Wp i)) at 1 by lia. rewrite (Z.div_mod v (Wp i)) at 1 by lia.
      replace (Wp i * (u / Wp i) + u mod Wp i + (Wp i * (v / Wp i) + v mod Wp i))
        with (u mod Wp i + v mod Wp i + (u / Wp i + v / Wp i) * Wp i) by ring.
      rewrite Z.div_add by lia. ring. }
    unfold dg at 1. rewrite E. unfold dg.
    rewrite <- Z.add_mod_idemp_l, (Z.add_mod (u / Wp i)), Z.add_mod_idemp_l by lia. reflexivity.
Qed.

Ltac zcase := repeat match goal with
  | |- context [ ?a =? ?b ] => destruct (Z.eqb_spec a b); try lia
  | |- context [ ?a <? ?b ] => destruct (Z.ltb_spec a b); try lia
  | |- context [ ?a <=? ?b ] => destruct (Z.leb_spec a b); try lia
  end.

(** One step of the carry loop on words [x], [y] and carry [c]. *)
Lemma add_step x y (c : bool) : is_word x -> is_word y ->
  let s := x + y + (if c then 1 else 0) in
  let w := wadd x y in
  let w' := if c then wadd w 1 else w in
  w' = s mod W /\ ((c && (w' =? 0)) || (w <? y)) = (s / W =? 1).
Proof.
  intros Hx Hy; cbv zeta; unfold is_word in *. unfold wadd, wrap.
  pose proof W_pos as HW.
  assert (H1 : (x + y) mod W = if x + y <? W then x + y else x + y - W).
  { destruct (Z.ltb_spec (x + y) W); [apply Z.mod_small; lia|].
    symmetry. apply (Z.mod_unique _ _ 1); lia. }
  rewrite H1. destruct c.
  - assert (H2 : (x + y + 1) mod W = if x + y + 1 <? W then x + y + 1 else x + y + 1 - W).
    { destruct (Z.ltb_spec (x + y + 1) W); [apply Z.mod_small; lia|].
      symmetry. apply (Z.mod_unique _ _ 1); lia. }
    assert (H3 : (x + y + 1) / W = if x + y + 1 <? W then 0 else 1).
    { destruct (Z.ltb_spec (x + y + 1) W); [apply Z.div_small; lia|].
      symmetry. apply (Z.div_unique _ _ _ (x + y + 1 - W)); lia. }
    rewrite H2, H3. cbn [andb].
    destruct (Z.ltb_spec (x + y) W).
    + destruct (Z.ltb_spec (x + y + 1) W).
      * rewrite (Z.mod_small (x + y + 1)) by lia. split; auto. zcase; reflexivity.
      * replace (x + y + 1) with W by lia. rewrite Z.mod_same by lia.
        split; [lia|]. zcase; reflexivity.
    + destruct (Z.ltb_spec (x + y + 1) W); [lia|].
      rewrite (Z.mod_small (x + y - W + 1)) by lia. split; [lia|]. zcase; cbn; auto.
  - rewrite Z.add_0_r. assert (H3 : (x + y) / W = if x + y <? W then 0 else 1).
    { destruct (Z.ltb_spec (x + y) W); [apply Z.div_small; lia|].
      symmetry. apply (Z.div_unique _ _ _ (x + y - W)); lia. }
    rewrite H1, H3. cbn [andb orb]. destruct (Z.ltb_spec (x + y) W); split; auto; zcase; auto.
Qed.

Lemma zq_add_raw LOGQ u v : 1 <= LOGQ ->
  zq_add LOGQ (raw (len LOGQ) u) (raw (len LOGQ) v) = Ok (rep LOGQ (u + v)).
Proof.
  intros H. pose proof (len_bounds LOGQ H) as Hl. unfold zq_add, zq_add_gen.
  rewrite (for_closed _ (fun i => (wtab (len LOGQ) (fun j => if j <? i then dg (u + v) j else dg u j),
                                   carry u v i =? 1))
             0 (len LOGQ) _ (raw (len LOGQ) (u + v), carry u v (len LOGQ) =? 1)).
  - cbn [bind]. apply remove_clutter_ok. auto.
  - lia.
  - f_equal.
    + apply wtab_ext. intros j Hj. zcase; auto.
    + unfold carry. rewrite Wp_0, !Z.mod_1_r. reflexivity.
  - f_equal. apply wtab_ext. intros j Hj. zcase; auto.
  - intros i Hi. cbv beta iota.
    rewrite rd_wtab by lia. cbn [bind]. rewrite Z.ltb_irrefl.
    unfold raw. rewrite rd_wtab by lia. cbn [bind]. rewrite wr_wtab by lia. cbn [bind].
    rewrite rd_wtab by lia. cbn [bind]. rewrite Z.eqb_refl.
    destruct (carry_S u v i ltac:(lia)) as [Ec Ed].
    destruct (add_step (dg u i) (dg v i) (carry u v i =? 1) (dg_word _ _) (dg_word _ _)) as [E1 E2].
    assert (Ecb : (if carry u v i =? 1 then 1 else 0) = carry u v i).
    { destruct (carry_bool u v i ltac:(lia)) as [-> | ->]; reflexivity. }
    rewrite Ecb in E1, E2. rewrite <- Ed in E1. rewrite <- Ec in E2.
    destruct (carry u v i =? 1) eqn:Ecc.
    + cbn [bind]. rewrite wr_wtab by lia. cbn [bind]. rewrite rd_wtab by lia. cbn [bind].
      rewrite Z.eqb_refl. rewrite E2. f_equal. f_equal. apply wtab_ext. intros j Hj.
      zcase; subst; auto.
    + cbn [bind]. rewrite rd_wtab by lia. cbn [bind].
      rewrite Z.eqb_refl. rewrite E2. f_equal. f_equal. apply wtab_ext. intros j Hj.
      zcase; subst; auto.
Qed.

Lemma rep_raw_eq LOGQ v : rep LOGQ v = raw (len LOGQ) (v mod 2 ^ LOGQ).
Proof. reflexivity. Qed.

Lemma zq_add_rep LOGQ u v : 1 <= LOGQ ->
  zq_add LOGQ (rep LOGQ u) (rep LOGQ v) = Ok (rep LOGQ (u + v)).
Proof.
  intros H. unfold rep at 1 2. rewrite zq_add_raw by auto. f_equal. apply rep_congr.
  pose proof (pow2_pos LOGQ ltac:(lia)). rewrite <- Z.add_mod by lia. reflexivity.
Qed.

(** Copy into any object of the right size. *)
Lemma zq_copy_tab LOGQ n (D : list cell) f : 1 <= LOGQ -> n = len LOGQ -> length D = Z.to_nat n ->
  zq_copy LOGQ D (wtab n f) = Ok (wtab n f).
Proof.
  intros H -> HD. pose proof (len_bounds LOGQ H) as Hl. unfold zq_copy.
  destruct (arr_tab None D _ HD) as [g ->].
  apply (for_closed _ (fun i => tab (len LOGQ) (fun j => if j <? i then Some (f j) else g j))).
  - lia.
  - apply tab_ext. intros j Hj. zcase; auto.
  - apply tab_ext. intros j Hj. zcase; auto.
  - intros i Hi. rewrite rd_wtab by lia. cbn [bind]. rewrite wr_tab by lia. f_equal.
    apply tab_ext. intros j Hj. zcase; subst; auto.
Qed.

Lemma zq_copy_raw LOGQ D v : 1 <= LOGQ -> length D = Z.to_nat (len LOGQ) ->
  zq_copy LOGQ D (raw (len LOGQ) v) = Ok (raw (len LOGQ) v).
Proof. intros. apply zq_copy_tab; auto. Qed.

Lemma zq_new_length LOGQ : length (zq_new LOGQ) = Z.to_nat (len LOGQ).
Proof. apply fresh_length. Qed.
Lemma raw_length n v : length (raw n v) = Z.to_nat n.
Proof. apply wtab_length. Qed.
Lemma rep_length LOGQ v : length (rep LOGQ v) = Z.to_nat (len LOGQ).
Proof. apply raw_length. Qed.

Lemma zq_setzero_ok LOGQ D : 1 <= LOGQ -> length D = Z.to_nat (len LOGQ) ->
  zq_setzero LOGQ D = Ok (raw (len LOGQ) 0).
Proof.
  intros H HD. pose proof (len_bounds LOGQ H) as Hl. unfold zq_setzero.
  destruct (arr_tab None D _ HD) as [g ->].
  apply (for_closed _ (fun i => tab (len LOGQ) (fun j => if j <? i then Some 0 else g j))).
  - lia.
  - apply tab_ext. intros j Hj. zcase; auto.
  - apply tab_ext. intros j Hj. zcase. unfold dg. reflexivity.
  - intros i Hi. rewrite wr_tab by lia. f_equal.
    apply tab_ext. intros j Hj. zcase; subst; auto.
Qed.

(** ** negate *)

Lemma dg_opp v j : 0 <= j -> dg (- v - 1) j = W - 1 - dg v j.
Proof.
  intros H. unfold dg. pose proof (Wp_pos j H). pose proof W_pos.
  assert (E : (- v - 1) / Wp j = - (v / Wp j) - 1).
  { symmetry. apply (Z.div_unique _ _ _ (Wp j - 1 - v mod Wp j)).
    - pose proof (Z.mod_pos_bound v (Wp j) ltac:(lia)). lia.
    - pose proof (Z.div_mod v (Wp j) ltac:(lia)). lia. }
  rewrite E. set (x := v / Wp j). symmetry. apply (Z.mod_unique _ _ (- (x / W) - 1)).
  - pose proof (Z.mod_pos_bound x W ltac:(lia)). lia.
  - pose proof (Z.div_mod x W ltac:(lia)). lia.
Qed.

(** The increment loop, in closed form: all words below [i] hold digits of [v+1]; [c] tells whether
    the increment has carried into word [i]. *)
Definition incc (v i : Z) : bool := v mod Wp i =? Wp i - 1.

Lemma inc_step v i : 0 <= i ->
  dg (v + 1) i = (if incc v i then wadd (dg v i) 1 else dg v i) /\
  incc v (i + 1) = (incc v i && (wadd (dg v i) 1 =? 0)).
Proof.
  intros H. pose proof (Wp_pos i H). pose proof W_pos.
  unfold incc. split.
  - assert (E : (v + 1) / Wp i = v / Wp i + (if v mod Wp i =? Wp i - 1 then 1 else 0)).
    { symmetry. destruct (Z.eqb_spec (v mod Wp i) (Wp i - 1)).
      - apply (Z.div_unique _ _ _ 0); [lia|]. pose proof (Z.div_mod v (Wp i) ltac:(lia)). lia.
      - apply (Z.div_unique _ _ _ (v mod Wp i + 1)).
        + pose proof (Z.mod_pos_bound v (Wp i) ltac:(lia)). lia.
        + pose proof (Z.div_mod v (Wp i) ltac:(lia)). lia. }
    unfold dg. rewrite E. destruct (v mod Wp i =? Wp i - 1).
    + unfold wadd, wrap. rewrite Z.add_mod_idemp_l by lia. reflexivity.
    + rewrite Z.add_0_r. reflexivity.
  - rewrite mod_Wp_S, Wp_S by lia. pose proof (dg_word v i) as Hd. unfold is_word in Hd.
    pose proof (Z.mod_pos_bound v (Wp i) ltac:(lia)).
    unfold wadd, wrap.
    assert (E : ((dg v i + 1) mod W =? 0) = (dg v i =? W - 1)).
    { destruct (Z.eqb_spec (dg v i) (W - 1)) as [->|].
      - replace (W - 1 + 1) with W by lia. rewrite Z.mod_same by lia. reflexivity.
      - rewrite Z.mod_small by lia. zcase; auto. }
    rewrite E.
    destruct (Z.eqb_spec (v mod Wp i) (Wp i - 1)) as [E1|E1];
    destruct (Z.eqb_spec (dg v i) (W - 1)) as [E2|E2]; cbn [andb]; apply Z.eqb_eq || apply Z.eqb_neq; nia.
Qed.

Lemma zq_negate_raw LOGQ v : 1 <= LOGQ ->
  zq_negate LOGQ (raw (len LOGQ) v) = Ok (rep LOGQ (- v)).
Proof.
  intros H. pose proof (len_bounds LOGQ H) as Hl. unfold zq_negate.
  rewrite (for_closed _ (fun i => wtab (len LOGQ) (fun j => if j <? i then dg (- v - 1) j else dg v j))
             0 (len LOGQ) _ (raw (len LOGQ) (- v - 1))).
  2: lia.
  2:{ apply wtab_ext. intros j Hj. zcase; auto. }
  2:{ apply wtab_ext. intros j Hj. zcase; auto. }
  2:{ intros i Hi. rewrite rd_wtab by lia. cbn [bind]. rewrite wr_wtab by lia. f_equal.
      apply wtab_ext. intros j Hj. rewrite Z.ltb_irrefl. zcase; subst; auto.
      rewrite dg_opp by lia. apply lxor_ones. apply dg_word. }
  cbn [bind]. rewrite remove_clutter_ok by auto. cbn [bind].
  set (u := (- v - 1) mod 2 ^ LOGQ). unfold rep at 1 2 3. fold u. unfold raw at 1 2 3.
  rewrite rd_wtab by lia. cbn [bind]. rewrite wr_wtab by lia. cbn [bind]. rewrite rd_wtab by lia.
  cbn [bind]. rewrite Z.eqb_refl.
  rewrite (for_closed _ (fun i => (wtab (len LOGQ) (fun j => if j <? i then dg (u + 1) j else dg u j),
                                   incc u i))
             1 (len LOGQ) _ (raw (len LOGQ) (u + 1), incc u (len LOGQ))).
  - cbn [bind]. rewrite remove_clutter_ok by auto. f_equal. apply rep_congr.
    unfold u. pose proof (pow2_pos LOGQ ltac:(lia)).
    rewrite Z.add_mod_idemp_l by lia. f_equal. ring.
  - lia.
  - destruct (inc_step u 0 ltac:(lia)) as [E1 E2].
    assert (E0 : incc u 0 = true) by (unfold incc; rewrite Wp_0, Z.mod_1_r; reflexivity).
    rewrite E0 in E1, E2. cbn [andb] in E2. change (0 + 1) with 1 in E2. rewrite E2. f_equal.
    apply wtab_ext. intros j Hj. zcase; subst; auto.
  - f_equal. apply wtab_ext. intros j Hj. zcase; auto.
  - intros i Hi. cbv beta iota. destruct (inc_step u i ltac:(lia)) as [E1 E2].
    rewrite E2. destruct (incc u i).
    + rewrite rd_wtab by lia. cbn [bind]. rewrite wr_wtab by lia. cbn [bind].
      rewrite rd_wtab by lia. cbn [bind]. rewrite Z.eqb_refl, Z.ltb_irrefl. cbn [andb].
      f_equal. f_equal. apply wtab_ext. intros j Hj. zcase; subst; auto.
    + cbn [andb]. f_equal. f_equal. apply wtab_ext. intros j Hj. zcase; subst; auto.
      replace j with i by lia. auto.
Qed.

Lemma mod_opp_congr LOGQ v : 0 <= LOGQ -> (- (v mod 2 ^ LOGQ)) mod 2 ^ LOGQ = (- v) mod 2 ^ LOGQ.
Proof.
  intros H. pose proof (pow2_pos LOGQ H).
  rewrite <- (Z.sub_0_l (v mod _)), <- (Z.sub_0_l v). apply Zminus_mod_idemp_r.
Qed.

Lemma zq_negate_rep LOGQ v : 1 <= LOGQ -> zq_negate LOGQ (rep LOGQ v) = Ok (rep LOGQ (- v)).
Proof.
  intros H. unfold rep at 1. rewrite zq_negate_raw by auto. f_equal. apply rep_congr.
  apply mod_opp_congr. lia.
Qed.

Lemma zq_copy_rep LOGQ D v : 1 <= LOGQ -> length D = Z.to_nat (len LOGQ) ->
  zq_copy LOGQ D (rep LOGQ v) = Ok (rep LOGQ v).
Proof. intros. apply zq_copy_raw; auto. Qed.

Lemma zq_sub_rep LOGQ u v : 1 <= LOGQ ->
  zq_sub LOGQ (rep LOGQ u) (rep LOGQ v) = Ok (rep LOGQ (u - v)).
Proof.
  intros H. unfold zq_sub. rewrite zq_copy_rep by (auto using zq_new_length). cbn [bind].
  rewrite zq_negate_rep by auto. cbn [bind]. rewrite zq_add_rep by auto. reflexivity.
Qed.

Lemma zq_sub_raw LOGQ u v : 1 <= LOGQ ->
  zq_sub LOGQ (raw (len LOGQ) u) (raw (len LOGQ) v) = Ok (rep LOGQ (u - v)).
Proof.
  intros H. unfold zq_sub. rewrite zq_copy_raw by (auto using zq_new_length). cbn [bind].
  rewrite zq_negate_raw by auto. cbn [bind]. unfold rep at 1. rewrite zq_add_raw by auto.
  f_equal. apply rep_congr. pose proof (pow2_pos LOGQ ltac:(lia)).
  rewrite Z.add_mod_idemp_r by lia. reflexivity.
Qed.

(** ** multiplication *)

Lemma zq_mul64_ok a b : is_word a -> is_word b ->
  zq_mul64 a b = Ok ((a * b) mod W, (a * b) / W).
Proof.
  unfold is_word. intros Ha Hb. unfold zq_mul64.
  repeat (rewrite ?wshl_ok, ?wshr_ok by lia; cbn [bind]).
  rewrite !shl_shr by lia. change (64 - 32) with 32.
  set (B := 2 ^ 32) in *. assert (EW : W = B * B) by reflexivity.
  assert (HB : B = 4294967296) by reflexivity.
  set (al := a mod B). set (ah := a / B). set (bl := b mod B). set (bh := b / B).
  assert (Ea : a = B * ah + al) by (apply Z.div_mod; lia).
  assert (Eb : b = B * bh + bl) by (apply Z.div_mod; lia).
  assert (0 <= al < B) by (apply Z.mod_pos_bound; lia).
  assert (0 <= bl < B) by (apply Z.mod_pos_bound; lia).
  assert (0 <= ah < B) by (split; [apply Z.div_pos; lia|apply Z.div_lt_upper_bound; lia]).
  assert (0 <= bh < B) by (split; [apply Z.div_pos; lia|apply Z.div_lt_upper_bound; lia]).
  clearbody al ah bl bh. clear Ha Hb. subst a b.
  assert (P : forall x y, 0 <= x < B -> 0 <= y < B -> 0 <= x * y <= (B - 1) * (B - 1)) by (intros; nia).
  pose proof (P al bl ltac:(auto) ltac:(auto)) as P1. pose proof (P al bh ltac:(auto) ltac:(auto)) as P2.
  pose proof (P ah bl ltac:(auto) ltac:(auto)) as P3. pose proof (P ah bh ltac:(auto) ltac:(auto)) as P4.
  assert (EE : (B * ah + al) * (B * bh + bl) = W * (ah * bh) + B * (al * bh + ah * bl) + al * bl)
    by (rewrite EW; ring).
  rewrite EE. clear EE. unfold wmul, wadd.
  set (ll := al * bl) in *. set (lh := al * bh) in *. set (hl := ah * bl) in *. set (hh := ah * bh) in *.
  clearbody ll lh hl hh.
  assert (HBB : (B - 1) * (B - 1) < W) by (rewrite EW; nia).
  rewrite (wrap_small ll), (wrap_small lh), (wrap_small hl), (wrap_small hh) by (unfold is_word; lia).
  assert (D1 := Z.div_mod ll B ltac:(lia)). assert (M1 := Z.mod_pos_bound ll B ltac:(lia)).
  assert (D2 := Z.div_mod lh B ltac:(lia)). assert (M2 := Z.mod_pos_bound lh B ltac:(lia)).
  set (q1 := ll / B) in *. set (r1 := ll mod B) in *.
  set (q2 := lh / B) in *. set (r2 := lh mod B) in *.
  assert (0 <= q1 < B) by nia. assert (0 <= q2 < B - 1) by nia.
  rewrite (wrap_small (q1 + r2)) by (unfold is_word; nia).
  assert (HC : 0 <= hl + (q1 + r2) < W) by nia.
  rewrite (wrap_small (hl + (q1 + r2))) by (exact HC).
  set (C := hl + (q1 + r2)) in *.
  assert (D3 := Z.div_mod C B ltac:(lia)). assert (M3 := Z.mod_pos_bound C B ltac:(lia)).
  set (q3 := C / B) in *. set (r3 := C mod B) in *.
  assert (0 <= q3 < B) by nia.
  rewrite (wrap_small (q3 + q2)) by (unfold is_word; nia).
  assert (HH : hh + (q3 + q2) < W).
  { (* hi of product < W: total = W*(hh+q3+q2) + B*r3 + r1 = a*b <= (W-1)^2 *)
    assert (T : W * (hh + (q3 + q2)) + B * r3 + r1 = W * hh + B * (lh + hl) + ll) by (rewrite EW; nia).
    assert (W * hh + B * (lh + hl) + ll <= W * ((B - 1) * (B - 1)) + B * (2 * ((B - 1) * (B - 1))) + (B - 1) * (B - 1)) by nia.
    assert (W * ((B - 1) * (B - 1)) + B * (2 * ((B - 1) * (B - 1))) + (B - 1) * (B - 1) < W * W) by (rewrite EW, HB; reflexivity).
    nia. }
  rewrite (wrap_small (hh + (q3 + q2))) by (unfold is_word; nia).
  assert (T : W * hh + B * (lh + hl) + ll = W * (hh + (q3 + q2)) + (B * r3 + r1)) by (rewrite EW; nia).
  assert (HR : 0 <= B * r3 + r1 < W) by (rewrite EW; nia).
  rewrite T. f_equal. f_equal.
  - (* lo *)
    transitivity (B * r3 + r1); [|apply (Z.mod_unique _ _ (hh + (q3 + q2))); lia].
    unfold wrap. rewrite Z.add_mod_idemp_r by lia.
    replace (r1 + C * B) with (B * r3 + r1 + q3 * W) by (rewrite EW; nia).
    rewrite Z.mod_add by lia. apply Z.mod_small. lia.
  - apply (Z.div_unique _ _ _ (B * r3 + r1)); lia.
Qed.

(** Sum of the low-word and high-word vectors of [v * a]. *)
Lemma mul_word_sum v a n : (forall i, 0 <= i < Z.of_nat n -> is_word (dg v i)) ->
  valf n (fun j => (dg v j * a) mod W)
  + valf n (fun j => if j =? 0 then 0 else (dg v (j - 1) * a) / W)
  = v mod Wp (Z.of_nat n) * a - (if (n =? 0)%nat then 0 else (dg v (Z.of_nat n - 1) * a) / W * Wp (Z.of_nat n)).
Proof.
  intros _. induction n as [|n IH].
  - cbn. rewrite Z.mod_1_r. reflexivity.
  - rewrite !valf_S, Nat2Z.inj_succ. unfold Z.succ. rewrite mod_Wp_S by lia.
    cbn [Nat.eqb]. replace (Z.of_nat n + 1 - 1) with (Z.of_nat n) by lia.
    rewrite Wp_S by lia.
    pose proof (Z.div_mod (dg v (Z.of_nat n) * a) W ltac:(pose proof W_pos; lia)).
    destruct n as [|n]; [|set (m := S n) in *; assert (Hn : m <> O) by discriminate; clearbody m; replace (m =? 0)%nat with false in IH by (symmetry; apply Nat.eqb_neq; auto)].
    + cbn [Z.of_nat]. cbn [Z.eqb]. rewrite Wp_0 in *.
      change (valf 0 (fun j => (dg v j * a) mod W)) with 0.
      change (valf 0 (fun j => if j =? 0 then 0 else dg v (j - 1) * a / W)) with 0.
      rewrite Z.mod_1_r. cbn [Z.of_nat] in H. lia.
    + destruct (Z.eqb_spec (Z.of_nat m) 0); [lia|]. nia.
Qed.

Lemma zq_mul_word_raw LOGQ v a : 1 <= LOGQ -> is_word a ->
  zq_mul_word LOGQ (raw (len LOGQ) v) a = Ok (rep LOGQ (v * a)).
Proof.
  intros H Ha. pose proof (len_bounds LOGQ H) as Hl. unfold zq_mul_word, zq_new.
  rewrite fresh_tab. rewrite wr_tab by lia. cbn [bind].
  set (lo := fun j => (dg v j * a) mod W).
  set (hi := fun j => if j =? 0 then 0 else (dg v (j - 1) * a) / W).
  rewrite (for_closed _ (fun i =>
       (wtab (len LOGQ) (fun j => if j <? i then lo j else dg v j),
        tab (len LOGQ) (fun j => if j <=? i then Some (hi j) else None)))
       0 (len LOGQ) _ (wtab (len LOGQ) lo, wtab (len LOGQ) hi)).
  - cbn [bind].
    assert (Hlo : forall i, 0 <= i < len LOGQ -> is_word (lo i)).
    { intros. unfold lo. apply wrap_word. }
    assert (Hhi : forall i, 0 <= i < len LOGQ -> is_word (hi i)).
    { intros. unfold hi. destruct (i =? 0); [split; reflexivity || discriminate|].
      pose proof (dg_word v (i - 1)) as Hd. unfold is_word in *. pose proof W_pos. split.
      - apply Z.div_pos; nia.
      - apply Z.div_lt_upper_bound; nia. }
    rewrite (wtab_raw _ lo Hlo), (wtab_raw _ hi Hhi). rewrite zq_add_raw by auto. f_equal.
    pose proof (mul_word_sum v a (Z.to_nat (len LOGQ)) ltac:(intros; apply dg_word)) as E.
    fold lo hi in E. rewrite E. rewrite Z2Nat.id by lia.
    destruct (Nat.eqb_spec (Z.to_nat (len LOGQ)) 0); [lia|].
    rewrite <- rep_raw_mod by auto. rewrite <- (rep_raw_mod LOGQ (v * a)) by auto. f_equal.
    pose proof (Wp_pos (len LOGQ) ltac:(lia)).
    rewrite <- Z.add_opp_r, <- Z.mul_opp_l, Z.mod_add by lia.
    rewrite Z.mul_mod_idemp_l by lia. reflexivity.
  - lia.
  - f_equal.
    + apply wtab_ext. intros. zcase; auto.
    + apply tab_ext. intros j Hj. unfold hi. zcase; auto.
  - f_equal.
    + apply wtab_ext. intros. zcase; auto.
    + apply tab_ext. intros. zcase; auto.
  - intros i Hi. cbv beta iota. rewrite rd_wtab by lia. cbn [bind]. rewrite Z.ltb_irrefl.
    rewrite zq_mul64_ok by (auto using dg_word). cbn [bind].
    destruct (Z.ltb_spec i (len LOGQ - 1)).
    + rewrite wr_tab by lia. cbn [bind]. rewrite wr_wtab by lia. cbn [bind]. f_equal. f_equal.
      * apply wtab_ext. intros j Hj. zcase; subst; auto.
      * apply tab_ext. intros j Hj. unfold hi. zcase; subst; auto.
        repeat f_equal; lia.
    + rewrite wr_wtab by lia. cbn [bind]. f_equal. f_equal.
      * apply wtab_ext. intros j Hj. zcase; subst; auto.
      * apply tab_ext. intros j Hj. zcase; auto.
Qed.


Lemma zq_mul_word_rep LOGQ v a : 1 <= LOGQ -> is_word a ->
  zq_mul_word LOGQ (rep LOGQ v) a = Ok (rep LOGQ (v * a)).
Proof.
  intros H Ha. unfold rep at 1. rewrite zq_mul_word_raw by auto. f_equal. apply rep_congr.
  pose proof (pow2_pos LOGQ ltac:(lia)). rewrite Z.mul_mod_idemp_l by lia. reflexivity.
Qed.

(** Shifting words up by [i] positions. *)
Lemma dg_shift v i j : 0 <= i -> 0 <= j ->
  dg (v * Wp i) j = if i <=? j then dg v (j - i) else 0.
Proof.
  intros Hi Hj. unfold dg. pose proof (Wp_pos i Hi). pose proof (Wp_pos j Hj). pose proof W_pos.
  destruct (Z.leb_spec i j).
  - replace j with (i + (j - i)) at 1 by lia. rewrite Wp_add by lia.
    rewrite <- Z.div_div by (try apply Wp_pos; lia). rewrite Z.div_mul by lia. reflexivity.
  - replace i with (j + (1 + (i - j - 1))) by lia. rewrite !Wp_add by lia. rewrite Wp_1.
    replace (v * (Wp j * (W * Wp (i - j - 1)))) with (v * Wp (i - j - 1) * W * Wp j) by ring.
    rewrite Z.div_mul by lia. apply Z.mod_mul. lia.
Qed.

Lemma zq_mul_raw LOGQ u v : 1 <= LOGQ ->
  zq_mul LOGQ (raw (len LOGQ) u) (raw (len LOGQ) v) = Ok (rep LOGQ (u * v)).
Proof.
  intros H. pose proof (len_bounds LOGQ H) as Hl. unfold zq_mul.
  rewrite zq_setzero_ok by (auto using zq_new_length). cbn [bind].
  destruct (for_inv (fun i '(sum, ABi) =>
       ABi <- zq_copy LOGQ ABi (raw (len LOGQ) u) ;;
       b <- rd (raw (len LOGQ) v) i ;;
       ABi <- zq_mul_word LOGQ ABi b ;;
       ABi <- for_down (len LOGQ - 1) 0 (fun j ABi =>
                if i <=? j then x <- rd ABi (j - i) ;; wr ABi j x
                else wr ABi j 0) ABi ;;
       sum <- zq_add LOGQ sum ABi ;;
       Ok (sum, ABi))
     (fun i '(sum, ABi) => sum = rep LOGQ (u * (v mod Wp i)) /\ length ABi = Z.to_nat (len LOGQ))
     0 (len LOGQ) (raw (len LOGQ) 0, zq_new LOGQ)) as ([sum ABi] & E & Es & El).
  - lia.
  - rewrite Wp_0, Z.mod_1_r, Z.mul_0_r. split; [|apply zq_new_length].
    unfold rep. rewrite Z.mod_0_l by (pose proof (pow2_pos LOGQ); lia). reflexivity.
  - intros i [sum ABi] Hi [-> HA].
    rewrite zq_copy_raw by auto. cbn [bind]. rewrite rd_raw by lia. cbn [bind].
    rewrite zq_mul_word_raw by (auto using dg_word). cbn [bind].
    set (t := (u * dg v i) mod 2 ^ LOGQ). unfold rep at 1. fold t.
    assert (ED : for_down (len LOGQ - 1) 0 (fun j ABi =>
                if i <=? j then x <- rd ABi (j - i) ;; wr ABi j x
                else wr ABi j 0) (raw (len LOGQ) t) = Ok (raw (len LOGQ) (t * Wp i))).
    { apply (for_down_closed _ (fun k => wtab (len LOGQ) (fun j => if k <? j then dg (t * Wp i) j else dg t j))).
      - lia.
      - apply wtab_ext. intros j Hj. zcase; auto.
      - apply wtab_ext. intros j Hj. zcase; auto.
      - intros k Hk. destruct (Z.leb_spec i k).
        + rewrite rd_wtab by lia. cbn [bind]. rewrite wr_wtab by lia. f_equal.
          apply wtab_ext. intros j Hj. zcase; subst; auto. rewrite dg_shift by lia. zcase; auto.
        + rewrite wr_wtab by lia. f_equal.
          apply wtab_ext. intros j Hj. zcase; subst; auto. rewrite dg_shift by lia. zcase; auto. }
    rewrite ED. cbn [bind]. unfold rep at 1. rewrite zq_add_raw by auto. cbn [bind].
    eexists. split; [reflexivity|]. split; [|apply raw_length].
    apply rep_congr. pose proof (pow2_pos LOGQ ltac:(lia)).
    rewrite mod_Wp_S by lia. rewrite Z.add_mod_idemp_l by lia.
    unfold t. rewrite Z.add_mod, Z.mul_mod_idemp_l, <- Z.add_mod by lia. f_equal. ring.
  - rewrite E. cbn [bind]. rewrite Es. rewrite zq_copy_rep by (auto using raw_length). f_equal.
    rewrite <- rep_raw_mod by auto. rewrite <- (rep_raw_mod LOGQ (u * v)) by auto. f_equal.
    pose proof (Wp_pos (len LOGQ) ltac:(lia)). rewrite Z.mul_mod_idemp_r by lia. reflexivity.
Qed.

Lemma zq_mul_rep LOGQ u v : 1 <= LOGQ ->
  zq_mul LOGQ (rep LOGQ u) (rep LOGQ v) = Ok (rep LOGQ (u * v)).
Proof.
  intros H. unfold rep at 1 2. rewrite zq_mul_raw by auto. f_equal. apply rep_congr.
  pose proof (pow2_pos LOGQ ltac:(lia)). rewrite <- Z.mul_mod by lia. reflexivity.
Qed.
