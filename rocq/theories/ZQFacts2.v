(** Facts about sign test, resize, shifts and conversions of Z_Q.h. *)
From Coq Require Import ZArith List Bool Lia.
From Verif Require Import Base BaseFacts ZQ ZQFacts.
Import ListNotations.
Open Scope Z_scope.

(** Centered (signed) representative modulo [2^LOGQ]. *)
Definition cent (LOGQ v : Z) : Z :=
  let m := v mod 2 ^ LOGQ in if m <? 2 ^ (LOGQ - 1) then m else m - 2 ^ LOGQ.

Lemma pow2_half LOGQ : 1 <= LOGQ -> 2 ^ LOGQ = 2 * 2 ^ (LOGQ - 1).
Proof. intros. rewrite <- Z.pow_succ_r by lia. f_equal. lia. Qed.

Lemma cent_bounds LOGQ v : 1 <= LOGQ -> - 2 ^ (LOGQ - 1) <= cent LOGQ v < 2 ^ (LOGQ - 1).
Proof.
  intros H. unfold cent. pose proof (pow2_half LOGQ H). pose proof (pow2_pos (LOGQ - 1) ltac:(lia)).
  pose proof (Z.mod_pos_bound v (2 ^ LOGQ) ltac:(lia)). cbv zeta. zcase.
Qed.

Lemma cent_exists LOGQ v : 1 <= LOGQ -> exists k, cent LOGQ v = v + k * 2 ^ LOGQ.
Proof.
  intros H. pose proof (pow2_pos LOGQ ltac:(lia)).
  unfold cent. pose proof (Z.div_mod v (2 ^ LOGQ) ltac:(lia)). cbv zeta. zcase.
  - exists (- (v / 2 ^ LOGQ)). lia.
  - exists (- (v / 2 ^ LOGQ) - 1). lia.
Qed.

Lemma cent_congr LOGQ v : 1 <= LOGQ -> cent LOGQ v mod 2 ^ LOGQ = v mod 2 ^ LOGQ.
Proof.
  intros H. destruct (cent_exists LOGQ v H) as [k ->]. apply Z.mod_add.
  pose proof (pow2_pos LOGQ ltac:(lia)). lia.
Qed.

Lemma cent_unique LOGQ v w : 1 <= LOGQ -> - 2 ^ (LOGQ - 1) <= w < 2 ^ (LOGQ - 1) ->
  w mod 2 ^ LOGQ = v mod 2 ^ LOGQ -> cent LOGQ v = w.
Proof.
  intros H Hw E. unfold cent. rewrite <- E. cbv zeta.
  pose proof (pow2_half LOGQ H). pose proof (pow2_pos (LOGQ - 1) ltac:(lia)).
  destruct (Z_lt_le_dec w 0).
  - replace (w mod 2 ^ LOGQ) with (w + 2 ^ LOGQ) by (apply (Z.mod_unique _ _ (-1)); lia).
    zcase.
  - rewrite Z.mod_small by lia. zcase.
Qed.

Lemma cent_small LOGQ w : 1 <= LOGQ -> - 2 ^ (LOGQ - 1) <= w < 2 ^ (LOGQ - 1) -> cent LOGQ w = w.
Proof. intros. apply cent_unique; auto. Qed.

Lemma cent_mod LOGQ v : 1 <= LOGQ -> cent LOGQ (v mod 2 ^ LOGQ) = cent LOGQ v.
Proof. intros. unfold cent. rewrite Z.mod_mod; auto. pose proof (pow2_pos LOGQ); lia. Qed.

Lemma rep_cent LOGQ v : 1 <= LOGQ -> rep LOGQ (cent LOGQ v) = rep LOGQ v.
Proof. intros. apply rep_congr. apply cent_congr. auto. Qed.

Lemma dg_top LOGQ u : 1 <= LOGQ -> 0 <= u < 2 ^ LOGQ -> dg u (len LOGQ - 1) = u / Wp (len LOGQ - 1).
Proof.
  intros H Hu. pose proof (len_bounds LOGQ H) as Hl. unfold dg. apply Z.mod_small.
  pose proof (Wp_pos (len LOGQ - 1) ltac:(lia)). split; [apply Z.div_pos; lia|].
  apply Z.div_lt_upper_bound; [lia|]. rewrite <- Wp_S by lia.
  replace (len LOGQ - 1 + 1) with (len LOGQ) by lia.
  pose proof (mod_le_Wp LOGQ u H). rewrite Z.mod_small in H1 by lia. lia.
Qed.

Lemma zq_is_big_rep LOGQ v : 1 <= LOGQ ->
  zq_is_big LOGQ (rep LOGQ v) = Ok (2 ^ (LOGQ - 1) <=? v mod 2 ^ LOGQ).
Proof.
  intros H. pose proof (len_bounds LOGQ H) as Hl. unfold zq_is_big, rep.
  pose proof (pow2_half LOGQ H). pose proof (pow2_pos (LOGQ - 1) ltac:(lia)).
  pose proof (Z.mod_pos_bound v (2 ^ LOGQ) ltac:(lia)) as Hu. set (u := v mod 2 ^ LOGQ) in *.
  rewrite rd_raw by lia. cbn [bind]. rewrite wshr_ok by lia. cbn [bind]. f_equal.
  rewrite dg_top by auto. pose proof (Wp_pos (len LOGQ - 1) ltac:(lia)).
  rewrite Z.div_div by (try apply pow2_pos; lia).
  unfold Wp. rewrite <- Z.pow_add_r by lia.
  replace (64 * (len LOGQ - 1) + (LOGQ - (len LOGQ - 1) * 64 - 1)) with (LOGQ - 1) by lia.
  destruct (Z.leb_spec (2 ^ (LOGQ - 1)) u).
  - apply Z.eqb_eq. symmetry. apply (Z.div_unique _ _ _ (u - 2 ^ (LOGQ - 1))); lia.
  - apply Z.eqb_neq. rewrite Z.div_small by lia. lia.
Qed.

Lemma remove_clutter_rep LOGQ v : 1 <= LOGQ -> remove_clutter LOGQ (rep LOGQ v) = Ok (rep LOGQ v).
Proof.
  intros H. unfold rep at 1. rewrite remove_clutter_ok by auto. f_equal. apply rep_mod. lia.
Qed.

Lemma min_spec a b : min_ a b = Z.min a b.
Proof. unfold min_. zcase. Qed.

Lemma copy_words n k u : 0 <= k <= n ->
  forall m, k <= m ->
  for_ 0 k (fun i Ato => x <- rd (raw m u) i ;; wr Ato i x) (raw n 0) = Ok (raw n (u mod Wp k)).
Proof.
  intros Hk m Hm.
  apply (for_closed _ (fun i => wtab n (fun j => if j <? i then dg u j else 0))); [lia| | |].
  - apply wtab_ext. intros j Hj. zcase. unfold dg. rewrite Z.div_0_l by (pose proof (Wp_pos j); lia).
    reflexivity.
  - apply wtab_ext. intros j Hj. destruct (Z.ltb_spec j k); [apply dg_mod; lia|].
    unfold dg. rewrite Z.div_small; [reflexivity|].
    pose proof (Wp_pos k ltac:(lia)). pose proof (Z.mod_pos_bound u (Wp k) ltac:(lia)).
    unfold Wp in *. pose proof (Z.pow_le_mono_r 2 (64 * k) (64 * j) ltac:(lia) ltac:(lia)). lia.
  - intros i Hi. rewrite rd_raw by lia. cbn [bind]. rewrite wr_wtab by lia. f_equal.
    apply wtab_ext. intros j Hj. zcase; subst; auto.
Qed.

Lemma zq_resize_rep LOGQfr LOGQto v D : 1 <= LOGQfr -> 1 <= LOGQto ->
  length D = Z.to_nat (len LOGQto) ->
  zq_resize LOGQfr LOGQto (rep LOGQfr v) D = Ok (rep LOGQto (cent LOGQfr v)).
Proof.
  intros Hf Ht HD. pose proof (len_bounds LOGQfr Hf) as Hlf. pose proof (len_bounds LOGQto Ht) as Hlt.
  unfold zq_resize. rewrite zq_is_big_rep by auto. cbn [bind].
  set (k := Z.min (len LOGQfr) (len LOGQto)).
  assert (Hcut : forall u, 0 <= u < 2 ^ LOGQfr -> rep LOGQto (u mod Wp k) = rep LOGQto u).
  { intros u Hu. unfold k. destruct (Z.min_spec (len LOGQfr) (len LOGQto)) as [[_ ->]|[_ ->]].
    - rewrite Z.mod_small; auto. pose proof (mod_le_Wp LOGQfr u Hf).
      rewrite Z.mod_small in H by lia. lia.
    - apply rep_raw_mod. auto. }
  pose proof (pow2_pos LOGQfr ltac:(lia)).
  unfold cent. cbv zeta.
  destruct (Z.leb_spec (2 ^ (LOGQfr - 1)) (v mod 2 ^ LOGQfr)).
  - rewrite zq_copy_rep by (auto using zq_new_length). cbn [bind].
    rewrite zq_negate_rep by auto. cbn [bind]. rewrite zq_setzero_ok by auto. cbn [bind].
    rewrite min_spec. fold k. unfold rep at 1. rewrite copy_words by lia. cbn [bind].
    rewrite zq_negate_raw by auto. cbn [bind]. rewrite remove_clutter_rep by auto. f_equal.
    destruct (Z.ltb_spec (v mod 2 ^ LOGQfr) (2 ^ (LOGQfr - 1))); [lia|].
    pose proof (Z.mod_pos_bound v (2 ^ LOGQfr) ltac:(lia)) as Hu.
    set (u := v mod 2 ^ LOGQfr) in *.
    assert (Ev : (- v) mod 2 ^ LOGQfr = 2 ^ LOGQfr - u).
    { symmetry. apply (Z.mod_unique _ _ (- (v / 2 ^ LOGQfr) - 1)).
      - pose proof (pow2_pos (LOGQfr - 1) ltac:(lia)). lia.
      - pose proof (Z.div_mod v (2 ^ LOGQfr) ltac:(lia)). fold u in H2. lia. }
    rewrite Ev. replace (u - 2 ^ LOGQfr) with (- (2 ^ LOGQfr - u)) by ring.
    apply rep_congr. rewrite <- (mod_opp_congr LOGQto (2 ^ LOGQfr - u)), <- (mod_opp_congr LOGQto ((2 ^ LOGQfr - u) mod Wp k)) by lia.
    f_equal. f_equal. apply rep_inj; auto. apply Hcut.
    pose proof (pow2_pos (LOGQfr - 1) ltac:(lia)). lia.
  - rewrite zq_setzero_ok by auto. cbn [bind].
    rewrite min_spec. fold k. unfold rep at 1. rewrite copy_words by lia. cbn [bind].
    rewrite remove_clutter_ok by auto. f_equal.
    destruct (Z.ltb_spec (v mod 2 ^ LOGQfr) (2 ^ (LOGQfr - 1))); [|lia].
    apply Hcut. apply Z.mod_pos_bound. lia.
Qed.

Lemma zq_to_double_rep LOGQ v : 1 <= LOGQ ->
  zq_to_double_int LOGQ (rep LOGQ v) =
  Ok (if cent LOGQ v <? 0 then - ((- cent LOGQ v) mod W) else cent LOGQ v mod W).
Proof.
  intros H. pose proof (len_bounds LOGQ H) as Hl. unfold zq_to_double_int.
  rewrite zq_copy_rep by (auto using zq_new_length). cbn [bind].
  rewrite zq_is_big_rep by auto. cbn [bind].
  pose proof (pow2_pos LOGQ ltac:(lia)). pose proof (pow2_half LOGQ H).
  pose proof (pow2_pos (LOGQ - 1) ltac:(lia)).
  pose proof (Z.mod_pos_bound v (2 ^ LOGQ) ltac:(lia)) as Hu.
  unfold cent. cbv zeta.
  destruct (Z.leb_spec (2 ^ (LOGQ - 1)) (v mod 2 ^ LOGQ)).
  - rewrite zq_negate_rep by auto. cbn [bind]. unfold rep. rewrite rd_raw by lia. cbn [bind].
    rewrite dg_0. destruct (Z.ltb_spec (v mod 2 ^ LOGQ) (2 ^ (LOGQ - 1))); [lia|].
    destruct (Z.ltb_spec (v mod 2 ^ LOGQ - 2 ^ LOGQ) 0); [|lia]. do 2 f_equal. f_equal.
    symmetry. apply (Z.mod_unique _ _ (- (v / 2 ^ LOGQ) - 1)).
    + lia.
    + pose proof (Z.div_mod v (2 ^ LOGQ) ltac:(lia)). lia.
  - cbn [bind]. unfold rep. rewrite rd_raw by lia. cbn [bind].
    rewrite dg_0. destruct (Z.ltb_spec (v mod 2 ^ LOGQ) (2 ^ (LOGQ - 1))); [|lia].
    destruct (Z.ltb_spec (v mod 2 ^ LOGQ) 0); [lia|]. reflexivity.
Qed.

(** ** max_valid_digit *)

Lemma for_down_inv {S} (body : Z -> S -> res S) (P : Z -> S -> Prop) hi lo s :
  lo - 1 <= hi -> P hi s ->
  (forall i s, lo <= i <= hi -> P i s -> exists s', body i s = Ok s' /\ P (i - 1) s') ->
  exists s', for_down hi lo body s = Ok s' /\ P (lo - 1) s'.
Proof.
  intros Hle H0 Hs. remember (Z.to_nat (hi - lo + 1)) as n eqn:En.
  revert hi s Hle H0 Hs En. induction n; intros hi s Hle H0 Hs En.
  - exists s. rewrite for_down_nil by lia. split; auto. replace (lo - 1) with hi by lia. auto.
  - rewrite for_down_step by lia. destruct (Hs hi s) as (s1 & E & H1); [lia|auto|].
    rewrite E. cbn [bind]. apply IHn; auto; try lia. intros; apply Hs; auto; lia.
Qed.

Lemma zq_max_valid_digit_rep LOGQ v : 1 <= LOGQ ->
  let inv := if 2 ^ (LOGQ - 1) <=? v mod 2 ^ LOGQ then 4294967295 else 0 in
  let u := v mod 2 ^ LOGQ in
  exists r, zq_max_valid_digit LOGQ (rep LOGQ v) = Ok r /\ -1 <= r < len LOGQ /\
    (forall j, r < j < len LOGQ -> dg u j = inv) /\ (0 <= r -> dg u r <> inv).
Proof.
  intros H inv u. pose proof (len_bounds LOGQ H) as Hl. unfold zq_max_valid_digit.
  rewrite zq_is_big_rep by auto. cbn [bind]. fold inv. cbv zeta.
  destruct (for_down_inv (fun i (r : option Z) =>
         match r with
         | Some _ => Ok r
         | None => x <- rd (rep LOGQ v) i ;; Ok (if x =? inv then None else Some i)
         end)
    (fun i r => match r with
                | None => forall j, i < j < len LOGQ -> dg u j = inv
                | Some m => 0 <= m < len LOGQ /\ (forall j, m < j < len LOGQ -> dg u j = inv) /\ dg u m <> inv
                end) (len LOGQ - 1) 0 None) as (r & E & Hr).
  - lia.
  - intros; lia.
  - intros i s Hi Hs. destruct s as [m|].
    + eexists; split; [reflexivity|]. exact Hs.
    + unfold rep. rewrite rd_raw by lia. cbn [bind]. fold u.
      eexists; split; [reflexivity|].
      destruct (Z.eqb_spec (dg u i) inv).
      * intros j Hj. destruct (Z.eq_dec j i); [subst; auto|apply Hs; lia].
      * split; [lia|]. split; auto.
  - rewrite E. cbn [bind]. destruct r as [m|].
    + exists m. destruct Hr as (H1 & H2 & H3). split; [auto|]. split; [lia|]. auto.
    + exists (-1). split; auto. split; [lia|]. split; [|lia]. intros. apply Hr. lia.
Qed.

(** ** shifts *)

Lemma dg_shl u r i : 0 < r < 64 -> 0 <= i ->
  dg (u * 2 ^ r) i = wadd (wrap (dg u i * 2 ^ r)) (if i =? 0 then 0 else dg u (i - 1) / 2 ^ (64 - r)).
Proof.
  intros Hr Hi. pose proof (Wp_pos i Hi). pose proof W_pos. pose proof (pow2_pos r ltac:(lia)).
  unfold wadd, wrap. rewrite Z.add_mod_idemp_l by lia.
  assert (E : u * 2 ^ r / Wp i = u / Wp i * 2 ^ r + (if i =? 0 then 0 else dg u (i - 1) / 2 ^ (64 - r))).
  { rewrite (Z.div_mod u (Wp i)) at 1 by lia.
    replace ((Wp i * (u / Wp i) + u mod Wp i) * 2 ^ r)
      with (u mod Wp i * 2 ^ r + u / Wp i * 2 ^ r * Wp i) by ring.
    rewrite Z.div_add by lia. rewrite Z.add_comm. f_equal.
    destruct (Z.eqb_spec i 0) as [->|].
    - rewrite Wp_0, Z.mod_1_r. reflexivity.
    - replace i with (i - 1 + 1) at 1 by lia. rewrite mod_Wp_S by lia.
      replace (Wp i) with (Wp (i - 1) * 2 ^ (64 - r) * 2 ^ r).
      2:{ unfold Wp. rewrite <- !Z.pow_add_r by lia. f_equal. lia. }
      pose proof (Wp_pos (i - 1) ltac:(lia)). pose proof (pow2_pos (64 - r) ltac:(lia)).
      rewrite Z.div_mul_cancel_r by nia.
      rewrite <- Z.div_div by lia. f_equal.
      rewrite Z.mul_comm, Z.div_add by lia.
      rewrite Z.div_small by (apply Z.mod_pos_bound; lia). reflexivity. }
  unfold dg at 1. rewrite E.
  rewrite <- Z.add_mod_idemp_l by lia. rewrite <- (Z.add_mod_idemp_l (dg u i * 2 ^ r)) by lia.
  f_equal. f_equal. unfold dg. rewrite Z.mul_mod_idemp_l by lia. reflexivity.
Qed.

Lemma dg_shr u r i : 0 < r < 64 -> 0 <= i ->
  dg (u / 2 ^ r) i = wadd (dg u i / 2 ^ r) (wrap (dg u (i + 1) * 2 ^ (64 - r))).
Proof.
  intros Hr Hi. pose proof (Wp_pos i Hi). pose proof W_pos. pose proof (pow2_pos r ltac:(lia)).
  pose proof (pow2_pos (64 - r) ltac:(lia)).
  unfold wadd, wrap. rewrite Z.add_mod_idemp_r by lia.
  unfold dg. rewrite Z.div_div by lia. rewrite (Z.mul_comm (2 ^ r)). rewrite <- Z.div_div by lia.
  rewrite Wp_S by lia. rewrite <- (Z.div_div u (Wp i) W) by lia. set (x := u / Wp i).
  assert (E : x / 2 ^ r = x mod W / 2 ^ r + x / W * 2 ^ (64 - r)).
  { rewrite (Z.div_mod x W) at 1 by lia.
    replace (W * (x / W) + x mod W) with (x mod W + x / W * 2 ^ (64 - r) * 2 ^ r).
    2:{ replace W with (2 ^ (64 - r) * 2 ^ r) at 3; [ring|].
        rewrite <- Z.pow_add_r by lia. unfold W. f_equal. lia. }
    apply Z.div_add. lia. }
  rewrite E. rewrite <- Z.add_mod_idemp_r by lia.
  rewrite <- (Z.add_mod_idemp_r (x mod W / 2 ^ r) (_ mod W * _)) by lia.
  rewrite Z.mul_mod_idemp_l by lia. reflexivity.
Qed.

Lemma quot_rem_nonneg d : 0 <= d ->
  exists q r, Z.quot d 64 = q /\ Z.rem d 64 = r /\ d = 64 * q + r /\ 0 <= r < 64 /\ 0 <= q.
Proof.
  intros H. exists (d / 64), (d mod 64). rewrite Z.quot_div_nonneg, Z.rem_mod_nonneg by lia.
  pose proof (Z.div_mod d 64 ltac:(lia)). pose proof (Z.mod_pos_bound d 64 ltac:(lia)). lia.
Qed.

Lemma len_shift a q : 1 <= a -> 0 <= q -> len (a + 64 * q) = len a + q.
Proof. intros. apply len_unique; pose proof (len_bounds a ltac:(lia)); lia. Qed.

Lemma mul_pow_mod v a d : 0 <= a -> 0 <= d -> (v * 2 ^ d) mod 2 ^ (a + d) = v mod 2 ^ a * 2 ^ d.
Proof.
  intros. rewrite Z.pow_add_r by lia. pose proof (pow2_pos a ltac:(lia)).
  pose proof (pow2_pos d ltac:(lia)). apply Z.mul_mod_distr_r; lia.
Qed.

Lemma zq_shift_left_rep fr to v D : 1 <= fr <= to -> length D = Z.to_nat (len to) ->
  zq_shift_left fr to (rep fr v) D = Ok (rep to (v * 2 ^ (to - fr))).
Proof.
  intros H HD. unfold zq_shift_left.
  destruct (quot_rem_nonneg (to - fr) ltac:(lia)) as (q & r & -> & -> & Ed & Hr & Hq).
  pose proof (len_bounds fr ltac:(lia)) as Hlf. pose proof (len_bounds to ltac:(lia)) as Hlt.
  set (u := v mod 2 ^ fr).
  assert (Eres : rep to (v * 2 ^ (to - fr)) = raw (len to) (u * 2 ^ r * Wp q)).
  { unfold rep. f_equal. replace to with (fr + (to - fr)) at 2 by lia.
    rewrite mul_pow_mod by lia. fold u. unfold Wp. rewrite <- Z.mul_assoc, <- Z.pow_add_r by lia.
    f_equal. f_equal. lia. }
  rewrite Eres. unfold rep. fold u.
  destruct (arr_tab None D _ HD) as [g ->].
  assert (Hlen : len to = len (fr + r) + q).
  { replace to with (fr + r + 64 * q) by lia. apply len_shift; lia. }
  pose proof (len_bounds (fr + r) ltac:(lia)) as Hlr.
  rewrite (for_closed _ (fun i => tab (len to) (fun j => if (q <=? j) && (j <? i + q) then Some (dg u (j - q)) else g j))
            0 (len fr) _ (tab (len to) (fun j => if (q <=? j) && (j <? len fr + q) then Some (dg u (j - q)) else g j))).
  2: lia.
  2:{ apply tab_ext. intros j Hj. destruct (Z.leb_spec q j); cbn [andb]; zcase; auto. }
  2:{ reflexivity. }
  2:{ intros i Hi. rewrite rd_raw by lia. cbn [bind]. rewrite wr_tab by lia. f_equal.
      apply tab_ext. intros j Hj. destruct (Z.eqb_spec j (i + q)).
      - subst j. replace (i + q - q) with i by lia. zcase. reflexivity.
      - destruct (Z.leb_spec q j); cbn [andb]; auto. zcase; auto. }
  cbn [bind].
  rewrite (for_closed _ (fun i => tab (len to) (fun j => if j <? i then Some 0 else if (q <=? j) && (j <? len fr + q) then Some (dg u (j - q)) else g j))
            0 q _ (tab (len to) (fun j => if j <? q then Some 0 else if j <? len fr + q then Some (dg u (j - q)) else g j))).
  2: lia.
  2:{ apply tab_ext. intros j Hj. zcase; auto. }
  2:{ apply tab_ext. intros j Hj. zcase; auto. }
  2:{ intros i Hi. rewrite wr_tab by lia. f_equal.
      apply tab_ext. intros j Hj. destruct (Z.eqb_spec j i).
      - subst j. zcase; auto.
      - destruct (Z.ltb_spec j i); zcase; auto. }
  cbn [bind].
  destruct (Z.eqb_spec r 0).
  - subst r. rewrite Z.add_0_r in *. f_equal. rewrite Z.pow_0_r, Z.mul_1_r.
    apply tab_ext. intros j Hj. rewrite dg_shift by lia.
    destruct (Z.ltb_spec j q); destruct (Z.leb_spec q j); try lia; auto. zcase; auto.
  - set (ex := fun i => if i =? 0 then 0 else dg u (i - 1) / 2 ^ (64 - r)).
    rewrite (for_closed _ (fun i => (tab (len to) (fun j => if j <? q then Some 0 else
                            if j <? i + q then Some (dg (u * 2 ^ r) (j - q)) else
                            if j <? len fr + q then Some (dg u (j - q)) else g j), ex i))
            0 (len fr) _ (tab (len to) (fun j => if j <? q then Some 0 else
                            if j <? len fr + q then Some (dg (u * 2 ^ r) (j - q)) else g j), ex (len fr))).
    2: lia.
    2:{ f_equal. apply tab_ext. intros j Hj. zcase; auto. }
    2:{ f_equal. apply tab_ext. intros j Hj. zcase; auto. }
    2:{ intros i Hi. cbv beta iota. rewrite rd_tab by lia.
        destruct (Z.ltb_spec (i + q) q); [lia|]. rewrite Z.ltb_irrefl.
        destruct (Z.ltb_spec (i + q) (len fr + q)); [|lia].
        replace (i + q - q) with i by lia. cbn [bind]. rewrite wshr_ok by lia. cbn [bind].
        rewrite wshl_ok by lia. cbn [bind]. rewrite wr_tab by lia. cbn [bind].
        rewrite rd_tab by lia. rewrite Z.eqb_refl. cbn [bind]. rewrite wr_tab by lia. cbn [bind].
        f_equal. f_equal.
        - apply tab_ext. intros j Hj. destruct (Z.eqb_spec j (i + q)).
          + subst j. zcase; auto. f_equal. replace (i + q - q) with i by lia.
            rewrite (dg_shl u r i) by lia. reflexivity.
          + zcase; auto.
        - unfold ex. destruct (Z.eqb_spec (i + 1) 0); [lia|].
          replace (i + 1 - 1) with i by lia. reflexivity. }
    cbn [bind].
    assert (Hdu : dg u (len fr) = 0).
    { unfold dg. rewrite Z.div_small; [reflexivity|]. apply mod_le_Wp. lia. }
    change (Z.quot (fr + r + 63) 64) with (len (fr + r)). change (Z.quot (fr + 63) 64) with (len fr).
    destruct (Z.eqb_spec (len (fr + r)) (len fr)); cbn [negb].
    + f_equal. apply tab_ext. intros j Hj. rewrite dg_shift by lia.
      destruct (Z.leb_spec q j); zcase; auto.
    + assert (len (fr + r) = len fr + 1) by lia.
      rewrite wr_tab by lia. f_equal. apply tab_ext. intros j Hj. rewrite dg_shift by lia.
      destruct (Z.eqb_spec j (len fr + q)).
      * subst j. zcase. f_equal. replace (len fr + q - q) with (len fr) by lia.
        rewrite (dg_shl u r (len fr)) by lia. rewrite Hdu. fold ex. unfold wadd. cbn [Z.mul].
        change (wrap 0) with 0. rewrite Z.add_0_l. symmetry. apply wrap_small. unfold ex.
        destruct (Z.eqb_spec (len fr) 0); [lia|]. pose proof (dg_word u (len fr - 1)) as Hw.
        unfold is_word in *. pose proof (pow2_pos (64 - r) ltac:(lia)). split.
        -- apply Z.div_pos; lia.
        -- apply Z.div_lt_upper_bound; nia.
      * destruct (Z.leb_spec q j); zcase; auto.
Qed.

Lemma round_div u d : 1 <= d -> (u + 2 ^ (d - 1)) / 2 ^ d = u / 2 ^ d + (if Z.odd (u / 2 ^ (d - 1)) then 1 else 0).
Proof.
  intros H. pose proof (pow2_half d H) as Eh. pose proof (pow2_pos (d - 1) ltac:(lia)) as Hp.
  rewrite Eh. set (h := 2 ^ (d - 1)) in *. rewrite (Z.mul_comm 2 h).
  rewrite <- !Z.div_div by lia.
  replace (u + h) with (u + 1 * h) by ring. rewrite Z.div_add by lia. set (x := u / h).
  rewrite (Zdiv.Zmod_odd x) || idtac.
  pose proof (Zmod_odd x) as Eo. destruct (Z.odd x).
  - pose proof (Z.div_mod x 2 ltac:(lia)).
    symmetry. apply (Z.div_unique _ _ _ 0); lia.
  - rewrite Z.add_0_r. pose proof (Z.div_mod x 2 ltac:(lia)).
    symmetry. apply (Z.div_unique _ _ _ 1); lia.
Qed.

Lemma zq_shift_right_rep fr to v D : 1 <= to <= fr -> length D = Z.to_nat (len to) ->
  zq_shift_right fr to (rep fr v) D =
  Ok (rep to (if fr =? to then v else (v + 2 ^ (fr - to - 1)) / 2 ^ (fr - to))).
Proof.
  intros H HD. unfold zq_shift_right.
  pose proof (len_bounds fr ltac:(lia)) as Hlf. pose proof (len_bounds to ltac:(lia)) as Hlt.
  destruct (Z.eqb_spec fr to) as [->|Hne].
  { apply zq_copy_rep; [lia|auto]. }
  set (d := fr - to). set (u := v mod 2 ^ fr).
  pose proof (pow2_pos fr ltac:(lia)) as Hpf. pose proof (pow2_pos to ltac:(lia)) as Hpt.
  pose proof (Z.mod_pos_bound v (2 ^ fr) ltac:(lia)) as Hu. fold u in Hu.
  assert (Hpd : 0 < 2 ^ d) by (apply pow2_pos; lia).
  assert (Eres : rep to ((v + 2 ^ (d - 1)) / 2 ^ d) = rep to ((u + 2 ^ (d - 1)) / 2 ^ d)).
  { apply rep_congr. rewrite (Z.div_mod v (2 ^ fr)) by lia. fold u.
    replace (2 ^ fr) with (2 ^ to * 2 ^ d) by (rewrite <- Z.pow_add_r by lia; f_equal; lia).
    replace (2 ^ to * 2 ^ d * (v / (2 ^ to * 2 ^ d)) + u + 2 ^ (d - 1))
      with (u + 2 ^ (d - 1) + 2 ^ to * (v / (2 ^ to * 2 ^ d)) * 2 ^ d) by ring.
    rewrite Z.div_add by lia. rewrite (Z.mul_comm (2 ^ to) (_ / _)), Z.mod_add by lia. reflexivity. }
  rewrite Eres. clear Eres. rewrite round_div by lia.
  unfold rep at 1 2 3. fold u.
  assert (Hd : 0 <= fr - to) by lia.
  destruct (quot_rem_nonneg d Hd) as (q & r & -> & -> & Ed & Hr & Hq).
  destruct (arr_tab None D _ HD) as [g ->].
  assert (Hlen : len fr = len (to + r) + q).
  { replace fr with (to + r + 64 * q) by lia. apply len_shift; lia. }
  pose proof (len_bounds (to + r) ltac:(lia)) as Hlr.
  rewrite (for_closed _ (fun i => tab (len to) (fun j => if j <? i then Some (dg u (j + q)) else g j))
            0 (len to) _ (raw (len to) (u / Wp q))).
  2: lia.
  2:{ apply tab_ext. intros j Hj. zcase; auto. }
  2:{ apply tab_ext. intros j Hj. zcase; auto. rewrite dg_div by lia. reflexivity. }
  2:{ intros i Hi. rewrite rd_raw by lia. cbn [bind]. rewrite wr_tab by lia. f_equal.
      apply tab_ext. intros j Hj. zcase; subst; auto. }
  cbn [bind].
  pose proof (Wp_pos q ltac:(lia)) as HWq.
  assert (HB : (if r >? 0 then
            Bextra <- (if negb (Z.quot (to + r + 63) 64 =? Z.quot (to + 63) 64)
                       then rd (raw (len fr) u) (Z.quot (to + 63) 64 + q) else Ok 0) ;;
            Bextra <- wshl Bextra (64 - r) ;;
            '(B, _) <- for_down (Z.quot (to + 63) 64 - 1) 0 (fun i '(B, Bextra) =>
                 x <- rd B i ;; temp <- wshl x (64 - r) ;;
                 x <- rd B i ;; x <- wshr x r ;; B <- wr B i x ;;
                 x <- rd B i ;; B <- wr B i (wadd x Bextra) ;;
                 Ok (B, temp)) (raw (len to) (u / Wp q), Bextra) ;;
            Ok B
          else Ok (raw (len to) (u / Wp q))) = Ok (raw (len to) (u / 2 ^ d))).
  { assert (E2d : 2 ^ d = Wp q * 2 ^ r)
      by (unfold Wp; rewrite <- Z.pow_add_r by lia; f_equal; lia).
    rewrite E2d. rewrite <- Z.div_div by (try apply pow2_pos; lia).
    set (x := u / Wp q).
    destruct (Z.gtb_spec r 0).
    2:{ replace r with 0 by lia. rewrite Z.pow_0_r, Z.div_1_r. reflexivity. }
    change (Z.quot (to + r + 63) 64) with (len (to + r)). change (Z.quot (to + 63) 64) with (len to).
    assert (EX : (if negb (len (to + r) =? len to) then rd (raw (len fr) u) (len to + q) else Ok 0)
                 = Ok (dg x (len to))).
    { destruct (Z.eqb_spec (len (to + r)) (len to)); cbn [negb].
      - unfold x. rewrite dg_div by lia. f_equal. replace (len to + q) with (len fr) by lia.
        unfold dg. rewrite Z.div_small; [reflexivity|]. apply mod_le_Wp. lia.
      - rewrite rd_raw by lia. unfold x. rewrite dg_div by lia. reflexivity. }
    rewrite EX. cbn [bind]. rewrite wshl_ok by lia. cbn [bind].
    rewrite (for_down_closed _ (fun i => (wtab (len to) (fun j => if i <? j then dg (x / 2 ^ r) j else dg x j),
                wrap (dg x (i + 1) * 2 ^ (64 - r)))) (len to - 1) 0 _
             (raw (len to) (x / 2 ^ r), wrap (dg x 0 * 2 ^ (64 - r)))).
    - reflexivity.
    - lia.
    - f_equal; [|do 2 f_equal; f_equal; lia].
      apply wtab_ext. intros j Hj. zcase; auto.
    - f_equal. apply wtab_ext. intros j Hj. zcase; auto.
    - intros i Hi. cbv beta iota. rewrite rd_wtab by lia. cbn [bind]. rewrite wshl_ok by lia. cbn [bind].
      rewrite wshr_ok by lia. cbn [bind]. rewrite wr_wtab by lia. cbn [bind].
      rewrite rd_wtab by lia. cbn [bind]. rewrite wr_wtab by lia. cbn [bind].
      rewrite Z.eqb_refl, Z.ltb_irrefl. f_equal. f_equal.
      + apply wtab_ext. intros j Hj. zcase; subst; auto.
        rewrite (dg_shr x r i) by lia. reflexivity.
      + do 2 f_equal. f_equal. lia. }
  rewrite HB. cbn [bind].
  fold d. destruct (quot_rem_nonneg (d - 1) ltac:(lia)) as (q1 & r1 & -> & -> & Ed1 & Hr1 & Hq1).
  rewrite rd_raw by lia. cbn [bind]. rewrite wshr_ok by lia. cbn [bind].
  assert (Eodd : Z.odd (dg u q1 / 2 ^ r1) = Z.odd (u / 2 ^ (d - 1))).
  { rewrite Ed1. rewrite Z.pow_add_r by lia. change (2 ^ (64 * q1)) with (Wp q1).
    pose proof (Wp_pos q1 Hq1). pose proof (pow2_pos r1 ltac:(lia)).
    rewrite <- Z.div_div by lia. unfold dg. set (x := u / Wp q1).
    rewrite (Z.div_mod x W) at 2 by (pose proof W_pos; lia).
    replace (W * (x / W) + x mod W) with (x mod W + x / W * 2 ^ (63 - r1) * 2 * 2 ^ r1).
    2:{ replace W with (2 ^ (63 - r1) * 2 * 2 ^ r1) at 3; [ring|].
        rewrite <- Z.mul_assoc, <- Z.pow_succ_r by lia.
        rewrite <- Z.pow_add_r by lia. unfold W. f_equal. lia. }
    rewrite Z.div_add by lia. rewrite Z.odd_add, Z.odd_mul.
    change (Z.odd 2) with false. rewrite andb_false_r, xorb_false_r. reflexivity. }
  rewrite Eodd.
  assert (Hud : 0 <= u / 2 ^ d < 2 ^ to).
  { split; [apply Z.div_pos; lia|]. apply Z.div_lt_upper_bound; [lia|].
    rewrite <- Z.pow_add_r by lia. replace (d + to) with fr by lia. lia. }
  destruct (Z.odd (u / 2 ^ (d - 1))).
  - change (for_ 0 (len to) (fun i C => wr C i 0) (zq_new to)) with (zq_setzero to (zq_new to)).
    rewrite zq_setzero_ok by (auto using zq_new_length; lia). cbn [bind].
    unfold raw at 1. rewrite wr_wtab by lia. cbn [bind].
    replace (wtab (len to) (fun j => if j =? 0 then 1 else dg 0 j)) with (raw (len to) 1).
    2:{ apply wtab_ext. intros j Hj. destruct (Z.eqb_spec j 0) as [->|].
        - rewrite dg_0. reflexivity.
        - unfold dg. rewrite Z.div_small, Z.div_0_l; auto.
          + pose proof (Wp_pos j); lia.
          + split; [lia|]. unfold Wp. apply Z.pow_gt_1; lia. }
    rewrite zq_add_raw by lia. reflexivity.
  - f_equal. rewrite Z.add_0_r. unfold rep. rewrite Z.mod_small by lia. reflexivity.
Qed.
