(** encode, decode and decode_log in closed form. *)
From Coq Require Import ZArith List Bool Lia Reals Lra.
From Verif Require Import Base BaseFacts Util ZQ ZQFacts ZQFacts2 RQ RQFacts GSum Matrix MatrixFacts MatMulFacts DFT DFTFacts FFTFacts Encode.
Import ListNotations.
Open Scope Z_scope.

(** ** rounding *)
Lemma Int_part_spec x : (IZR (Int_part x) <= x < IZR (Int_part x) + 1)%R.
Proof. destruct (base_Int_part x). lra. Qed.
Lemma Int_part_unique x k : (IZR k <= x < IZR k + 1)%R -> Int_part x = k.
Proof.
  intros H. pose proof (Int_part_spec x) as H'. assert (A : (IZR k < IZR (Int_part x + 1))%R) by (rewrite plus_IZR; lra).
  assert (B : (IZR (Int_part x) < IZR (k + 1))%R) by (rewrite plus_IZR; lra). apply lt_IZR in A, B. lia.
Qed.
Lemma rround_pos x : (0 <= x)%R -> rround x = Int_part (x + / 2).
Proof. intros H. unfold rround. destruct (Rlt_dec x 0); [lra|auto]. Qed.
Lemma rround_opp x : rround (- x) = - rround x.
Proof.
  unfold rround. destruct (Rlt_dec (- x) 0) as [H|H], (Rlt_dec x 0) as [H'|H']; try lra.
  - rewrite Ropp_involutive. lia.
  - rewrite Z.opp_involutive. reflexivity.
  - assert (x = 0%R) by lra. subst x. rewrite Ropp_0, Rplus_0_l. assert (E : Int_part (/ 2) = 0) by (apply Int_part_unique; cbn; lra). rewrite E. reflexivity.
Qed.
Lemma rround_near x : (Rabs (IZR (rround x) - x) <= / 2)%R.
Proof.
  unfold rround. destruct (Rlt_dec x 0).
  - pose proof (Int_part_spec (- x + / 2)). rewrite opp_IZR. apply Rabs_le. lra.
  - pose proof (Int_part_spec (x + / 2)). apply Rabs_le. lra.
Qed.
Lemma rround_abs x : rround (Rabs x) = Z.abs (rround x) .
Proof.
  assert (P : forall x, (0 <= x)%R -> 0 <= rround x).
  { intros y Hy. rewrite rround_pos by auto. pose proof (Int_part_spec (y + / 2)) as H. assert (A : (-1 < IZR (Int_part (y + / 2)))%R) by lra.
    apply lt_IZR in A. lia. }
  unfold Rabs. destruct (Rcase_abs x).
  - rewrite rround_opp. pose proof (P (- x)%R ltac:(lra)) as Q. rewrite rround_opp in Q. lia.
  - pose proof (P x ltac:(lra)). lia.
Qed.
Lemma rround_sign x d : (0 <= d)%R -> (if Rlt_dec x 0 then - rround (Rabs x * d) else rround (Rabs x * d)) = rround (x * d).
Proof.
  intros Hd. destruct (Rlt_dec x 0).
  - rewrite Rabs_left by auto. replace (- x * d)%R with (- (x * d))%R by ring. rewrite rround_opp. lia.
  - rewrite Rabs_right by lra. reflexivity.
Qed.

(** ** encode *)
Section Encode.
Context (LOGQ LOGN : Z) (HQ : 1 <= LOGQ) (HL : 2 <= LOGN <= 27).
Let n := 2 ^ (LOGN - 1).
Let N := 2 ^ LOGN.

Lemma N_pos : 0 < N.
Proof. apply Z.pow_pos_nonneg; lia. Qed.

Lemma first_word w : is_word w -> wr (raw (len LOGQ) 0) 0 w = Ok (raw (len LOGQ) w).
Proof.
  intros Hw. pose proof (len_bounds LOGQ HQ). unfold raw. unfold wtab. rewrite wr_tab by lia. f_equal. apply tab_ext. intros j Hj.
  destruct (Z.eqb_spec j 0) as [->|].
  - rewrite dg_0, Z.mod_small; auto.
  - f_equal. unfold dg. rewrite Z.div_0_l by (pose proof (Wp_pos j ltac:(lia)); lia).
    rewrite Z.div_small; [reflexivity|]. unfold is_word in Hw. pose proof (Wp_S (j - 1) ltac:(lia)) as E. replace (j - 1 + 1) with j in E by lia. rewrite E.
    pose proof (Wp_pos (j - 1) ltac:(lia)). nia.
Qed.

(** What is written for one coefficient: the words of the rounded absolute value, negated if the number is negative. *)
Definition enc_words (x : R) (Delta : Z) : arr :=
  let w := rround (Rabs x * IZR Delta) in
  if Rlt_dec x 0 then rep LOGQ (- w) else raw (len LOGQ) w.

Lemma raw_rep v : 0 <= v < 2 ^ LOGQ -> raw (len LOGQ) v = rep LOGQ v.
Proof. intros H. unfold rep. rewrite Z.mod_small by auto. reflexivity. Qed.

Lemma enc_words_small x Delta : 0 <= Delta -> rround (Rabs x * IZR Delta) < 2 ^ LOGQ -> enc_words x Delta = rep LOGQ (rround (x * IZR Delta)).
Proof.
  intros HD H. assert (HD' : (0 <= IZR Delta)%R) by (apply IZR_le; auto).
  pose proof (rround_sign x (IZR Delta) HD') as E. unfold enc_words.
  assert (Hp : 0 <= rround (Rabs x * IZR Delta)).
  { rewrite <- (Rabs_right (IZR Delta)) by lra. rewrite <- Rabs_mult, rround_abs. lia. }
  destruct (Rlt_dec x 0).
  - rewrite E. reflexivity.
  - rewrite <- E. apply raw_rep. lia.
Qed.

Lemma zq_negate_raw' w : zq_negate LOGQ (raw (len LOGQ) w) = Ok (rep LOGQ (- w)).
Proof. rewrite zq_negate_raw by auto. reflexivity. Qed.

Lemma encode_loop (m : Z -> R) Delta pt : objP LOGQ N pt -> 0 <= Delta ->
  (forall i, 0 <= i < N -> rround (Rabs (m i) * IZR Delta) < W) ->
  for_ 0 N (fun i pt =>
      pt <- pupd pt i (zq_setzero LOGQ) ;;
      x <- grd (gtab N m) i ;;
      w <- to_u64 (rround (Rabs x * IZR Delta)) ;;
      pt <- pupd pt i (fun A => wr A 0 w) ;;
      x <- grd (gtab N m) i ;;
      if Rlt_dec x 0 then pupd pt i (zq_negate LOGQ) else Ok pt) pt = Ok (tab N (fun i => enc_words (m i) Delta)).
Proof.
  intros (d & -> & Hd) HD Hw. pose proof N_pos.
  rewrite (for_closed _ (fun i => tab N (fun k => if k <? i then enc_words (m k) Delta else d k)) _ _ _ (tab N (fun i => enc_words (m i) Delta))); auto; try lia.
  - apply tab_ext. intros k Hk. destruct (Z.ltb_spec k 0); auto; lia.
  - apply tab_ext. intros k Hk. destruct (Z.ltb_spec k N); auto; lia.
  - intros i Hi. rewrite (pupd_tab N _ i _ (raw (len LOGQ) 0)); auto.
    2:{ destruct (Z.ltb_spec i i); [lia|]. apply zq_setzero_ok; auto. }
    cbn [bind]. rewrite grd_gtab by auto. cbn [bind]. unfold to_u64.
    assert (Hp : 0 <= rround (Rabs (m i) * IZR Delta)).
    { rewrite <- (Rabs_right (IZR Delta)) by (apply Rle_ge, IZR_le; auto). rewrite <- Rabs_mult, rround_abs. lia. }
    pose proof (Hw i Hi). set (w := rround (Rabs (m i) * IZR Delta)) in *.
    destruct (Z.leb_spec 0 w); [|lia]. destruct (Z.ltb_spec w W); [|lia]. cbn [andb bind].
    rewrite (pupd_tab N _ i _ (raw (len LOGQ) w)); auto.
    2:{ rewrite Z.eqb_refl. apply first_word. split; auto. }
    cbn [bind]. destruct (Rlt_dec (m i) 0) as [Hs|Hs].
    + rewrite (pupd_tab N _ i _ (rep LOGQ (- w))); auto.
      2:{ rewrite Z.eqb_refl. apply zq_negate_raw'. }
      f_equal. apply tab_ext. intros k Hk. destruct (Z.eqb_spec k i), (Z.ltb_spec k i), (Z.ltb_spec k (i + 1)); try lia; auto.
      subst k. unfold enc_words. fold w. destruct (Rlt_dec (m i) 0); [auto|lra].
    + f_equal. apply tab_ext. intros k Hk. destruct (Z.eqb_spec k i), (Z.ltb_spec k i), (Z.ltb_spec k (i + 1)); try lia; auto.
      subst k. unfold enc_words. fold w. destruct (Rlt_dec (m i) 0); [lra|auto].
Qed.

(** some coefficient too large: undefined *)
Lemma encode_loop_undef (m : Z -> R) Delta pt k : objP LOGQ N pt -> 0 <= Delta -> 0 <= k < N ->
  W <= rround (Rabs (m k) * IZR Delta) ->
  for_ 0 N (fun i pt =>
      pt <- pupd pt i (zq_setzero LOGQ) ;;
      x <- grd (gtab N m) i ;;
      w <- to_u64 (rround (Rabs x * IZR Delta)) ;;
      pt <- pupd pt i (fun A => wr A 0 w) ;;
      x <- grd (gtab N m) i ;;
      if Rlt_dec x 0 then pupd pt i (zq_negate LOGQ) else Ok pt) pt = Undef.
Proof.
  intros HP HD Hk Hw. pose proof N_pos.
  set (body := fun i pt => _).
  (* by induction: from index i on, with k not yet reached *)
  assert (G : forall c i pt, 0 <= i <= k -> c = Z.to_nat (k - i) -> objP LOGQ N pt -> for_ i N body pt = Undef).
  { induction c as [|c IH]; intros i p Hi Hc (d & -> & Hd).
    - assert (i = k) by lia. subst i. rewrite for_step by lia. unfold body at 1.
      rewrite (pupd_tab N _ k _ (raw (len LOGQ) 0)); auto. 2:{ apply zq_setzero_ok; auto. }
      cbn [bind]. rewrite grd_gtab by auto. cbn [bind]. unfold to_u64.
      destruct (Z.ltb_spec (rround (Rabs (m k) * IZR Delta)) W); [lia|]. rewrite andb_false_r. reflexivity.
    - rewrite for_step by lia. unfold body at 1.
      rewrite (pupd_tab N _ i _ (raw (len LOGQ) 0)); auto; [|lia|apply zq_setzero_ok; auto; apply Hd; lia].
      cbn [bind]. rewrite grd_gtab by lia. cbn [bind]. unfold to_u64. set (w := rround (Rabs (m i) * IZR Delta)).
      destruct ((0 <=? w) && (w <? W)) eqn:Ew; [|reflexivity]. cbn [bind].
      apply andb_prop in Ew. destruct Ew as [E1 E2]. apply Z.leb_le in E1. apply Z.ltb_lt in E2.
      rewrite (pupd_tab N _ i _ (raw (len LOGQ) w)); [|lia|rewrite Z.eqb_refl; apply first_word; split; auto]. cbn [bind].
      destruct (Rlt_dec (m i) 0).
      + rewrite (pupd_tab N _ i _ (rep LOGQ (- w))); [|lia|rewrite Z.eqb_refl; apply zq_negate_raw'].
        cbn [bind]. apply IH; [lia|lia|]. apply objP_tab. intros j Hj. destruct (j =? i); [apply rep_length|auto].
      + cbn [bind]. apply IH; [lia|lia|]. apply objP_tab. intros j Hj. destruct (j =? i); [apply raw_length|auto]. }
  apply (G (Z.to_nat (k - 0)) 0); auto. lia.
Qed.

(** ** decode *)
Lemma sum_digits v (D : R) : 0 <= v < Wp (len LOGQ) -> D <> 0%R ->
  for_ 0 (len LOGQ) (fun j '(x, power) =>
      w <- rd (raw (len LOGQ) v) j ;;
      Ok ((if negb (w =? 0) then x + IZR w * power / D else x)%R, (power * beta)%R)) (0%R, 1%R)
  = Ok ((IZR v / D)%R, IZR (Wp (len LOGQ))).
Proof.
  intros Hv HD. pose proof (len_bounds LOGQ HQ).
  rewrite (for_closed _ (fun j => ((IZR (v mod Wp j) / D)%R, IZR (Wp j))) _ _ _ ((IZR v / D)%R, IZR (Wp (len LOGQ)))); auto; try lia.
  - rewrite Wp_0, Z.mod_1_r. f_equal. unfold Rdiv. ring.
  - rewrite Z.mod_small by auto. reflexivity.
  - intros j Hj. rewrite rd_raw by auto. cbn [bind]. rewrite mod_Wp_S, Wp_S by lia. apply f_equal. apply f_equal2.
    + rewrite plus_IZR, mult_IZR. destruct (Z.eqb_spec (dg v j) 0) as [->|]; cbn [negb]; unfold Rdiv; ring.
    + rewrite mult_IZR. unfold beta. rewrite <- mult_IZR. reflexivity.
Qed.

Lemma cent_abs v : (if 2 ^ (LOGQ - 1) <=? v mod 2 ^ LOGQ then - v else v) mod 2 ^ LOGQ = Z.abs (cent LOGQ v) /\
  (2 ^ (LOGQ - 1) <=? v mod 2 ^ LOGQ) = (cent LOGQ v <? 0).
Proof.
  pose proof (pow2_half LOGQ HQ). pose proof (pow2_pos (LOGQ - 1) ltac:(lia)). pose proof (Z.mod_pos_bound v (2 ^ LOGQ) ltac:(lia)).
  unfold cent. cbv zeta. destruct (Z.leb_spec (2 ^ (LOGQ - 1)) (v mod 2 ^ LOGQ)), (Z.ltb_spec (v mod 2 ^ LOGQ) (2 ^ (LOGQ - 1))); try lia.
  split; [|symmetry; apply Z.ltb_lt; lia]. rewrite Z.abs_neq by lia. rewrite Z.mod_opp_l_nz; lia.
Qed.
Lemma abs_obj v (b : bool) : b = (2 ^ (LOGQ - 1) <=? v mod 2 ^ LOGQ) ->
  (if b then zq_negate LOGQ (rep LOGQ v) else Ok (rep LOGQ v)) = Ok (raw (len LOGQ) (Z.abs (cent LOGQ v))) /\
  0 <= Z.abs (cent LOGQ v) < Wp (len LOGQ) /\ raw (len LOGQ) (Z.abs (cent LOGQ v)) = rep LOGQ (Z.abs (cent LOGQ v)).
Proof.
  intros ->. destruct (cent_abs v) as [E _]. rewrite <- E. split; [|split].
  - destruct (2 ^ (LOGQ - 1) <=? v mod 2 ^ LOGQ); [rewrite zq_negate_rep by auto|]; reflexivity.
  - apply mod_le_Wp. auto.
  - unfold rep. rewrite Z.mod_mod; [reflexivity|]. pose proof (pow2_pos LOGQ). lia.
Qed.

Lemma decode_coeff_ok v Delta : 0 < Delta -> decode_coeff LOGQ Delta (rep LOGQ v) = Ok (IZR (cent LOGQ v) / IZR Delta)%R.
Proof.
  intros HD. assert (HD' : IZR Delta <> 0%R) by (apply IZR_neq; lia). unfold decode_coeff.
  rewrite zq_copy_rep by (auto using zq_new_length). cbn [bind]. rewrite zq_is_big_rep by auto. cbn [bind].
  destruct (abs_obj v _ eq_refl) as (-> & Hb & _). cbn [bind]. rewrite sum_digits by auto. cbn [bind].
  destruct (cent_abs v) as [_ E]. rewrite E. destruct (Z.ltb_spec (cent LOGQ v) 0); f_equal.
  - rewrite Z.abs_neq, opp_IZR by lia. unfold Rdiv. ring.
  - rewrite Z.abs_eq by lia. reflexivity.
Qed.

Lemma decode_loop (F : arr -> res R) (a : Z -> Z) (f : Z -> R) : (forall i, 0 <= i < N -> F (rep LOGQ (a i)) = Ok (f (a i))) ->
  for_ 0 N (fun i m => p <- lget (repP LOGQ N a) i ;; x <- F p ;; gwr m i x) (gfresh R N) = Ok (gtab N (fun i => f (a i))).
Proof.
  intros HF. pose proof N_pos. rewrite gfresh_tab.
  rewrite (for_closed _ (fun i => tab N (fun k => if k <? i then Some (f (a k)) else None)) _ _ _ (gtab N (fun i => f (a i)))); auto; try lia.
  - apply tab_ext. intros k Hk. destruct (Z.ltb_spec k 0); auto; lia.
  - unfold gtab. apply tab_ext. intros k Hk. destruct (Z.ltb_spec k N); auto; lia.
  - intros i Hi. unfold repP. rewrite lget_tab by auto. cbn [bind]. rewrite HF by auto. cbn [bind]. rewrite gwr_tab by auto.
    f_equal. apply tab_ext. intros k Hk. destruct (Z.eqb_spec k i), (Z.ltb_spec k i), (Z.ltb_spec k (i + 1)); try lia; auto. congruence.
Qed.

(** ** decode_log *)
Lemma horner_digits v d : 0 <= d < len LOGQ ->
  for_ 0 (d + 1) (fun j x => w <- rd (raw (len LOGQ) v) j ;; Ok (x / beta + IZR w)%R) 0%R = Ok (IZR (v mod Wp (d + 1)) / IZR (Wp d))%R.
Proof.
  intros Hd. assert (HW : IZR W <> 0%R) by (apply IZR_neq; discriminate).
  assert (Eb : beta = IZR W) by (unfold beta; rewrite <- mult_IZR; reflexivity). rewrite Eb.
  assert (HWp : forall j, 0 <= j -> IZR (Wp j) <> 0%R) by (intros j Hj; apply IZR_neq; pose proof (Wp_pos j Hj); lia).
  rewrite (for_closed _ (fun j => (IZR (v mod Wp j) * IZR W / IZR (Wp j))%R) _ _ _ (IZR (v mod Wp (d + 1)) / IZR (Wp d))%R); auto; try lia.
  - rewrite Wp_0, Z.mod_1_r. unfold Rdiv. ring.
  - rewrite (Wp_S d), mult_IZR by lia. field. split; auto. apply HWp. lia.
  - intros j Hj. rewrite rd_raw by lia. cbn [bind]. f_equal. rewrite mod_Wp_S, Wp_S, plus_IZR, !mult_IZR by lia. field. split; auto. apply HWp. lia.
Qed.

Lemma powerRZ_2 k : 0 <= k -> powerRZ 2 k = IZR (2 ^ k).
Proof.
  intros Hk. rewrite <- (Z2Nat.id k) at 1 by auto. rewrite <- pow_powerRZ. rewrite <- (Z2Nat.id k) at 2 by auto. rewrite <- pow_IZR. reflexivity.
Qed.

Lemma top_digit v r : v = 2 ^ (LOGQ - 1) -> (forall j, r < j < len LOGQ -> dg v j = 4294967295) -> r < len LOGQ -> r = len LOGQ - 1.
Proof.
  intros Hv H Hr. pose proof (len_bounds LOGQ HQ) as Hl. destruct (Z.eq_dec r (len LOGQ - 1)) as [|Hne]; auto. exfalso.
  specialize (H (len LOGQ - 1) ltac:(lia)). pose proof (pow2_half LOGQ HQ). pose proof (pow2_pos (LOGQ - 1) ltac:(lia)).
  rewrite dg_top in H by (auto; lia). subst v.
  unfold Wp in H. rewrite <- Z.pow_sub_r in H by lia. set (t := LOGQ - 1 - 64 * (len LOGQ - 1)) in *.
  assert (Ht : 0 <= t) by lia. clearbody t. assert (C : t <= 31 \/ 32 <= t) by lia. destruct C as [C|C].
  - pose proof (Z.pow_le_mono_r 2 t 31 ltac:(lia) C). lia.
  - pose proof (Z.pow_le_mono_r 2 32 t ltac:(lia) C). lia.
Qed.

Lemma decode_log_coeff_ok v LD : LOGQ <= 2 ^ 30 -> - 2 ^ 30 <= LD <= 2 ^ 30 ->
  decode_log_coeff LOGQ LD (rep LOGQ v) = Ok (IZR (cent LOGQ v) * powerRZ 2 (- LD))%R.
Proof.
  intros HQ' HLD. unfold decode_log_coeff.
  rewrite zq_copy_rep by (auto using zq_new_length). cbn [bind]. rewrite zq_is_big_rep by auto. cbn [bind].
  destruct (abs_obj v _ eq_refl) as (-> & Hb & Hrep). cbn [bind]. set (u := Z.abs (cent LOGQ v)) in *.
  rewrite Hrep. pose proof (pow2_half LOGQ HQ). pose proof (pow2_pos (LOGQ - 1) ltac:(lia)). pose proof (cent_bounds LOGQ v HQ).
  destruct (zq_max_valid_digit_rep LOGQ u HQ) as (d & Ed & Hd & Hz & _). rewrite Ed. cbn [bind]. rewrite <- Hrep.
  rewrite Z.mod_small in Hz by lia. pose proof (len_bounds LOGQ HQ) as Hl.
  assert (Hval : u mod Wp (d + 1) = u).
  { destruct (Z.leb_spec (2 ^ (LOGQ - 1)) u) as [Hh|Hh].
    - assert (u = 2 ^ (LOGQ - 1)) by lia. pose proof (top_digit u d ltac:(auto) Hz ltac:(lia)). subst d.
      replace (len LOGQ - 1 + 1) with (len LOGQ) by lia. apply Z.mod_small. auto.
    - assert (G : forall j, d + 1 <= j <= len LOGQ -> u mod Wp j = u mod Wp (d + 1)).
      { intros j Hj. assert (P : d + 1 <= j -> j <= len LOGQ -> u mod Wp j = u mod Wp (d + 1)).
        { apply (Zlt_lower_bound_ind (fun j => d + 1 <= j -> j <= len LOGQ -> u mod Wp j = u mod Wp (d + 1)) (d + 1)); [|lia].
          intros x IH Hx _ Hxl. destruct (Z.eq_dec x (d + 1)) as [->|]; auto.
          replace x with (x - 1 + 1) by lia. rewrite mod_Wp_S by lia. rewrite Hz, Z.mul_0_r, Z.add_0_r by lia. apply IH; lia. }
        apply P; lia. }
      rewrite <- (G (len LOGQ)) by lia. apply Z.mod_small. auto. }
  rewrite int_in by lia. cbn [bind]. rewrite int_in by lia. cbn [bind].
  assert (Ex : exists x, for_ 0 (d + 1) (fun j x => w <- rd (raw (len LOGQ) u) j ;; Ok (x / beta + IZR w)%R) 0%R = Ok x /\
      (x * powerRZ 2 (64 * d - LD) = IZR u * powerRZ 2 (- LD))%R).
  { destruct (Z.eq_dec d (-1)) as [->|Hne].
    - exists 0%R. split; [apply for_nil; lia|]. change (-1 + 1) with 0 in Hval. rewrite Wp_0, Z.mod_1_r in Hval. rewrite <- Hval. ring.
    - exists (IZR u / IZR (Wp d))%R. split; [rewrite horner_digits, Hval by lia; reflexivity|].
      replace (64 * d - LD) with (64 * d + - LD) by lia. rewrite powerRZ_add by lra. rewrite powerRZ_2 by lia. fold (Wp d).
      assert (IZR (Wp d) <> 0%R) by (apply IZR_neq; pose proof (Wp_pos d ltac:(lia)); lia). field. auto. }
  destruct Ex as (x & -> & Ex). cbn [bind]. rewrite Ex.
  destruct (cent_abs v) as [_ E]. rewrite E. unfold u. destruct (Z.ltb_spec (cent LOGQ v) 0); f_equal.
  - rewrite Z.abs_neq, opp_IZR by lia. ring.
  - rewrite Z.abs_eq by lia. reflexivity.
Qed.
End Encode.
