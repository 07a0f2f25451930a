(** Properties C01-C11: fixed-width integers (Z_Q.h). *)
From Coq Require Import ZArith List Bool Lia.
From Verif Require Import Base BaseFacts ZQ ZQFacts ZQFacts2 ZQFacts3 ZQStr SpecZQ SpecZQFacts.
Import ListNotations.
Open Scope Z_scope.

(** Concrete objects used in the examples. *)
Definition ex_ones2 : arr := [Some (2 ^ 64 - 1); Some (2 ^ 64 - 1)].
Definition ex_one2 : arr := [Some 1; Some 0].

(** ** C01 *)
Theorem C01_add : forall LOGQ A B a b,
  1 <= LOGQ -> stores LOGQ A a -> stores LOGQ B b ->
  exists C, zq_add LOGQ A B = Ok C /\ holds LOGQ C (a + b).
Proof.
  intros LOGQ A B a b H HA HB. apply stores_raw in HA, HB; auto. destruct HA as [-> _], HB as [-> _].
  rewrite zq_add_raw by auto. eexists; split; [reflexivity|]. apply holds_rep; auto.
Qed.
Example C01_case : stores 100 ex_ones2 (2 ^ 128 - 1) /\ stores 100 ex_one2 1 /\
  zq_add 100 ex_ones2 ex_one2 = Ok [Some 0; Some 0].
Proof. vm_compute. repeat split. Qed.

(** ** C02 *)
Theorem C02_negate : forall LOGQ A a,
  1 <= LOGQ -> stores LOGQ A a ->
  exists C, zq_negate LOGQ A = Ok C /\ holds LOGQ C (- a).
Proof.
  intros LOGQ A a H HA. apply stores_raw in HA; auto. destruct HA as [-> _].
  rewrite zq_negate_raw by auto. eexists; split; [reflexivity|]. apply holds_rep; auto.
Qed.
(** [A -= B]; taking [B := A] covers [A -= A]. *)
Theorem C02_sub : forall LOGQ A B a b,
  1 <= LOGQ -> stores LOGQ A a -> stores LOGQ B b ->
  exists C, zq_sub LOGQ A B = Ok C /\ holds LOGQ C (a - b).
Proof.
  intros LOGQ A B a b H HA HB. apply stores_raw in HA, HB; auto. destruct HA as [-> _], HB as [-> _].
  rewrite zq_sub_raw by auto. eexists; split; [reflexivity|]. apply holds_rep; auto.
Qed.
Example C02_case : zq_negate 100 ex_one2 = Ok [Some (2 ^ 64 - 1); Some (2 ^ 36 - 1)] /\
  zq_sub 100 ex_one2 [Some 0; Some 1] = Ok [Some 1; Some (2 ^ 36 - 1)].
Proof. vm_compute. repeat split. Qed.

(** ** C03 (for [mul]; [mul_] of mod.h is in Properties_Mod.v) *)
Theorem C03_mul : forall a b, 0 <= a < 2 ^ 64 -> 0 <= b < 2 ^ 64 ->
  exists lo hi, zq_mul64 a b = Ok (lo, hi) /\ 0 <= lo < 2 ^ 64 /\ 0 <= hi < 2 ^ 64 /\
                hi * 2 ^ 64 + lo = a * b.
Proof.
  intros a b Ha Hb. rewrite zq_mul64_ok by (auto; exact Ha || exact Hb).
  exists ((a * b) mod W), (a * b / W). change (2 ^ 64) with W in *. pose proof W_pos.
  split; [reflexivity|]. split; [apply Z.mod_pos_bound; lia|]. split.
  - split; [apply Z.div_pos; nia|]. apply Z.div_lt_upper_bound; nia.
  - pose proof (Z.div_mod (a * b) W ltac:(lia)). lia.
Qed.
Example C03_case : zq_mul64 (2 ^ 64 - 1) (2 ^ 64 - 1) = Ok (1, 2 ^ 64 - 2).
Proof. vm_compute. reflexivity. Qed.

(** ** C04 *)
Theorem C04_mul_word : forall LOGQ A a x,
  1 <= LOGQ -> stores LOGQ A a -> 0 <= x < 2 ^ 64 ->
  exists C, zq_mul_word LOGQ A x = Ok C /\ holds LOGQ C (a * x).
Proof.
  intros LOGQ A a x H HA Hx. apply stores_raw in HA; auto. destruct HA as [-> _].
  rewrite zq_mul_word_raw by auto. eexists; split; [reflexivity|]. apply holds_rep; auto.
Qed.
(** Taking [B := A] covers [A *= A]. *)
Theorem C04_mul : forall LOGQ A B a b,
  1 <= LOGQ -> stores LOGQ A a -> stores LOGQ B b ->
  exists C, zq_mul LOGQ A B = Ok C /\ holds LOGQ C (a * b).
Proof.
  intros LOGQ A B a b H HA HB. apply stores_raw in HA, HB; auto. destruct HA as [-> _], HB as [-> _].
  rewrite zq_mul_raw by auto. eexists; split; [reflexivity|]. apply holds_rep; auto.
Qed.
Example C04_case : zq_mul 100 ex_ones2 ex_ones2 = Ok [Some 1; Some 0] /\
  zq_mul_word 100 [Some (2 ^ 63); Some 5] 6 = Ok [Some 0; Some 33].
Proof. vm_compute. repeat split. Qed.

(** ** C05: the full statement ([x += x] doubles x for every x) is false. *)
Theorem C05_self_add_refuted : exists LOGQ A a C,
  1 <= LOGQ /\ stores LOGQ A a /\ a < 2 ^ LOGQ /\ zq_add_self LOGQ A = Ok C /\ ~ holds LOGQ C (2 * a).
Proof.
  exists 128, [Some (2 ^ 63); Some 0], (2 ^ 63), [Some 0; Some 0].
  split; [lia|]. split; [split; reflexivity|]. split; [reflexivity|]. split; [reflexivity|].
  intros [_ H]. vm_compute in H. discriminate.
Qed.
(** What does hold: it is right exactly when no word other than the topmost has its top bit set. *)
Theorem C05_self_add_partial : forall LOGQ A a,
  1 <= LOGQ -> stores LOGQ A a ->
  exists C, zq_add_self LOGQ A = Ok C /\
    (holds LOGQ C (2 * a) <->
     forall j, 0 <= j < (LOGQ + 63) / 64 - 1 -> (a / 2 ^ (64 * j)) mod 2 ^ 64 < 2 ^ 63).
Proof.
  intros LOGQ A a H HA. apply stores_raw in HA; auto. destruct HA as [-> Hb].
  pose proof (self_add_iff LOGQ a H Hb) as Hi. rewrite zq_add_self_raw in * by auto.
  eexists; split; [reflexivity|]. rewrite holds_rep by auto. rewrite <- len_div by lia.
  etransitivity; [|exact Hi]. split; intros E; congruence.
Qed.
Example C05_case : zq_add_self 128 [Some (2 ^ 63 - 1); Some (2 ^ 63 + 3)] = Ok [Some (2 ^ 64 - 2); Some 6].
Proof. reflexivity. Qed.

(** ** C06 *)
Theorem C06_shift_left : forall fr to A B a,
  1 <= fr <= to -> holds fr A a -> object to B ->
  exists C, zq_shift_left fr to A B = Ok C /\ stores to C (a mod 2 ^ fr * 2 ^ (to - fr)).
Proof.
  intros fr to A B a H HA HB. apply holds_rep in HA; [|lia]. subst A. apply object_length in HB; [|lia].
  rewrite zq_shift_left_rep by (auto; lia). eexists; split; [reflexivity|].
  pose proof (proj2 (holds_rep to (rep to (a * 2 ^ (to - fr))) (a * 2 ^ (to - fr)) ltac:(lia)) eq_refl) as Hh.
  pose proof (mul_pow_mod a fr (to - fr) ltac:(lia) ltac:(lia)) as E.
  replace (fr + (to - fr)) with to in E by lia. unfold holds in Hh. rewrite E in Hh. exact Hh.
Qed.
Example C06_case : zq_shift_left 70 150 [Some 3; Some 33] [None; None; None] = Ok [Some 0; Some 196608; Some 2162688].
Proof. reflexivity. Qed.

(** ** C07 *)
Theorem C07_shift_right : forall fr to A B a,
  1 <= to < fr -> holds fr A a -> object to B ->
  exists C, zq_shift_right fr to A B = Ok C /\
            holds to C ((a + 2 ^ (fr - to - 1)) / 2 ^ (fr - to)).
Proof.
  intros fr to A B a H HA HB. apply holds_rep in HA; [|lia]. subst A. apply object_length in HB; [|lia].
  rewrite zq_shift_right_rep by (auto; lia). destruct (Z.eqb_spec fr to); [lia|].
  eexists; split; [reflexivity|]. apply holds_rep; [lia|reflexivity].
Qed.
Theorem C07_shift_right_same : forall LOGQ A B a,
  1 <= LOGQ -> holds LOGQ A a -> object LOGQ B ->
  exists C, zq_shift_right LOGQ LOGQ A B = Ok C /\ holds LOGQ C a.
Proof.
  intros LOGQ A B a H HA HB. apply holds_rep in HA; [|lia]. subst A. apply object_length in HB; [|lia].
  rewrite zq_shift_right_rep by (auto; lia). rewrite Z.eqb_refl.
  eexists; split; [reflexivity|]. apply holds_rep; [lia|reflexivity].
Qed.
(** Rounding to nearest on the signed reading: the result [c] (as a residue class) satisfies
    [|2^d * c - s| <= 2^(d-1)] for a representative [c]. *)
Theorem C07_shift_right_nearest : forall fr to A B a s,
  1 <= to < fr -> holds fr A a -> signed fr a s -> object to B ->
  exists C c, zq_shift_right fr to A B = Ok C /\ holds to C c /\
              Z.abs (2 ^ (fr - to) * c - s) <= 2 ^ (fr - to - 1).
Proof.
  intros fr to A B a s H HA Hs HB. apply holds_rep in HA; [|lia].
  apply signed_cent in Hs; [|lia]. rewrite <- (rep_cent fr a) in HA by lia. rewrite <- Hs in HA.
  subst A. apply object_length in HB; [|lia].
  rewrite zq_shift_right_rep by (auto; lia). destruct (Z.eqb_spec fr to); [lia|].
  eexists; eexists; split; [reflexivity|]. split; [apply holds_rep; [lia|reflexivity]|].
  pose proof (pow2_half (fr - to) ltac:(lia)) as Eh. pose proof (pow2_pos (fr - to - 1) ltac:(lia)).
  set (h := 2 ^ (fr - to - 1)) in *. set (d := 2 ^ (fr - to)) in *.
  pose proof (Z.div_mod (s + h) d ltac:(lia)). pose proof (Z.mod_pos_bound (s + h) d ltac:(lia)). lia.
Qed.
Example C07_case : zq_shift_right 150 70 [Some 0; Some (196608 + 2 ^ 15); Some 2162688] [None; None]
                   = Ok [Some 4; Some 33].
Proof. reflexivity. Qed.

(** ** C08 *)
Theorem C08_sign : forall LOGQ A a,
  1 <= LOGQ -> holds LOGQ A a ->
  exists b, zq_is_big LOGQ A = Ok b /\ (b = true <-> 2 ^ (LOGQ - 1) <= a mod 2 ^ LOGQ) /\
            (forall s, signed LOGQ a s -> (b = true <-> s < 0)).
Proof.
  intros LOGQ A a H HA. apply holds_rep in HA; auto. subst A. rewrite zq_is_big_rep by auto.
  eexists; split; [reflexivity|]. split; [apply Z.leb_le|]. intros s Hs. apply signed_cent in Hs; auto.
  subst s. rewrite Z.leb_le. unfold cent. cbv zeta.
  pose proof (pow2_pos LOGQ ltac:(lia)). pose proof (Z.mod_pos_bound a (2 ^ LOGQ) ltac:(lia)). zcase.
Qed.
(** Widening and narrowing at once: the result holds the signed value. *)
Theorem C08_resize : forall fr to A B a s,
  1 <= fr -> 1 <= to -> holds fr A a -> signed fr a s -> object to B ->
  exists C, zq_resize fr to A B = Ok C /\ holds to C s.
Proof.
  intros fr to A B a s Hf Ht HA Hs HB. apply holds_rep in HA; auto. subst A.
  apply signed_cent in Hs; auto. subst s. apply object_length in HB; auto.
  rewrite zq_resize_rep by auto. eexists; split; [reflexivity|]. apply holds_rep; auto.
Qed.
Theorem C08_resize_wider : forall fr to A B a s,
  1 <= fr <= to -> holds fr A a -> signed fr a s -> object to B ->
  exists C, zq_resize fr to A B = Ok C /\ holds to C s /\ signed to s s.
Proof.
  intros fr to A B a s H HA Hs HB. destruct (C08_resize fr to A B a s) as (C & E & HC); auto; try lia.
  exists C. split; auto. split; auto. destruct Hs as [Hs _]. split; [|exists 0; lia].
  pose proof (Z.pow_le_mono_r 2 (fr - 1) (to - 1) ltac:(lia) ltac:(lia)). lia.
Qed.
Theorem C08_resize_narrower : forall fr to A B a,
  1 <= to <= fr -> holds fr A a -> object to B ->
  exists C, zq_resize fr to A B = Ok C /\ holds to C a.
Proof.
  intros fr to A B a H HA HB.
  destruct (C08_resize fr to A B a (cent fr a)) as (C & E & HC); auto; try lia.
  { apply signed_cent; auto; lia. }
  exists C. split; auto. apply holds_rep in HC; [|lia]. subst C. apply holds_rep; [lia|].
  apply rep_congr. destruct (cent_exists fr a ltac:(lia)) as [k ->].
  replace fr with (to + (fr - to)) by lia. rewrite Z.pow_add_r by lia.
  replace (a + k * (2 ^ to * 2 ^ (fr - to))) with (a + (k * 2 ^ (fr - to)) * 2 ^ to) by ring.
  apply Z.mod_add. pose proof (pow2_pos to). lia.
Qed.
(** Widening and narrowing back is the identity on memory contents. *)
Theorem C08_resize_roundtrip : forall fr to A B D a,
  1 <= fr <= to -> holds fr A a -> object to B -> object fr D ->
  exists C, zq_resize fr to A B = Ok C /\ zq_resize to fr C D = Ok A.
Proof.
  intros fr to A B D a H HA HB HD. apply holds_rep in HA; [|lia]. subst A.
  apply object_length in HB; [|lia]. apply object_length in HD; [|lia].
  rewrite zq_resize_rep by (auto; lia). eexists; split; [reflexivity|].
  rewrite zq_resize_rep by (auto; lia). f_equal.
  rewrite (cent_small to (cent fr a)); [apply rep_cent; lia|lia|].
  pose proof (cent_bounds fr a ltac:(lia)).
  pose proof (Z.pow_le_mono_r 2 (fr - 1) (to - 1) ltac:(lia) ltac:(lia)). lia.
Qed.
Example C08_case : zq_resize 66 130 [Some 5; Some 2] [None; None; None]
                   = Ok [Some 5; Some (2 ^ 64 - 2); Some 3].
Proof. reflexivity. Qed.

(** ** C09 *)
Theorem C09_to_str : forall LOGQ A a buf,
  1 <= LOGQ <= 1300 -> stores LOGQ A a -> (520 <= length buf)%nat ->
  exists s, zq_to_str LOGQ A buf = Ok (map Some s ++ Some 0 :: skipn (S (length s)) buf) /\
    Forall is_digit s /\ dec_value 0 s = a /\ (1 <= length s <= 405)%nat /\ (s = [48] \/ hd 0 s <> 48).
Proof.
  intros LOGQ A a buf H HA Hb. apply stores_raw in HA; [|lia]. destruct HA as [-> Hv].
  apply to_str_ok; auto.
Qed.
Theorem C09_fr_str : forall LOGQ D s,
  1 <= LOGQ -> object LOGQ D -> Forall is_digit s -> (length s <= 520)%nat ->
  dec_value 0 s < 2 ^ (64 * ((LOGQ + 63) / 64)) ->
  exists C, zq_fr_str LOGQ D s = Ok C /\ stores LOGQ C (dec_value 0 s).
Proof.
  intros LOGQ D s H HD Hs Hn Hv. apply object_length in HD; auto.
  rewrite <- len_div in Hv by lia. rewrite fr_str_ok by auto. eexists; split; [reflexivity|].
  apply stores_raw; auto. split; auto. split; [apply dec_value_bound; auto|exact Hv].
Qed.
Theorem C09_roundtrip : forall LOGQ A a buf D,
  1 <= LOGQ <= 1300 -> stores LOGQ A a -> (520 <= length buf)%nat -> object LOGQ D ->
  exists s rest, zq_to_str LOGQ A buf = Ok (map Some s ++ Some 0 :: rest) /\ zq_fr_str LOGQ D s = Ok A.
Proof.
  intros LOGQ A a buf D H HA Hb HD.
  destruct (C09_to_str LOGQ A a buf H HA Hb) as (s & E & Hs & Hv & Hl & _).
  exists s, (skipn (S (length s)) buf). split; auto.
  apply object_length in HD; [|lia]. apply stores_raw in HA; [|lia]. destruct HA as [-> Ha].
  rewrite fr_str_ok; auto; try lia. rewrite Hv. reflexivity.
Qed.
Theorem C09_to_str_wide : forall LOGQ A a buf,
  1300 < LOGQ -> stores LOGQ A a -> zq_to_str LOGQ A buf = Abort.
Proof.
  intros LOGQ A a buf H HA. apply stores_raw in HA; [|lia]. destruct HA as [-> _].
  apply to_str_abort; eauto; lia.
Qed.
Example C09_case : zq_to_str 70 [Some 3; Some 33] (fresh 520) =
  Ok (map Some [54;48;56;55;52;50;53;53;52;52;51;50;52;49;53;50;48;51;51;51;49] ++ Some 0 :: fresh 498) /\
  zq_fr_str 70 [None; None] [54;48;56;55;52;50;53;53;52;52;51;50;52;49;53;50;48;51;51;51;49]
  = Ok [Some 3; Some 33].
Proof. vm_compute. repeat split. Qed.

(** ** C10: false for values of 2^64 and more. *)
Theorem C10_to_double_refuted : exists LOGQ A s r,
  1 <= LOGQ /\ holds LOGQ A s /\ signed LOGQ s s /\ zq_to_double_int LOGQ A = Ok r /\ r <> s.
Proof.
  exists 128, [Some 7; Some 1], (2 ^ 64 + 7), 7. split; [lia|]. split; [split; reflexivity|].
  split; [split; [split; [discriminate|reflexivity]|exists 0; reflexivity]|]. split; [reflexivity|discriminate].
Qed.
Theorem C10_to_double_partial : forall LOGQ A a s,
  1 <= LOGQ -> holds LOGQ A a -> signed LOGQ a s ->
  exists r, zq_to_double_int LOGQ A = Ok r /\ r = Z.sgn s * (Z.abs s mod 2 ^ 64) /\
            (Z.abs s < 2 ^ 64 -> r = s).
Proof.
  intros LOGQ A a s H HA Hs. apply holds_rep in HA; auto. subst A. apply signed_cent in Hs; auto.
  rewrite zq_to_double_rep by auto. rewrite <- Hs. eexists; split; [reflexivity|].
  change (2 ^ 64) with W. destruct (Z.ltb_spec s 0).
  - split.
    + rewrite Z.sgn_neg, Z.abs_neq by lia. lia.
    + intros. rewrite Z.mod_small by lia. lia.
  - split.
    + destruct (Z.eq_dec s 0) as [->|]; [reflexivity|].
      rewrite Z.sgn_pos, Z.abs_eq by lia. lia.
    + intros. rewrite Z.mod_small by lia. lia.
Qed.
Example C10_case : zq_to_double_int 128 [Some (2 ^ 64 - 5); Some (2 ^ 64 - 1)] = Ok (-5).
Proof. reflexivity. Qed.

(** ** C11: false for negative values. *)
Theorem C11_max_valid_digit_refuted : exists LOGQ A s r,
  1 <= LOGQ /\ holds LOGQ A s /\ signed LOGQ s s /\ s = -1 /\
  zq_max_valid_digit LOGQ A = Ok r /\ r = 1.
Proof.
  exists 128, ex_ones2, (-1), 1. split; [lia|]. split; [split; reflexivity|].
  split; [split; [split; [discriminate|reflexivity]|exists 0; reflexivity]|].
  split; [reflexivity|]. split; reflexivity.
Qed.
Theorem C11_max_valid_digit_partial : forall LOGQ A a,
  1 <= LOGQ -> holds LOGQ A a -> 0 <= a < 2 ^ (LOGQ - 1) ->
  exists r, zq_max_valid_digit LOGQ A = Ok r /\
    (a = 0 -> r = -1) /\ (0 < a -> 0 <= r /\ 2 ^ (64 * r) <= a < 2 ^ (64 * (r + 1))).
Proof.
  intros LOGQ A a H HA Ha. apply holds_rep in HA; auto. subst A.
  destruct (zq_max_valid_digit_rep LOGQ a H) as (r & E & Hr & Hz & Hnz).
  pose proof (pow2_half LOGQ H). pose proof (pow2_pos (LOGQ - 1) ltac:(lia)).
  rewrite Z.mod_small in * by lia. destruct (Z.leb_spec (2 ^ (LOGQ - 1)) a); [lia|].
  exists r. split; auto.
  assert (Hhi : a < Wp (r + 1)).
  { pose proof (mod_le_Wp LOGQ a H) as Hb. rewrite Z.mod_small in Hb by lia.
    assert (Hq : a mod Wp (len LOGQ) = (a mod Wp (r + 1)) mod Wp (len LOGQ)).
    { apply digits_eq; [lia|]. intros i Hi. destruct (Z_lt_le_dec i (r + 1)).
      - symmetry. apply dg_mod. lia.
      - rewrite Hz by lia. unfold dg. rewrite Z.div_small; [reflexivity|].
        pose proof (Wp_pos (r + 1) ltac:(lia)). pose proof (Z.mod_pos_bound a (Wp (r + 1)) ltac:(lia)).
        pose proof (Z.pow_le_mono_r 2 (64 * (r + 1)) (64 * i) ltac:(lia) ltac:(lia)). unfold Wp in *. lia. }
    pose proof (Wp_pos (r + 1) ltac:(lia)). pose proof (Z.mod_pos_bound a (Wp (r + 1)) ltac:(lia)).
    pose proof (Z.pow_le_mono_r 2 (64 * (r + 1)) (64 * len LOGQ) ltac:(lia) ltac:(lia)).
    rewrite (Z.mod_small a (Wp (len LOGQ))) in Hq by lia.
    rewrite (Z.mod_small (a mod _)) in Hq by (unfold Wp in *; lia). lia. }
  split.
  - intros ->. destruct (Z_lt_le_dec r 0); [lia|]. exfalso. apply (Hnz l). unfold dg.
    rewrite Z.div_0_l; [reflexivity|]. pose proof (Wp_pos r l). lia.
  - intros Hpos. assert (Hr0 : 0 <= r).
    { destruct (Z_lt_le_dec r 0); auto. replace (r + 1) with 0 in Hhi by lia. rewrite Wp_0 in Hhi. lia. }
    split; auto. split; [|exact Hhi]. specialize (Hnz Hr0).
    destruct (Z_lt_le_dec a (Wp r)); [|exact l]. exfalso. apply Hnz. unfold dg.
    rewrite Z.div_small; [reflexivity|lia].
Qed.
Example C11_case : zq_max_valid_digit 200 [Some 9; Some 4; Some 0; Some 0] = Ok 1.
Proof. reflexivity. Qed.

Print Assumptions C01_add.
Print Assumptions C02_negate.
Print Assumptions C02_sub.
Print Assumptions C03_mul.
Print Assumptions C04_mul_word.
Print Assumptions C04_mul.
Print Assumptions C05_self_add_refuted.
Print Assumptions C05_self_add_partial.
Print Assumptions C06_shift_left.
Print Assumptions C07_shift_right.
Print Assumptions C07_shift_right_same.
Print Assumptions C07_shift_right_nearest.
Print Assumptions C08_sign.
Print Assumptions C08_resize.
Print Assumptions C08_resize_wider.
Print Assumptions C08_resize_narrower.
Print Assumptions C08_resize_roundtrip.
Print Assumptions C09_to_str.
Print Assumptions C09_fr_str.
Print Assumptions C09_roundtrip.
Print Assumptions C09_to_str_wide.
Print Assumptions C10_to_double_refuted.
Print Assumptions C10_to_double_partial.
Print Assumptions C11_max_valid_digit_refuted.
Print Assumptions C11_max_valid_digit_partial.
