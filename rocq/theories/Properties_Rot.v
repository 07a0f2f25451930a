(** Rotations, conjugations and the EvalRound subtraction: C40, C41, C42 and C44. *)
From Coq Require Import ZArith List Bool Lia Znumtheory Setoid Morphisms.
From Verif Require Import Base BaseFacts ZQ ZQFacts ZQFacts2 SpecZQ SpecZQFacts Util RQ Conv Sums SpecPoly SpecScheme NTTFacts
  CRTFacts RQFacts SpecPolyFacts PolyRing PolyCong ConvFacts Core CoreFacts Rot RotFacts Noise KeygenFacts Properties_NTT Properties_Conv Properties_Core.
Import ListNotations.
Open Scope Z_scope.

(** ** C40: rotation *)
Lemma pow2_27 k : 0 <= k <= 27 -> 1 <= 2 ^ k /\ 10 * 2 ^ k < 2 ^ 31.
Proof.
  intros Hk. pose proof (pow2_pos k ltac:(lia)). assert (2 ^ k <= 2 ^ 27) by (apply Z.pow_le_mono_r; lia). 
  change (2 ^ 27) with 134217728 in *. change (2 ^ 31) with 2147483648. lia.
Qed.
Lemma unit5 k r : 0 <= k -> exists u v, u * ((5 ^ Z.max 0 r) mod (2 * 2 ^ k)) + v * (2 * 2 ^ k) = 1.
Proof. intros Hk. destruct (rel_prime_bezout _ _ (pow5_unit k r Hk)) as [u v E]. exists u, v. auto. Qed.
Lemma gcd1_mod N g : 1 <= N -> gcd1 N (g mod (2 * N)) -> gcd1 N g.
Proof. intros HN H. unfold gcd1 in *. apply rel_prime_mod_rev; [lia|auto]. Qed.
Lemma gcd1_pow5 k r : 0 <= k -> 0 <= r -> gcd1 (2 ^ k) (5 ^ r).
Proof.
  intros Hk Hr. pose proof (pow2_pos k Hk). apply gcd1_mod; [lia|]. pose proof (pow5_unit k r Hk) as H1.
  rewrite Z.max_r in H1 by auto. exact H1.
Qed.
Lemma mod_auto N g a b : 1 <= N -> is_auto N (g mod (2 * N)) a b <-> is_auto N g a b.
Proof.
  intros HN. split; apply auto_cong; auto; rewrite Zminus_mod, Z.mod_mod, Z.sub_diag, Z.mod_0_l by lia; reflexivity.
Qed.

(** The substitution determines all coefficients of the result. *)
Theorem C40_substituted_unique : forall k g a b b', 0 <= k -> Z.odd g = true ->
  substituted (2 ^ k) g a b -> substituted (2 ^ k) g a b' -> forall i, 0 <= i < 2 ^ k -> b i = b' i.
Proof.
  intros k g a b b' Hk Hg H1 H2. pose proof (pow2_pos k Hk). apply substituted_auto in H1, H2; try lia.
  apply (auto_unique (2 ^ k) ltac:(lia) g a b b'); auto. unfold gcd1.
  replace (2 * 2 ^ k) with (2 ^ (k + 1)) by (rewrite Z.pow_add_r by lia; lia). apply Zpow_facts.rel_prime_Zpower_r; [lia|].
  apply bezout_rel_prime. apply Z.odd_spec in Hg. destruct Hg as [m ->]. apply Bezout_intro with 1 (- m). lia.
Qed.

(** What all rotations of the same polynomial by [r] have in common. *)
Lemma rot_poly_rep k LOGQ r : 0 <= k <= 27 -> 1 <= LOGQ -> 0 <= r -> forall a, exists b, is_auto (2 ^ k) (5 ^ r) a b /\
  forall D, objP LOGQ (2 ^ k) D -> rot_poly LOGQ (2 ^ k) (repP LOGQ (2 ^ k) a) D r = Ok (repP LOGQ (2 ^ k) b).
Proof.
  intros Hk HQ Hr a. destruct (pow2_27 k Hk) as [HN Hb]. destruct (unit5 k r ltac:(lia)) as (u & v & E).
  exists (image (2 ^ k) u a). split.
  - apply mod_auto; auto. replace r with (Z.max 0 r) at 1 by lia. apply (image_auto (2 ^ k) _ u v HN E).
  - intros D HD. apply (rot_poly_ok (2 ^ k) r u v HN Hb E); auto.
Qed.
Theorem C40_rot : forall k LOGQ pt a D r, 0 <= k <= 27 -> 1 <= LOGQ -> 0 <= r ->
  holdsP LOGQ (2 ^ k) pt a -> objectP LOGQ (2 ^ k) D ->
  exists pt' b, rot_poly LOGQ (2 ^ k) pt D r = Ok pt' /\ holdsP LOGQ (2 ^ k) pt' b /\ substituted (2 ^ k) (5 ^ r) a b.
Proof.
  intros k LOGQ pt a D r Hk HQ Hr Hp HD. destruct (pow2_27 k Hk) as [HN Hb]. apply holdsP_rep in Hp; try lia. subst pt.
  destruct (rot_poly_rep k LOGQ r Hk HQ Hr a) as (b & Hab & E). exists (repP LOGQ (2 ^ k) b), b.
  split; [apply E; apply objectP_obj; auto; lia|]. split; [apply repP_holds; lia|]. apply substituted_auto; auto.
Qed.
(** Negative step counts rotate by nothing. *)
Theorem C40_rot_negative : forall k LOGQ pt a D r, 0 <= k <= 27 -> 1 <= LOGQ -> r <= 0 ->
  holdsP LOGQ (2 ^ k) pt a -> objectP LOGQ (2 ^ k) D -> rot_poly LOGQ (2 ^ k) pt D r = Ok pt.
Proof.
  intros k LOGQ pt a D r Hk HQ Hr Hp HD. destruct (pow2_27 k Hk) as [HN Hb]. apply holdsP_rep in Hp; try lia. subst pt.
  destruct (unit5 k r ltac:(lia)) as (u & v & E). rewrite (rot_poly_ok (2 ^ k) r u v HN Hb E) by (auto; apply objectP_obj; auto; lia).
  f_equal. apply repP_ext. intros i Hi. f_equal. pose proof (image_auto (2 ^ k) _ u v HN E a i Hi) as H.
  rewrite Z.max_l in H by lia. change (5 ^ 0) with 1 in H. rewrite Z.mod_small in H by lia. rewrite Z.mul_1_l, ext_in in H by auto. auto.
Qed.
Theorem C40_rot_compose : forall k LOGQ pt a D1 D2 D3 r1 r2, 0 <= k <= 27 -> 1 <= LOGQ -> 0 <= r1 -> 0 <= r2 ->
  holdsP LOGQ (2 ^ k) pt a -> objectP LOGQ (2 ^ k) D1 -> objectP LOGQ (2 ^ k) D2 -> objectP LOGQ (2 ^ k) D3 ->
  (pt1 <- rot_poly LOGQ (2 ^ k) pt D1 r1 ;; rot_poly LOGQ (2 ^ k) pt1 D2 r2) = rot_poly LOGQ (2 ^ k) pt D3 (r1 + r2).
Proof.
  intros k LOGQ pt a D1 D2 D3 r1 r2 Hk HQ H1 H2 Hp HD1 HD2 HD3. destruct (pow2_27 k Hk) as [HN Hb]. apply holdsP_rep in Hp; try lia. subst pt.
  apply objectP_obj in HD1, HD2, HD3; try lia.
  destruct (rot_poly_rep k LOGQ r1 Hk HQ H1 a) as (b & Hab & E1). destruct (rot_poly_rep k LOGQ r2 Hk HQ H2 b) as (c & Hbc & E2).
  destruct (rot_poly_rep k LOGQ (r1 + r2) Hk HQ ltac:(lia) a) as (d & Had & E3).
  rewrite E1 by auto. cbn [bind]. rewrite E2, E3 by auto. f_equal. apply repP_ext. intros i Hi. f_equal.
  apply (auto_unique (2 ^ k) HN (5 ^ (r1 + r2)) a); auto; [apply gcd1_pow5; lia|].
  rewrite Z.add_comm, Z.pow_add_r by lia. apply (auto_comp (2 ^ k) HN) with b; auto. apply (gcd1_odd (2 ^ k)). apply gcd1_pow5; lia.
Qed.
Theorem C40_rot_zero : forall k LOGQ pt a D, 0 <= k <= 27 -> 1 <= LOGQ ->
  holdsP LOGQ (2 ^ k) pt a -> objectP LOGQ (2 ^ k) D -> rot_poly LOGQ (2 ^ k) pt D 0 = Ok pt.
Proof. intros. apply C40_rot_negative with a; auto. lia. Qed.
Theorem C40_rot_period : forall k LOGQ pt a D1 D2 r, 1 <= k <= 27 -> 1 <= LOGQ -> 0 <= r ->
  holdsP LOGQ (2 ^ k) pt a -> objectP LOGQ (2 ^ k) D1 -> objectP LOGQ (2 ^ k) D2 ->
  rot_poly LOGQ (2 ^ k) pt D1 (r + 2 ^ k / 2) = rot_poly LOGQ (2 ^ k) pt D2 r.
Proof.
  intros k LOGQ pt a D1 D2 r Hk HQ Hr Hp HD1 HD2. destruct (pow2_27 k ltac:(lia)) as [HN Hb]. apply holdsP_rep in Hp; try lia. subst pt.
  apply objectP_obj in HD1, HD2; try lia.
  assert (Eh : 2 ^ k / 2 = 2 ^ (k - 1)).
  { replace k with (k - 1 + 1) at 1 by lia. rewrite Z.pow_add_r by lia. apply Z.div_mul. lia. }
  rewrite Eh. pose proof (pow2_pos (k - 1) ltac:(lia)).
  destruct (rot_poly_rep k LOGQ (r + 2 ^ (k - 1)) ltac:(lia) HQ ltac:(lia) a) as (b & Hab & E1).
  destruct (rot_poly_rep k LOGQ r ltac:(lia) HQ Hr a) as (c & Hac & E2). rewrite E1, E2 by auto. f_equal. apply repP_ext. intros i Hi. f_equal.
  apply (auto_unique (2 ^ k) HN (5 ^ r) a); auto; [apply gcd1_pow5; lia|].
  apply (auto_cong (2 ^ k) HN (5 ^ (r + 2 ^ (k - 1)))); auto. rewrite Z.pow_add_r by lia.
  replace (5 ^ r * 5 ^ 2 ^ (k - 1) - 5 ^ r) with (5 ^ r * (5 ^ 2 ^ (k - 1) - 1)) by ring.
  rewrite Zmult_mod. replace (2 * 2 ^ k) with (2 ^ (k + 1)) by (rewrite Z.pow_add_r by lia; lia).
  rewrite pow5_cong by lia. rewrite Z.mul_0_r. reflexivity.
Qed.
(** Rotation commutes with addition and multiplication. *)
Theorem C40_rot_add : forall k LOGQ A B a b DA DB D r, 0 <= k <= 27 -> 1 <= LOGQ -> 0 <= r ->
  holdsP LOGQ (2 ^ k) A a -> holdsP LOGQ (2 ^ k) B b ->
  objectP LOGQ (2 ^ k) DA -> objectP LOGQ (2 ^ k) DB -> objectP LOGQ (2 ^ k) D ->
  (S <- rq_add LOGQ (2 ^ k) A B ;; rot_poly LOGQ (2 ^ k) S D r) =
  (A' <- rot_poly LOGQ (2 ^ k) A DA r ;; B' <- rot_poly LOGQ (2 ^ k) B DB r ;; rq_add LOGQ (2 ^ k) A' B') /\
  exists S, rot_poly LOGQ (2 ^ k) A DA r = Ok S.
Proof.
  intros k LOGQ A B a b DA DB D r Hk HQ Hr HA HB HDA HDB HD. destruct (pow2_27 k ltac:(lia)) as [HN _].
  apply holdsP_rep in HA, HB; try lia. subst A B. apply objectP_obj in HDA, HDB, HD; try lia.
  destruct (rot_poly_rep k LOGQ r Hk HQ Hr a) as (a' & Ha & EA). destruct (rot_poly_rep k LOGQ r Hk HQ Hr b) as (b' & Hb & EB).
  destruct (rot_poly_rep k LOGQ r Hk HQ Hr (fun i => a i + b i)) as (c & Hc & EC).
  rewrite EA, EB by auto. split; [|eexists; reflexivity].
  rewrite rq_add_rep by lia. cbn [bind]. rewrite EC by auto. rewrite rq_add_rep by lia. f_equal. apply repP_ext. intros i Hi. f_equal.
  apply (auto_unique (2 ^ k) HN (5 ^ r) (fun i => a i + b i) c (fun i => a' i + b' i)); auto; [apply gcd1_pow5; lia|]. apply auto_add; auto.
Qed.
Theorem C40_rot_mul : forall k LOGQ A B a b DA DB D D1 D2 r, 1 <= k <= 17 -> widths LOGQ -> 0 <= r ->
  holdsP LOGQ (2 ^ k) A a -> holdsP LOGQ (2 ^ k) B b ->
  objectP LOGQ (2 ^ k) DA -> objectP LOGQ (2 ^ k) DB -> objectP LOGQ (2 ^ k) D -> objectP LOGQ (2 ^ k) D1 -> objectP LOGQ (2 ^ k) D2 ->
  (P <- conv_poly LOGQ (2 ^ k) A B D1 ;; rot_poly LOGQ (2 ^ k) P D r) =
  (A' <- rot_poly LOGQ (2 ^ k) A DA r ;; B' <- rot_poly LOGQ (2 ^ k) B DB r ;; conv_poly LOGQ (2 ^ k) A' B' D2) /\
  exists P, (P <- conv_poly LOGQ (2 ^ k) A B D1 ;; rot_poly LOGQ (2 ^ k) P D r) = Ok P.
Proof.
  intros k LOGQ A B a b DA DB D D1 D2 r Hk HW Hr HA HB HDA HDB HD HD1 HD2. assert (HQ : 1 <= LOGQ) by (unfold widths in HW; lia).
  destruct (pow2_27 k ltac:(lia)) as [HN _].
  destruct (C27_conv k LOGQ A B D1 a b Hk HW HA HB HD1) as (P & EP & HP).
  apply holdsP_rep in HA, HB, HP; try lia. subst A B P. apply objectP_obj in HDA, HDB, HD; try lia.
  destruct (rot_poly_rep k LOGQ r ltac:(lia) HQ Hr a) as (a' & Ha & EA). destruct (rot_poly_rep k LOGQ r ltac:(lia) HQ Hr b) as (b' & Hb & EB).
  destruct (rot_poly_rep k LOGQ r ltac:(lia) HQ Hr (negconv (2 ^ k) a b)) as (c & Hc & EC).
  rewrite EP. cbn [bind]. rewrite EC by auto. split; [|eexists; reflexivity]. rewrite EA, EB by auto. cbn [bind].
  destruct (C27_conv k LOGQ (repP LOGQ (2 ^ k) a') (repP LOGQ (2 ^ k) b') D2 a' b' Hk HW) as (P & EP' & HP); auto; try (apply repP_holds; lia).
  rewrite EP'. apply holdsP_rep in HP; try lia. subst P. f_equal. apply repP_ext. intros i Hi. f_equal.
  apply (auto_unique (2 ^ k) HN (5 ^ r) (negconv (2 ^ k) a b) c (negconv (2 ^ k) a' b')); auto; [apply gcd1_pow5; lia|].
  apply auto_negconv; auto. apply gcd1_pow5; lia.
Qed.
(** The versions on int arrays. *)
Lemma Forall_tab N f (P : Z -> Prop) : (forall i, 0 <= i < N -> P (f i)) -> Forall P (tab N f).
Proof. intros H. unfold tab. apply Forall_forall. intros x Hx. apply in_map_iff in Hx. destruct Hx as (j & <- & Hj). apply in_seq in Hj. apply H. lia. Qed.
Lemma Forall_coef' s N (P : Z -> Prop) : length s = Z.to_nat N -> Forall P s -> forall i, 0 <= i < N -> P (coef s i).
Proof. intros Hl Hf i Hi. rewrite Forall_forall in Hf. apply Hf. apply nth_In. lia. Qed.
Theorem C40_rot_int : forall k s D D' r B, 0 <= k <= 27 -> 0 <= r -> length s = Z.to_nat (2 ^ k) ->
  Forall (fun x => Z.abs x <= B) s -> B < 2 ^ 31 -> length D = Z.to_nat (2 ^ k) -> length D' = Z.to_nat (2 ^ k) ->
  (exists s', rot_int (2 ^ k) (map Some s) D r = Ok (map Some s') /\ length s' = Z.to_nat (2 ^ k) /\
     substituted (2 ^ k) (5 ^ r) (coef s) (coef s') /\ Forall (fun x => Z.abs x <= B) s') /\
  rot_int1 (2 ^ k) (map Some s) D' = rot_int (2 ^ k) (map Some s) D 1.
Proof.
  intros k s D D' r B Hk Hr Hl Hf HB HD HD'. destruct (pow2_27 k Hk) as [HN Hb]. pose proof (Forall_coef' s (2 ^ k) _ Hl Hf) as Hc. cbv beta in Hc.
  assert (Hc' : forall i, 0 <= i < 2 ^ k -> Z.abs (coef s i) < 2 ^ 31) by (intros i Hi; specialize (Hc i Hi); lia).
  rewrite (words_tab s (2 ^ k) Hl). split.
  - destruct (unit5 k r ltac:(lia)) as (u & v & E). rewrite (rot_int_ok (2 ^ k) r u v HN Hb E) by auto.
    exists (tab (2 ^ k) (image (2 ^ k) u (coef s))). rewrite wtab_words. split; [reflexivity|]. split; [apply tab_length|].
    assert (Ha : is_auto (2 ^ k) (5 ^ r) (coef s) (image (2 ^ k) u (coef s))).
    { apply mod_auto; auto. replace r with (Z.max 0 r) at 1 by lia. apply (image_auto (2 ^ k) _ u v HN E). }
    split.
    + intros i Hi. pose proof (proj2 (substituted_auto _ _ _ _ HN) Ha i Hi) as H. cbv zeta in H |- *.
      pose proof (Z.mod_pos_bound (5 ^ r * i) (2 * 2 ^ k) ltac:(lia)). destruct (Z.ltb_spec ((5 ^ r * i) mod (2 * 2 ^ k)) (2 ^ k)); rewrite coef_tab by lia; auto.
    + apply Forall_tab. apply (auto_bound (2 ^ k) HN (5 ^ r) (coef s)); auto. apply gcd1_pow5; lia.
  - destruct (unit5 k 1 ltac:(lia)) as (u & v & E). rewrite (rot_int_ok (2 ^ k) 1 u v HN Hb E) by auto.
    assert (exists u' v', u' * 5 + v' * (2 * 2 ^ k) = 1) as (u' & v' & E').
    { destruct (rel_prime_bezout _ _ (gcd1_pow5 k 1 ltac:(lia) ltac:(lia))) as [x y Exy]. exists x, y. exact Exy. }
    rewrite (rot_int1_ok (2 ^ k) u' v') by auto. f_equal. apply wtab_ext. intros i Hi.
    apply (auto_unique (2 ^ k) HN 5 (coef s)); auto; [apply (gcd1_pow5 k 1); lia|apply (image_auto (2 ^ k) 5 u' v' HN E')|].
    apply mod_auto; auto. apply (image_auto (2 ^ k) _ u v HN E).
Qed.
Example C40_case : rot_poly 10 4 [[Some 1]; [Some 2]; [Some 3]; [Some 4]] (repeat [None] 4) 1 = Ok [[Some 1]; [Some 1022]; [Some 3]; [Some 1020]] /\
  rot_int 4 (map Some [1; 2; 3; 4]) (repeat None 4) 1 = Ok (map Some [1; -2; 3; -4]) /\
  rot_int1 4 (map Some [1; 2; 3; 4]) (repeat None 4) = Ok (map Some [1; -2; 3; -4]).
Proof. repeat split; vm_compute; reflexivity. Qed.
Example C40_case_hyps : holdsP 10 (2 ^ 2) [[Some 1]; [Some 2]; [Some 3]; [Some 4]] (coef [1; 2; 3; 4]) /\ objectP 10 (2 ^ 2) (repeat [None] 4) /\
  substituted (2 ^ 2) (5 ^ 1) (coef [1; 2; 3; 4]) (coef [1; -2; 3; -4]).
Proof.
  split; [split; [reflexivity|]|split; [split; [reflexivity|repeat constructor]|]].
  - intros i A Hi E. assert (Hc : i = 0 \/ i = 1 \/ i = 2 \/ i = 3) by (change (2 ^ 2) with 4 in Hi; lia).
    destruct Hc as [-> | [-> | [-> | ->]]]; injection E as <-; vm_compute; auto.
  - intros i Hi. assert (Hc : i = 0 \/ i = 1 \/ i = 2 \/ i = 3) by (change (2 ^ 2) with 4 in Hi; lia).
    destruct Hc as [-> | [-> | [-> | ->]]]; reflexivity.
Qed.

(** ** C41: conjugation *)
Theorem C41_conj : forall N LOGQ pt a D, 1 <= N -> 1 <= LOGQ -> holdsP LOGQ N pt a -> objectP LOGQ N D ->
  exists pt' b, conj_poly LOGQ N pt D = Ok pt' /\ holdsP LOGQ N pt' b /\ substituted N (-1) a b /\
    forall D', objectP LOGQ N D' -> conj_poly LOGQ N pt' D' = Ok pt.
Proof.
  intros N LOGQ pt a D HN HQ Hp HD. apply holdsP_rep in Hp; try lia. subst pt. apply objectP_obj in HD; try lia.
  rewrite conj_poly_ok by auto. eexists _, _. split; [reflexivity|]. split; [apply repP_holds; lia|].
  split; [apply substituted_auto; auto; apply conj_auto; auto|].
  intros D' HD'. rewrite conj_poly_ok by (auto; apply objectP_obj; auto; lia). f_equal. apply repP_ext. intros i Hi. f_equal. unfold conj_f.
  destruct (Z.eqb_spec i 0) as [->|Hne]; [reflexivity|]. destruct (Z.eqb_spec (N - i) 0); [lia|]. replace (N - (N - i)) with i by lia. lia.
Qed.
Theorem C41_conj_add : forall N LOGQ A B a b DA DB D, 1 <= N -> 1 <= LOGQ -> holdsP LOGQ N A a -> holdsP LOGQ N B b ->
  objectP LOGQ N DA -> objectP LOGQ N DB -> objectP LOGQ N D ->
  exists S, (S <- rq_add LOGQ N A B ;; conj_poly LOGQ N S D) = Ok S /\
    (A' <- conj_poly LOGQ N A DA ;; B' <- conj_poly LOGQ N B DB ;; rq_add LOGQ N A' B') = Ok S.
Proof.
  intros N LOGQ A B a b DA DB D HN HQ HA HB HDA HDB HD.
  apply holdsP_rep in HA, HB; try lia. subst A B. apply objectP_obj in HDA, HDB, HD; try lia.
  rewrite rq_add_rep by lia. cbn [bind]. rewrite !conj_poly_ok by auto. cbn [bind]. eexists. split; [reflexivity|].
  rewrite rq_add_rep by lia. f_equal. apply repP_ext. intros i Hi. f_equal. unfold conj_f. destruct (i =? 0); lia.
Qed.
Theorem C41_conj_mul : forall k LOGQ A B a b DA DB D D1 D2, 1 <= k <= 17 -> widths LOGQ ->
  holdsP LOGQ (2 ^ k) A a -> holdsP LOGQ (2 ^ k) B b ->
  objectP LOGQ (2 ^ k) DA -> objectP LOGQ (2 ^ k) DB -> objectP LOGQ (2 ^ k) D -> objectP LOGQ (2 ^ k) D1 -> objectP LOGQ (2 ^ k) D2 ->
  exists P, (P <- conv_poly LOGQ (2 ^ k) A B D1 ;; conj_poly LOGQ (2 ^ k) P D) = Ok P /\
    (A' <- conj_poly LOGQ (2 ^ k) A DA ;; B' <- conj_poly LOGQ (2 ^ k) B DB ;; conv_poly LOGQ (2 ^ k) A' B' D2) = Ok P.
Proof.
  intros k LOGQ A B a b DA DB D D1 D2 Hk HW HA HB HDA HDB HD HD1 HD2. assert (HQ : 1 <= LOGQ) by (unfold widths in HW; lia).
  destruct (pow2_27 k ltac:(lia)) as [HN _].
  destruct (C27_conv k LOGQ A B D1 a b Hk HW HA HB HD1) as (P & EP & HP).
  apply holdsP_rep in HA, HB, HP; try lia. subst A B P. apply objectP_obj in HDA, HDB, HD; try lia.
  rewrite EP. cbn [bind]. rewrite !conj_poly_ok by auto. cbn [bind]. eexists. split; [reflexivity|].
  destruct (C27_conv k LOGQ (repP LOGQ (2 ^ k) (conj_f (2 ^ k) a)) (repP LOGQ (2 ^ k) (conj_f (2 ^ k) b)) D2 (conj_f (2 ^ k) a) (conj_f (2 ^ k) b) Hk HW) as (P & EP' & HP);
    auto; try (apply repP_holds; lia).
  rewrite EP'. apply holdsP_rep in HP; try lia. subst P. f_equal. apply repP_ext. intros i Hi. f_equal.
  apply (auto_unique (2 ^ k) HN (-1) (negconv (2 ^ k) a b) (negconv (2 ^ k) (conj_f (2 ^ k) a) (conj_f (2 ^ k) b)) (conj_f (2 ^ k) (negconv (2 ^ k) a b))); auto;
    [apply conj_gcd1|apply auto_negconv; auto using conj_auto, conj_gcd1|apply conj_auto; auto].
Qed.
Theorem C41_conj_int : forall N s D B, 1 <= N -> length s = Z.to_nat N -> Forall (fun x => Z.abs x <= B) s -> B < 2 ^ 31 ->
  length D = Z.to_nat N ->
  exists s', conj_int N (map Some s) D = Ok (map Some s') /\ length s' = Z.to_nat N /\ substituted N (-1) (coef s) (coef s') /\
    Forall (fun x => Z.abs x <= B) s' /\ forall D', length D' = Z.to_nat N -> conj_int N (map Some s') D' = Ok (map Some s).
Proof.
  intros N s D B HN Hl Hf HB HD. pose proof (Forall_coef' s N _ Hl Hf) as Hc. cbv beta in Hc.
  exists (tab N (conj_f N (coef s))). rewrite (words_tab s N Hl). rewrite conj_int_ok by (auto; intros i Hi; specialize (Hc i Hi); lia).
  assert (HB' : forall i, 0 <= i < N -> Z.abs (conj_f N (coef s) i) <= B).
  { intros i Hi. unfold conj_f. destruct (Z.eqb_spec i 0); [apply Hc; lia|]. rewrite Z.abs_opp. apply Hc. lia. }
  rewrite <- wtab_words. split; [reflexivity|]. split; [apply tab_length|]. split; [|split].
  - pose proof (proj2 (substituted_auto N (-1) _ _ HN) (conj_auto N (coef s) HN)) as H. intros i Hi. specialize (H i Hi). cbv zeta in H |- *.
    pose proof (Z.mod_pos_bound (-1 * i) (2 * N) ltac:(lia)). destruct (Z.ltb_spec ((-1 * i) mod (2 * N)) N); rewrite coef_tab by lia; auto.
  - apply Forall_tab. auto.
  - intros D' HD'. rewrite conj_int_ok by (auto; intros i Hi; specialize (HB' i Hi); lia). f_equal. apply wtab_ext. intros i Hi. unfold conj_f.
    destruct (Z.eqb_spec i 0) as [->|Hne]; [reflexivity|]. destruct (Z.eqb_spec (N - i) 0); [lia|]. replace (N - (N - i)) with i by lia. lia.
Qed.
Example C41_case : conj_poly 10 4 [[Some 1]; [Some 2]; [Some 3]; [Some 4]] (repeat [None] 4) = Ok [[Some 1]; [Some 1020]; [Some 1021]; [Some 1022]].
Proof. vm_compute. reflexivity. Qed.

(** ** C42: rotation and conjugation of ciphertexts *)
Lemma auto_pcong N g M a b a' b' : 1 <= N -> gcd1 N g -> is_auto N g a a' -> is_auto N g b b' -> pcong N M a b -> pcong N M a' b'.
Proof.
  intros HN Hg Ha Hb H.
  assert (Hd : is_auto N g (psub a b) (psub a' b')).
  { intros i Hi. unfold psub. rewrite <- Ha, <- Hb by auto. unfold ext. destruct (Z.even _); lia. }
  destruct (auto_inv_exists N HN g Hg) as (h & Hh & Hi2). intros i Hi.
  pose proof (auto_ext N HN g (psub a b) (psub a' b') (gcd1_odd N g Hg) Hd (h * i)) as E.
  destruct (Hi2 (psub a' b') i) as [_ E2]. rewrite E2, ext_in in E by auto. unfold psub in E at 1. rewrite E.
  unfold ext. pose proof (Z.mod_pos_bound (h * i) N ltac:(lia)) as Hm. specialize (H _ Hm). unfold psub. destruct (Z.even _); [auto|].
  apply Z.divide_opp_r. auto.
Qed.
Lemma decrypts_auto LOGQ N g s m a b s' m' a' b' : 1 <= LOGQ -> 1 <= N -> gcd1 N g ->
  is_auto N g s s' -> is_auto N g m m' -> is_auto N g a a' -> is_auto N g b b' ->
  decrypts LOGQ N (repS LOGQ N a b) s m -> decrypts LOGQ N (repS LOGQ N a' b') s' m'.
Proof.
  intros HQ HN Hg Hs Hm Ha Hb H. apply decrypts_rep in H; try lia. destruct H as (a0 & b0 & E & H).
  injection E as E0 E1. pose proof (pow2_pos LOGQ ltac:(lia)) as HP.
  assert (H0 : pcong N (2 ^ LOGQ) a a0) by (apply pcong_mod; auto; apply repP_inj; auto).
  assert (H1 : pcong N (2 ^ LOGQ) b b0) by (apply pcong_mod; auto; apply repP_inj; auto).
  rewrite <- H0, <- H1 in H. apply decrypts_rep; try lia. exists a', b'. split; auto.
  refine (auto_pcong N g _ (padd a (negconv N s b)) m _ _ HN Hg _ Hm H).
  apply (auto_add N g a a' (negconv N s b) (negconv N s' b')); auto. apply auto_negconv; auto.
Qed.

(** With any key switching from the rotated to the original secret. *)
Theorem C42_rot_ct_key : forall k LOGQ ct s s' m rkey D off, 1 <= k <= 17 -> 1 <= LOGQ -> widths (2 * LOGQ) -> 0 <= off ->
  substituted (2 ^ k) (5 ^ off) s s' -> switching_key LOGQ (2 ^ k) rkey s' s ->
  decrypts LOGQ (2 ^ k) ct s m -> object2 LOGQ (2 ^ k) D ->
  exists ct' m' e, rot_ct LOGQ (2 ^ k) ct off rkey D = Ok ct' /\ substituted (2 ^ k) (5 ^ off) m m' /\
    decrypts LOGQ (2 ^ k) ct' s (fun i => m' i + e i) /\
    forall i, 0 <= i < 2 ^ k -> 2 * Z.abs (e i) <= 16 * 2 ^ k + 1 + norm1 (2 ^ k) s.
Proof.
  intros k LOGQ ct s s' m rkey D off Hk HQ HW Ho Hs Hkey H HD. destruct (pow2_27 k ltac:(lia)) as [HN _].
  apply object2_obj in HD; try lia. destruct HD as [HD0 HD1].
  pose proof (proj1 (decrypts_rep LOGQ (2 ^ k) ct s m HQ ltac:(lia)) H) as (a & b & -> & _).
  destruct (rot_poly_rep k LOGQ off ltac:(lia) HQ Ho a) as (a' & Ha & EA).
  destruct (rot_poly_rep k LOGQ off ltac:(lia) HQ Ho b) as (b' & Hb & EB).
  destruct (rot_poly_rep k LOGQ off ltac:(lia) HQ Ho m) as (m' & Hm & _).
  apply substituted_auto in Hs; auto. pose proof (gcd1_pow5 k off ltac:(lia) Ho) as Hg.
  pose proof (decrypts_auto LOGQ (2 ^ k) (5 ^ off) s m a b s' m' a' b' HQ HN Hg Hs Hm Ha Hb H) as H'.
  destruct (C38_ks_key k LOGQ rkey (repS LOGQ (2 ^ k) a' b') s' s m' Hk HQ HW Hkey H') as (ct' & e & E & He1 & He2).
  exists ct', m', e. split; [|split; [apply substituted_auto; auto|split; auto]].
  unfold rot_ct. unfold repS at 1 2. cbn [fst snd]. rewrite EA, EB by auto. cbn [bind]. exact E.
Qed.
Theorem C42_conj_ct_key : forall k LOGQ ct s s' m ckey D, 1 <= k <= 17 -> 1 <= LOGQ -> widths (2 * LOGQ) ->
  substituted (2 ^ k) (-1) s s' -> switching_key LOGQ (2 ^ k) ckey s' s ->
  decrypts LOGQ (2 ^ k) ct s m -> object2 LOGQ (2 ^ k) D ->
  exists ct' m' e, conj_ct LOGQ (2 ^ k) ct ckey D = Ok ct' /\ substituted (2 ^ k) (-1) m m' /\
    decrypts LOGQ (2 ^ k) ct' s (fun i => m' i + e i) /\
    forall i, 0 <= i < 2 ^ k -> 2 * Z.abs (e i) <= 16 * 2 ^ k + 1 + norm1 (2 ^ k) s.
Proof.
  intros k LOGQ ct s s' m ckey D Hk HQ HW Hs Hkey H HD. destruct (pow2_27 k ltac:(lia)) as [HN _].
  apply object2_obj in HD; try lia. destruct HD as [HD0 HD1].
  pose proof (proj1 (decrypts_rep LOGQ (2 ^ k) ct s m HQ ltac:(lia)) H) as (a & b & -> & _).
  apply substituted_auto in Hs; auto.
  pose proof (decrypts_auto LOGQ (2 ^ k) (-1) s m a b s' _ _ _ HQ HN (conj_gcd1 _) Hs (conj_auto _ m HN) (conj_auto _ a HN) (conj_auto _ b HN) H) as H'.
  destruct (C38_ks_key k LOGQ ckey _ s' s _ Hk HQ HW Hkey H') as (ct' & e & E & He1 & He2).
  eexists ct', _, e. split; [|split; [apply substituted_auto; auto; apply conj_auto; auto|split; eauto]].
  unfold conj_ct. unfold repS at 1 2. cbn [fst snd]. rewrite !conj_poly_ok by auto. cbn [bind]. exact E.
Qed.
(** With the keys made by rot/conj on the secret followed by swkgen. *)
Lemma ternary_bound N s : ternary N s -> Forall (fun x => Z.abs x <= 1) s.
Proof. intros [_ H]. eapply Forall_impl; [|exact H]. cbv beta. lia. Qed.
Theorem C42_rot_ct : forall k LOGQ RM rnd s Ds DK pos ct m D off, 1 <= k <= 17 -> 1 <= LOGQ -> widths (2 * LOGQ) -> rand_stream RM rnd -> 0 <= off ->
  ternary (2 ^ k) s -> length Ds = Z.to_nat (2 ^ k) -> object2 (2 * LOGQ) (2 ^ k) DK ->
  decrypts LOGQ (2 ^ k) ct (coef s) m -> object2 LOGQ (2 ^ k) D ->
  exists s' rkey pos' ct' m' e, rot_int (2 ^ k) (map Some s) Ds off = Ok s' /\
    swkgen LOGQ (2 ^ k) RM rnd s' (map Some s) DK pos = Ok (rkey, pos') /\
    rot_ct LOGQ (2 ^ k) ct off rkey D = Ok ct' /\ substituted (2 ^ k) (5 ^ off) m m' /\
    decrypts LOGQ (2 ^ k) ct' (coef s) (fun i => m' i + e i) /\
    forall i, 0 <= i < 2 ^ k -> 2 * Z.abs (e i) <= 16 * 2 ^ k + 1 + norm1 (2 ^ k) (coef s).
Proof.
  intros k LOGQ RM rnd s Ds DK pos ct m D off Hk HQ HW Hr Ho Hs HDs HDK H HD. destruct (pow2_27 k ltac:(lia)) as [HN _].
  destruct (C40_rot_int k s Ds Ds off 1 ltac:(lia) Ho (proj1 Hs) (ternary_bound _ _ Hs) ltac:(lia) HDs HDs) as [(s' & E1 & Hl & Hsub & Hb) _].
  destruct (C38_swkgen LOGQ (2 ^ k) RM rnd s' s DK pos HQ HN Hr Hl) as (rkey & pos' & E2 & Hkey); auto.
  { eapply Forall_impl; [|exact Hb]. cbv beta. intros; lia. }
  destruct (C42_rot_ct_key k LOGQ ct (coef s) (coef s') m rkey D off Hk HQ HW Ho Hsub Hkey H HD) as (ct' & m' & e & E3 & Hm & Hd & He).
  exists (map Some s'), rkey, pos', ct', m', e. auto 10.
Qed.
Theorem C42_conj_ct : forall k LOGQ RM rnd s Ds DK pos ct m D, 1 <= k <= 17 -> 1 <= LOGQ -> widths (2 * LOGQ) -> rand_stream RM rnd ->
  ternary (2 ^ k) s -> length Ds = Z.to_nat (2 ^ k) -> object2 (2 * LOGQ) (2 ^ k) DK ->
  decrypts LOGQ (2 ^ k) ct (coef s) m -> object2 LOGQ (2 ^ k) D ->
  exists s' ckey pos' ct' m' e, conj_int (2 ^ k) (map Some s) Ds = Ok s' /\
    swkgen LOGQ (2 ^ k) RM rnd s' (map Some s) DK pos = Ok (ckey, pos') /\
    conj_ct LOGQ (2 ^ k) ct ckey D = Ok ct' /\ substituted (2 ^ k) (-1) m m' /\
    decrypts LOGQ (2 ^ k) ct' (coef s) (fun i => m' i + e i) /\
    forall i, 0 <= i < 2 ^ k -> 2 * Z.abs (e i) <= 16 * 2 ^ k + 1 + norm1 (2 ^ k) (coef s).
Proof.
  intros k LOGQ RM rnd s Ds DK pos ct m D Hk HQ HW Hr Hs HDs HDK H HD. destruct (pow2_27 k ltac:(lia)) as [HN _].
  destruct (C41_conj_int (2 ^ k) s Ds 1 HN (proj1 Hs) (ternary_bound _ _ Hs) ltac:(lia) HDs) as (s' & E1 & Hl & Hsub & Hb & _).
  destruct (C38_swkgen LOGQ (2 ^ k) RM rnd s' s DK pos HQ HN Hr Hl) as (ckey & pos' & E2 & Hkey); auto.
  { eapply Forall_impl; [|exact Hb]. cbv beta. intros; lia. }
  destruct (C42_conj_ct_key k LOGQ ct (coef s) (coef s') m ckey D Hk HQ HW Hsub Hkey H HD) as (ct' & m' & e & E3 & Hm & Hd & He).
  exists (map Some s'), ckey, pos', ct', m', e. auto 10.
Qed.
Example C42_case : widths (2 * 1450) /\ ternary (2 ^ 1) [0; 1] /\ decrypts 70 (2 ^ 1) (ex_A, ex_B) (coef [0; 1]) (coef [2; 5]).
Proof. split; [unfold widths; lia|]. split; [apply C38_case|apply C36_case]. Qed.

(** ** C44: the error of EvalRound is the error of the evaluated multiple of q *)
Lemma resize_down LOGQ LOGQb N ct s m D : 1 <= LOGQb <= LOGQ -> 1 <= N -> objS LOGQb N D ->
  decrypts LOGQ N ct s m -> exists ct', sq_resize LOGQ LOGQb N ct D = Ok ct' /\ decrypts LOGQb N ct' s m.
Proof.
  intros HQ HN HD H. apply decrypts_rep in H; try lia. destruct H as (a & b & -> & H).
  rewrite sq_resize_rep by (auto; lia). eexists. split; [reflexivity|]. apply decrypts_rep; try lia. eexists _, _. split; [reflexivity|].
  assert (Hd : (2 ^ LOGQb | 2 ^ LOGQ)).
  { exists (2 ^ (LOGQ - LOGQb)). rewrite <- Z.pow_add_r by lia. f_equal. lia. }
  assert (Hw : forall x y, pcong N (2 ^ LOGQ) x y -> pcong N (2 ^ LOGQb) x y).
  { intros x y Hxy i Hi. eapply Z.divide_trans; [exact Hd|]. apply Hxy. auto. }
  pose proof (pow2_pos LOGQ ltac:(lia)) as HP.
  assert (Ha : pcong N (2 ^ LOGQb) (fun i => cent LOGQ (a i)) a) by (apply Hw, pcong_mod; auto; intros; apply cent_congr; lia).
  assert (Hb : pcong N (2 ^ LOGQb) (fun i => cent LOGQ (b i)) b) by (apply Hw, pcong_mod; auto; intros; apply cent_congr; lia).
  rewrite Ha, Hb. apply Hw. exact H.
Qed.
Lemma objS_new LOGQ N : objS LOGQ N (sq_new LOGQ N).
Proof. split; apply objP_new. Qed.
Lemma objP_object LOGQ N D : 1 <= LOGQ -> 0 <= N -> objP LOGQ N D -> objectP LOGQ N D.
Proof.
  intros HQ HN (d & -> & Hd). split; [rewrite tab_length; lia|]. apply Forall_forall. intros x Hx. unfold tab in Hx.
  apply in_map_iff in Hx. destruct Hx as (j & <- & Hj). apply in_seq in Hj. unfold object. rewrite Hd by lia. rewrite len_div by lia. pose proof (len_bounds LOGQ HQ). 
  rewrite <- len_div by lia. lia.
Qed.
Theorem C44_evalround : forall LOGq LOGQ LOGQb N ct ct_qI s m v, 1 <= LOGq -> 1 <= LOGQb <= LOGQ -> 1 <= N -> ternary N s ->
  decrypts LOGq N ct (coef s) m -> (forall i, 0 <= i < N -> signed LOGq (m i) (m i)) ->
  decrypts LOGQb N ct_qI (coef s) v ->
  exists pt_out I, evalround_sub LOGq LOGQ LOGQb N ct ct_qI (map Some s) = Ok pt_out /\
    (forall i, 0 <= i < N -> 2 * Z.abs (I i) <= norm1 N (coef s) + 2) /\
    holdsP LOGQb N pt_out (fun i => m i + (2 ^ LOGq * I i - v i)).
Proof.
  intros LOGq LOGQ LOGQb N ct ct_qI s m v Hq HQ HN Hs H Hm Hv.
  assert (Ho : object2 LOGQ N (sq_new LOGQ N)) by (split; apply objP_object; try lia; apply objP_new).
  destruct (C43_mod_raise LOGq LOGQ N ct (sq_new LOGQ N) (coef s) m Hq ltac:(lia) HN Ho H Hm) as (ct' & I & E1 & H1 & HI).
  destruct (resize_down LOGQ LOGQb N ct' (coef s) _ (sq_new LOGQb N) HQ HN (objS_new _ _) H1) as (ct2 & E2 & H2).
  destruct (C36_sub LOGQb N ct2 ct_qI (coef s) _ _ ltac:(lia) HN H2 Hv) as (ct3 & E3 & H3).
  destruct (C35_dec LOGQb N ct3 s _ (rq_new LOGQb N) ltac:(lia) HN Hs ltac:(apply objP_object; try lia; apply objP_new) H3) as (pt & E4 & H4).
  exists pt, I. unfold evalround_sub. rewrite E1. cbn [bind]. rewrite E2. cbn [bind]. rewrite E3. cbn [bind]. split; [exact E4|]. split; auto.
  apply holdsP_rep in H4; try lia. subst pt. apply holdsP_rep; try lia. apply repP_ext. intros i Hi. f_equal. lia.
Qed.
(** From the plaintext to the printed error: the only other contribution is the noise of the fresh encryption. *)
Theorem C44_evalround_error : forall LOGq LOGQ LOGQb N RM rnd pos pt m D s ct_qI v, 5 <= LOGq -> 1 <= LOGQb <= LOGQ -> 1 <= N ->
  ternary N s -> rand_stream RM rnd -> object2 LOGq N D ->
  holdsP LOGq N pt m -> (forall i, 0 <= i < N -> Z.abs (m i) < 2 ^ (LOGq - 1) - 8) ->
  decrypts LOGQb N ct_qI (coef s) v ->
  exists ct pos' pt_out e e0 I, enc LOGq N RM rnd pt (map Some s) D pos = Ok (ct, pos') /\
    evalround_sub LOGq LOGQ LOGQb N ct ct_qI (map Some s) = Ok pt_out /\
    evalround_err LOGq LOGQb N pt pt_out = Ok e /\
    (forall i, 0 <= i < N -> Z.abs (e0 i) <= 8) /\
    (forall i, 0 <= i < N -> 2 * Z.abs (I i) <= norm1 N (coef s) + 2) /\
    holdsP LOGQb N e (fun i => v i - 2 ^ LOGq * I i - e0 i).
Proof.
  intros LOGq LOGQ LOGQb N RM rnd pos pt m D s ct_qI v Hq HQ HN Hs Hr HD Hpt Hm Hv.
  destruct (C35_enc_dec LOGq N RM rnd pt m s D pos (rq_new LOGq N)) as (ct & pos' & e0 & pt' & E1 & He0 & _ & _ & Hd); auto; try lia.
  { apply objP_object; try lia. apply objP_new. }
  destruct (C44_evalround LOGq LOGQ LOGQb N ct ct_qI s _ v ltac:(lia) HQ HN Hs Hd) as (pt_out & I & E2 & HI & Ho); auto.
  { intros i Hi. specialize (Hm i Hi). specialize (He0 i Hi). split; [lia|]. exists 0. lia. }
  apply holdsP_rep in Hpt, Ho; try lia. subst pt pt_out.
  exists ct, pos', (repP LOGQb N (fun i => m i + e0 i + (2 ^ LOGq * I i - v i))).
  assert (E3 : evalround_err LOGq LOGQb N (repP LOGq N m) (repP LOGQb N (fun i => m i + e0 i + (2 ^ LOGq * I i - v i))) =
    Ok (repP LOGQb N (fun i => v i - 2 ^ LOGq * I i - e0 i))).
  { unfold evalround_err. rewrite rq_resize_rep by (auto using objP_new; lia). cbn [bind]. rewrite rq_sub_rep by lia. f_equal.
    apply repP_ext. intros i Hi. f_equal. rewrite cent_small by (specialize (Hm i Hi); lia). lia. }
  eexists _, e0, I. split; [exact E1|]. split; [exact E2|]. split; [exact E3|]. split; auto. split; auto. apply repP_holds; lia.
Qed.
(** m = 511 + 5X modulo 2^10, nothing added by mod_raise, the multiple of q estimated as 3 + X, key X. *)
Example C44_case : evalround_sub 10 70 66 2 ([[Some 1023]; [Some 2]], [[Some 3]; [Some 512]]) ([[Some 3; Some 0]; [Some 1; Some 0]], [[Some 0; Some 0]; [Some 0; Some 0]]) (map Some [0; 1]) =
  Ok [[Some 508; Some 0]; [Some 4; Some 0]].
Proof. vm_compute. reflexivity. Qed.

Print Assumptions C40_rot.
Print Assumptions C40_rot_compose.
Print Assumptions C40_rot_period.
Print Assumptions C40_rot_mul.
Print Assumptions C40_rot_int.
Print Assumptions C41_conj_mul.
Print Assumptions C41_conj_int.
Print Assumptions C42_rot_ct.
Print Assumptions C42_conj_ct.
Print Assumptions C44_evalround_error.
