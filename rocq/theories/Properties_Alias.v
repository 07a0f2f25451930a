(** C127: calls with one object in two places. *)
From Coq Require Import ZArith List Bool Lia Setoid Morphisms.
From Verif Require Import Base BaseFacts ZQ ZQFacts ZQFacts2 ZQFacts3 SpecZQ SpecZQFacts Util RQ Conv Sums SpecPoly SpecScheme NTTFacts
  CRTFacts RQFacts SpecPolyFacts PolyRing PolyCong ConvFacts Core CoreFacts Rot RotFacts Noise KeygenFacts Properties_NTT Properties_Conv Properties_Core Properties_Rot.
From Verif Require Import Alias.
Import ListNotations.
Open Scope Z_scope.

(** ** resize *)
Lemma zq_resize_self_rep LOGQ v : 1 <= LOGQ -> zq_resize_self LOGQ (rep LOGQ v) = Ok (rep LOGQ (if cent LOGQ v <? 0 then v else 0)).
Proof.
  intros H. pose proof (len_bounds LOGQ H) as Hl. unfold zq_resize_self. rewrite zq_is_big_rep by auto. cbn [bind].
  pose proof (Z.mod_pos_bound v (2 ^ LOGQ) (pow2_pos LOGQ ltac:(lia))) as Hm.
  assert (E : (cent LOGQ v <? 0) = (2 ^ (LOGQ - 1) <=? v mod 2 ^ LOGQ)).
  { unfold cent. cbv zeta. destruct (Z.ltb_spec (v mod 2 ^ LOGQ) (2 ^ (LOGQ - 1))), (Z.leb_spec (2 ^ (LOGQ - 1)) (v mod 2 ^ LOGQ)); lia. }
  rewrite E. destruct (2 ^ (LOGQ - 1) <=? v mod 2 ^ LOGQ).
  - rewrite zq_copy_rep by (auto using zq_new_length). cbn [bind]. rewrite zq_negate_rep by auto. cbn [bind].
    rewrite zq_setzero_ok by (auto using rep_length). cbn [bind]. rewrite min_spec, Z.min_id. unfold rep at 1. rewrite copy_words by lia. cbn [bind].
    rewrite raw_mod. change (raw (len LOGQ) ((- v) mod 2 ^ LOGQ)) with (rep LOGQ (- v)). rewrite zq_negate_rep by auto. cbn [bind].
    rewrite remove_clutter_rep by auto. do 2 f_equal. lia.
  - rewrite zq_setzero_ok by (auto using rep_length). cbn [bind]. rewrite min_spec, Z.min_id.
    rewrite (for_closed _ (fun _ => raw (len LOGQ) 0) _ _ _ (raw (len LOGQ) 0)); auto; try lia.
    + cbn [bind]. rewrite remove_clutter_ok by auto. reflexivity.
    + intros i Hi. rewrite rd_raw by lia. cbn [bind]. unfold raw at 1. rewrite wr_wtab by lia. f_equal. apply wtab_ext. intros j Hj. destruct (Z.eqb_spec j i); subst; auto.
Qed.

(** resize from an object into itself keeps negative numbers and replaces the others by 0. *)
Theorem C127_resize_self : forall LOGQ A v s, 1 <= LOGQ -> holds LOGQ A v -> signed LOGQ v s ->
  exists D, zq_resize_self LOGQ A = Ok D /\ holds LOGQ D (Z.min s 0).
Proof.
  intros LOGQ A v s HQ HA Hs. apply holds_rep in HA; auto. subst A. apply signed_cent in Hs; auto. subst s.
  rewrite zq_resize_self_rep by auto. eexists. split; [reflexivity|]. apply holds_rep; auto. apply rep_congr.
  destruct (Z.ltb_spec (cent LOGQ v) 0); [rewrite Z.min_l, cent_congr by lia|rewrite Z.min_r by lia]; reflexivity.
Qed.
Theorem C127_resize_poly_self : forall LOGQ N A a c, 1 <= LOGQ -> 1 <= N -> holdsP LOGQ N A a -> (forall i, 0 <= i < N -> signed LOGQ (a i) (c i)) ->
  exists D, rq_resize_self LOGQ N A = Ok D /\ holdsP LOGQ N D (fun i => Z.min (c i) 0).
Proof.
  intros LOGQ N A a c HQ HN HA Hc. apply holdsP_rep in HA; try lia. subst A. exists (repP LOGQ N (fun i => Z.min (c i) 0)). split; [|apply repP_holds; lia].
  unfold rq_resize_self, repP. apply (pupd_loop N _ (fun _ => zq_resize_self LOGQ)); try lia; auto. intros i Hi. rewrite zq_resize_self_rep by auto. f_equal.
  specialize (Hc i Hi). apply signed_cent in Hc; auto. rewrite Hc. apply rep_congr. destruct (Z.ltb_spec (cent LOGQ (a i)) 0); [rewrite Z.min_l, cent_congr by lia|rewrite Z.min_r by lia]; reflexivity.
Qed.
(** In particular resizing to the same modulus is not the identity on an object and itself, although it is on two objects. *)
Theorem C127_resize_self_refuted : exists LOGQ A v D, 1 <= LOGQ /\ holds LOGQ A v /\ zq_resize LOGQ LOGQ A (zq_new LOGQ) = Ok A /\ zq_resize_self LOGQ A = Ok D /\ ~ holds LOGQ D v.
Proof.
  exists 70, [Some 7; Some 0], 7, [Some 0; Some 0]. split; [lia|]. split; [vm_compute; auto|]. split; [vm_compute; reflexivity|]. split; [vm_compute; reflexivity|].
  intros [_ H]. vm_compute in H. discriminate.
Qed.
Example C127_case_resize : zq_resize_self 70 [Some (2 ^ 64 - 3); Some 63] = Ok [Some (2 ^ 64 - 3); Some 63] /\ zq_resize_self 70 [Some 9; Some 31] = Ok [Some 0; Some 0].
Proof. vm_compute. split; reflexivity. Qed.

(** ** R_Q += itself: right exactly when no word below the topmost one of any coefficient has its top bit set *)
Theorem C127_add_self : forall LOGQ N A a, 1 <= LOGQ -> 1 <= N -> holdsP LOGQ N A a ->
  exists D, rq_add_self LOGQ N A = Ok D /\ objectP LOGQ N D /\
    (holdsP LOGQ N D (fun i => 2 * a i) <->
     forall i j, 0 <= i < N -> 0 <= j < (LOGQ + 63) / 64 - 1 -> ((a i mod 2 ^ LOGQ) / 2 ^ (64 * j)) mod 2 ^ 64 < 2 ^ 63).
Proof.
  intros LOGQ N A a HQ HN HA. apply holdsP_rep in HA; try lia. subst A.
  set (v := fun i => valf (Z.to_nat (len LOGQ)) (fun j => wrap (2 * dg (a i mod 2 ^ LOGQ) j))).
  assert (E : forall i, zq_add_self LOGQ (rep LOGQ (a i)) = Ok (rep LOGQ (v i))) by (intros i; apply zq_add_self_raw; auto).
  exists (repP LOGQ N v). split.
  { unfold rq_add_self, repP. apply (pupd_loop N _ (fun _ => zq_add_self LOGQ)); try lia; auto. }
  split. { apply objP_object; try lia. apply objP_rep. }
  rewrite holdsP_rep by lia. rewrite <- len_div by lia.
  assert (K : forall i, rep LOGQ (v i) = rep LOGQ (2 * a i) <-> forall j, 0 <= j < len LOGQ - 1 -> dg (a i mod 2 ^ LOGQ) j < 2 ^ 63).
  { intros i. rewrite <- (self_add_iff LOGQ (a i mod 2 ^ LOGQ) HQ (mod_le_Wp LOGQ (a i) HQ)). change (raw (len LOGQ) (a i mod 2 ^ LOGQ)) with (rep LOGQ (a i)). rewrite E.
    assert (E2 : rep LOGQ (2 * (a i mod 2 ^ LOGQ)) = rep LOGQ (2 * a i)) by (apply rep_congr; rewrite Z.mul_mod_idemp_r by (pose proof (pow2_pos LOGQ ltac:(lia)); lia); reflexivity).
    rewrite E2. split; intros X; [rewrite X; reflexivity|injection X; auto]. }
  split.
  - intros X i j Hi Hj. apply (tab_inj N _ _ X) in Hi. apply (proj1 (K i) Hi j Hj).
  - intros X. apply tab_ext. intros i Hi. apply K. intros j Hj. apply (X i j Hi Hj).
Qed.
(** 2^63 in two words of which the upper one stays 0: doubled to 0. *)
Example C127_case_add : rq_add_self 128 2 [[Some (2 ^ 63); Some 0]; [Some 5; Some (2 ^ 63)]] = Ok [[Some 0; Some 0]; [Some 10; Some 0]].
Proof. vm_compute. reflexivity. Qed.

(** ** conv of an integer polynomial with an object into the same object *)
Lemma zq_add_self_zero LOGQ : 1 <= LOGQ -> zq_add_self LOGQ (rep LOGQ 0) = Ok (rep LOGQ 0).
Proof.
  intros H. pose proof (proj2 (self_add_iff LOGQ 0 H ltac:(pose proof (mod_le_Wp LOGQ 0 H); rewrite Z.mod_0_l in *; [lia|pose proof (pow2_pos LOGQ ltac:(lia)); lia]))) as K.
  unfold rep at 1. rewrite Z.mod_0_l by (pose proof (pow2_pos LOGQ ltac:(lia)); lia). rewrite K; auto. intros j Hj. unfold dg. rewrite Z.div_0_l, Z.mod_0_l by (unfold Wp, W; try lia; pose proof (pow2_pos (64 * j) ltac:(lia)); lia). lia.
Qed.

(** The loop over k for coefficient i, when coefficients below i are [d] and those above are [d] as well. *)
Definition self_term (N : Z) (s : Z -> Z) (d : Z -> Z) (i k : Z) : Z := if k =? 0 then 0 else tern (s k) * (if k <=? i then d (i - k) else - d (N + i - k)).
Lemma conv_s_self_coef LOGQ N s d i : 1 <= LOGQ -> 0 <= i < N ->
  (A <- pupd (repP LOGQ N d) i (zq_setzero LOGQ) ;;
    for_ 0 N (fun k A =>
      sk <- rd (wtab N s) k ;;
      if negb (sk =? 0) then
        let sign := sk =? 1 in
        let '(p, sign) := if k <=? i then (i - k, sign) else (N + i - k, negb sign) in
        temp <- lget A p ;;
        if (sign : bool) then
          pupd A i (fun c => if p =? i then zq_add_self LOGQ c else zq_add LOGQ c temp)
        else pupd A i (fun c => zq_sub LOGQ c temp)
      else Ok A) A) = Ok (repP LOGQ N (fun x => if x =? i then zsum N (self_term N s d i) else d x)).
Proof.
  intros HQ Hi. unfold repP. rewrite (pupd_tab N _ i _ (rep LOGQ 0)) by (auto; rewrite zq_setzero_ok by (auto using rep_length); unfold rep; rewrite Z.mod_0_l by (pose proof (pow2_pos LOGQ ltac:(lia)); lia); reflexivity). cbn [bind].
  rewrite (for_closed _ (fun k => tab N (fun x => rep LOGQ (if x =? i then zsum k (self_term N s d i) else d x))) _ _ _
     (tab N (fun x => rep LOGQ (if x =? i then zsum N (self_term N s d i) else d x)))); auto; try lia.
  - apply tab_ext. intros x Hx. rewrite zsum_nil by lia. destruct (x =? i); reflexivity.
  - intros k Hk. rewrite rd_wtab by auto. cbn [bind]. rewrite zsum_S by lia. set (S := zsum k (self_term N s d i)). 
    assert (EXT : forall y, rep LOGQ y = rep LOGQ (S + self_term N s d i k) -> tab N (fun x => if x =? i then rep LOGQ y else rep LOGQ (if x =? i then S else d x)) = tab N (fun x => rep LOGQ (if x =? i then S + self_term N s d i k else d x))).
    { intros y Ey. apply tab_ext. intros x Hx. destruct (Z.eqb_spec x i); auto. }
    destruct (Z.eqb_spec (s k) 0) as [E0|E0]; cbn [negb].
    { f_equal. apply tab_ext. intros x Hx. unfold self_term, tern. rewrite E0. cbn. destruct (k =? 0); rewrite Z.add_0_r; reflexivity. }
    destruct (Z.eqb_spec k 0) as [->|K0].
    + assert (S0 : S = 0) by (apply zsum_nil; lia). destruct (Z.leb_spec 0 i); [|lia]. rewrite Z.sub_0_r. rewrite lget_tab by lia. cbn [bind]. rewrite Z.eqb_refl.
      assert (T0 : self_term N s d i 0 = 0) by reflexivity. destruct (s 0 =? 1).
      * rewrite (pupd_tab N _ i _ (rep LOGQ 0)) by (auto; rewrite Z.eqb_refl, S0; apply zq_add_self_zero; auto). f_equal; apply EXT; rewrite S0, T0; reflexivity.
      * rewrite (pupd_tab N _ i _ (rep LOGQ (S - S))) by (auto; rewrite Z.eqb_refl; apply zq_sub_rep; auto). f_equal; apply EXT; rewrite S0, T0; reflexivity.
    + assert (T : self_term N s d i k = tern (s k) * (if k <=? i then d (i - k) else - d (N + i - k))) by (unfold self_term; destruct (Z.eqb_spec k 0); [lia|reflexivity]).
      unfold tern in T. destruct (Z.eqb_spec (s k) 0) as [|_]; [lia|]. destruct (Z.leb_spec k i).
      * rewrite lget_tab by lia. cbn [bind]. destruct (Z.eqb_spec (i - k) i); [lia|]. destruct (Z.eqb_spec (s k) 1).
        -- rewrite (pupd_tab N _ i _ (rep LOGQ (S + d (i - k)))) by (auto; rewrite Z.eqb_refl; apply zq_add_rep; auto). f_equal; apply EXT; rewrite T; f_equal; try ring.
        -- rewrite (pupd_tab N _ i _ (rep LOGQ (S - d (i - k)))) by (auto; rewrite Z.eqb_refl; apply zq_sub_rep; auto). f_equal; apply EXT; rewrite T; f_equal; try ring.
      * rewrite lget_tab by lia. cbn [bind]. destruct (Z.eqb_spec (N + i - k) i); [lia|]. destruct (Z.eqb_spec (s k) 1); cbn [negb].
        -- rewrite (pupd_tab N _ i _ (rep LOGQ (S - d (N + i - k)))) by (auto; rewrite Z.eqb_refl; apply zq_sub_rep; auto). f_equal; apply EXT; rewrite T; f_equal; try ring.
        -- rewrite (pupd_tab N _ i _ (rep LOGQ (S + d (N + i - k)))) by (auto; rewrite Z.eqb_refl; apply zq_add_rep; auto). f_equal; apply EXT; rewrite T; f_equal; try ring.
Qed.

(** Iterations in order: coefficient i becomes the sum without the term of s_0, in which coefficients below i are the new ones.  (The loop is marked parallel; with one thread the order is this one.) *)
Theorem C127_conv_ternary_self : forall LOGQ N s A a, 1 <= LOGQ -> 1 <= N -> length s = Z.to_nat N ->
  Forall (fun x => x = -1 \/ x = 0 \/ x = 1) s -> holdsP LOGQ N A a ->
  exists D d, conv_s_self LOGQ N (map Some s) A = Ok D /\ holdsP LOGQ N D d /\
    forall i, 0 <= i < N -> d i = zsum i (fun j => coef s (i - j) * d j) - zsum (N - 1 - i) (fun j => coef s (N - 1 - j) * a (i + 1 + j)).
Proof.
  intros LOGQ N s A a HQ HN Hs Ht HA. apply holdsP_rep in HA; try lia. subst A. rewrite (words_tab s N) by auto.
  assert (Tn : forall k, 0 <= k < N -> tern (coef s k) = coef s k).
  { intros k Hk. rewrite Forall_forall in Ht. destruct (Ht (coef s k)) as [->|[->| ->]]; auto. apply nth_In. lia. }
  unfold conv_s_self.
  destruct (for_inv (fun i A => A <- pupd A i (zq_setzero LOGQ) ;; for_ 0 N (fun k A =>
      sk <- rd (wtab N (coef s)) k ;;
      if negb (sk =? 0) then
        let sign := sk =? 1 in
        let '(p, sign) := if k <=? i then (i - k, sign) else (N + i - k, negb sign) in
        temp <- lget A p ;;
        if (sign : bool) then
          pupd A i (fun c => if p =? i then zq_add_self LOGQ c else zq_add LOGQ c temp)
        else pupd A i (fun c => zq_sub LOGQ c temp)
      else Ok A) A)
    (fun i A => exists d, A = repP LOGQ N d /\ (forall x, i <= x < N -> d x = a x) /\
       forall x, 0 <= x < i -> d x = zsum x (fun j => coef s (x - j) * d j) - zsum (N - 1 - x) (fun j => coef s (N - 1 - j) * a (x + 1 + j)))
    0 N (repP LOGQ N a)) as (D & E & d & -> & _ & Hd).
  - lia.
  - exists a. split; auto. split; auto. intros; lia.
  - intros i A Hi (d & -> & H1 & H2). eexists. split; [apply conv_s_self_coef; auto|]. eexists. split; [reflexivity|]. split.
    + intros x Hx. destruct (Z.eqb_spec x i); [lia|]. apply H1. lia.
    + intros x Hx. destruct (Z.eqb_spec x i) as [->|Nx].
      * set (V := zsum N (self_term N (coef s) d i)).
        assert (S0 : zsum i (fun j => coef s (i - j) * (if j =? i then V else d j)) = zsum i (fun j => coef s (i - j) * d j)) by (apply zsum_ext; intros j Hj; destruct (Z.eqb_spec j i); [lia|reflexivity]).
        rewrite S0. unfold V. rewrite (zsum_cut (1 + i) N) by lia. rewrite (zsum_split 1 i) by lia.
        replace (zsum 1 (self_term N (coef s) d i)) with 0 by (symmetry; apply zsum_zero; intros j Hj; replace j with 0 by lia; reflexivity).
        assert (S1 : zsum i (fun j => self_term N (coef s) d i (1 + j)) = zsum i (fun j => coef s (i - j) * d j)).
        { rewrite zsum_rev. apply zsum_ext. intros j Hj. unfold self_term. destruct (Z.eqb_spec (1 + (i - 1 - j)) 0); [lia|]. destruct (Z.leb_spec (1 + (i - 1 - j)) i); [|lia].
          replace (1 + (i - 1 - j)) with (i - j) by lia. rewrite Tn by lia. do 2 f_equal. lia. }
        rewrite S1. assert (S2 : zsum (N - (1 + i)) (fun j => self_term N (coef s) d i (1 + i + j)) = - zsum (N - 1 - i) (fun j => coef s (N - 1 - j) * a (i + 1 + j))).
        { rewrite <- zsum_opp. replace (N - (1 + i)) with (N - 1 - i) by lia. rewrite zsum_rev. apply zsum_ext. intros j Hj. unfold self_term.
          destruct (Z.eqb_spec (1 + i + (N - 1 - i - 1 - j)) 0); [lia|]. destruct (Z.leb_spec (1 + i + (N - 1 - i - 1 - j)) i); [lia|]. rewrite Tn by lia.
          replace (1 + i + (N - 1 - i - 1 - j)) with (N - 1 - j) by lia. rewrite <- (H1 (i + 1 + j)) by lia. replace (N + i - (N - 1 - j)) with (i + 1 + j) by lia. ring. }
        rewrite S2. ring.
      * rewrite H2 by lia. f_equal. apply zsum_ext. intros j Hj. destruct (Z.eqb_spec j i); [lia|reflexivity].
  - exists (repP LOGQ N d), d. split; [exact E|]. split; [apply repP_holds; lia|]. intros i Hi. apply Hd. lia.
Qed.
Theorem C127_conv_ternary_self_refuted : exists LOGQ N s A a D, 1 <= LOGQ /\ 1 <= N /\ length s = Z.to_nat N /\ Forall (fun x => x = -1 \/ x = 0 \/ x = 1) s /\ holdsP LOGQ N A a /\
  conv_s_self LOGQ N (map Some s) A = Ok D /\ ~ holdsP LOGQ N D (negconv N (coef s) a).
Proof.
  exists 10, 2, [1; 1], [[Some 3]; [Some 4]], (coef [3; 4]), [[Some 1020]; [Some 1020]].
  split; [lia|]. split; [lia|]. split; [reflexivity|]. split; [repeat constructor; lia|]. split.
  { apply holdsP_rep; [lia|lia|]. vm_compute. reflexivity. }
  split; [vm_compute; reflexivity|]. intros H. apply holdsP_rep in H; try lia. vm_compute in H. discriminate.
Qed.
(** s = 1 - X + 0X^2 - X^3 and A = 5 + 7X + 11X^2 + 13X^3 (compare C31_case). *)
Example C127_case_conv : conv_s_self 66 4 (map Some [1; -1; 0; -1]) (map (fun x => [Some x; Some 0]) [5; 7; 11; 13]) =
  Ok [[Some 20; Some 0]; [Some (2 ^ 64 - 9); Some 3]; [Some 22; Some 0]; [Some (2 ^ 64 - 42); Some 3]].
Proof. vm_compute. reflexivity. Qed.

(** ** Conjugation in place: the upper half keeps its coefficients *)
Definition conj_self_f (N : Z) (a : Z -> Z) (i : Z) : Z := if i =? 0 then a 0 else if 2 * i <=? N then - a (N - i) else a i.
Theorem C127_conj_self : forall LOGQ N A a, 1 <= LOGQ -> 1 <= N -> holdsP LOGQ N A a ->
  exists D d, conj_poly_self LOGQ N A = Ok D /\ holdsP LOGQ N D d /\ d 0 = a 0 /\
    forall i, 1 <= i < N -> d i = if 2 * i <=? N then - a (N - i) else a i.
Proof.
  intros LOGQ N A a HQ HN HA. apply holdsP_rep in HA; try lia. subst A. exists (repP LOGQ N (conj_self_f N a)), (conj_self_f N a). split; [|split; [apply repP_holds; lia|split; [reflexivity|]]].
  2: { intros i Hi. unfold conj_self_f. destruct (Z.eqb_spec i 0); [lia|reflexivity]. }
  unfold conj_poly_self, repP. rewrite lget_tab by lia. cbn [bind]. rewrite (pupd_tab N _ 0 _ (rep LOGQ (a 0))); [|lia|apply zq_copy_rep; auto using rep_length]. cbn [bind].
  rewrite (for_closed _ (fun i => tab N (fun k => rep LOGQ (if k <? i then conj_self_f N a k else a k))) _ _ _ (tab N (fun i => rep LOGQ (conj_self_f N a i)))); auto.
  - apply tab_ext. intros k Hk. unfold conj_self_f. destruct (Z.eqb_spec k 0), (Z.ltb_spec k 1); try lia; subst; reflexivity.
  - apply tab_ext. intros k Hk. destruct (Z.ltb_spec k N); [reflexivity|lia].
  - intros i Hi. rewrite lget_tab by lia. cbn [bind]. set (y := if N - i <? i then conj_self_f N a (N - i) else a (N - i)).
    rewrite (pupd_tab N _ i _ (rep LOGQ y)); [|lia|apply zq_copy_rep; auto using rep_length].
    cbn [bind]. rewrite (pupd_tab N _ i _ (rep LOGQ (- y))); [|lia|rewrite Z.eqb_refl; apply zq_negate_rep; auto].
    f_equal. apply tab_ext. intros k Hk.
    destruct (Z.eqb_spec k i), (Z.ltb_spec k i), (Z.ltb_spec k (i + 1)); try lia; subst; try reflexivity. f_equal. unfold y, conj_self_f.
    destruct (Z.eqb_spec i 0); [lia|]. destruct (Z.eqb_spec (N - i) 0); [lia|]. destruct (Z.ltb_spec (N - i) i), (Z.leb_spec (2 * i) N), (Z.leb_spec (2 * (N - i)) N); try lia.
    replace (N - (N - i)) with i by lia. lia.
Qed.
Theorem C127_conj_int_self : forall N s, 1 <= N -> length s = Z.to_nat N -> Forall (fun x => Z.abs x < 2 ^ 31) s ->
  exists d, conj_int_self N (map Some s) = Ok (map Some d) /\ length d = Z.to_nat N /\ coef d 0 = coef s 0 /\
    forall i, 1 <= i < N -> coef d i = if 2 * i <=? N then - coef s (N - i) else coef s i.
Proof.
  intros N s HN Hs Hb. set (d := tab N (conj_self_f N (coef s))).
  assert (Ed : forall i, 0 <= i < N -> coef d i = conj_self_f N (coef s) i) by (intros i Hi; unfold d; apply coef_tab; auto).
  assert (Ld : length d = Z.to_nat N) by (unfold d; apply tab_length).
  exists d. split; [|split; [exact Ld|split; [rewrite Ed by lia; reflexivity|intros i Hi; rewrite Ed by lia; unfold conj_self_f; destruct (Z.eqb_spec i 0); [lia|reflexivity]]]].
  assert (Bs : forall i, 0 <= i < N -> Z.abs (coef s i) < 2 ^ 31) by (intros i Hi; rewrite Forall_forall in Hb; apply Hb, nth_In; lia).
  rewrite (words_tab s N), (words_tab d N) by auto. unfold conj_int_self. rewrite rd_wtab by lia. cbn [bind]. rewrite wr_wtab by lia. cbn [bind].
  rewrite (for_closed _ (fun i => wtab N (fun k => if k <? i then conj_self_f N (coef s) k else coef s k)) _ _ _ (wtab N (coef d))); auto.
  - apply wtab_ext. intros k Hk. unfold conj_self_f. destruct (Z.eqb_spec k 0), (Z.ltb_spec k 1); try lia; subst; reflexivity.
  - apply wtab_ext. intros k Hk. rewrite Ed by lia. destruct (Z.ltb_spec k N); [reflexivity|lia].
  - intros i Hi. rewrite rd_wtab by lia. cbn [bind]. set (y := if N - i <? i then conj_self_f N (coef s) (N - i) else coef s (N - i)).
    assert (By : Z.abs y < 2 ^ 31). { unfold y, conj_self_f. destruct (N - i <? i); [|apply Bs; lia]. destruct (N - i =? 0); [apply Bs; lia|]. destruct (2 * (N - i) <=? N); [rewrite Z.abs_opp|]; apply Bs; lia. }
    rewrite int_ok by (rewrite Z.abs_opp; exact By). cbn [bind]. rewrite wr_wtab by lia. f_equal. apply wtab_ext. intros k Hk.
    destruct (Z.eqb_spec k i), (Z.ltb_spec k i), (Z.ltb_spec k (i + 1)); try lia; subst; try reflexivity. unfold y, conj_self_f.
    destruct (Z.eqb_spec i 0); [lia|]. destruct (Z.eqb_spec (N - i) 0); [lia|]. destruct (Z.ltb_spec (N - i) i), (Z.leb_spec (2 * i) N), (Z.leb_spec (2 * (N - i)) N); try lia.
    replace (N - (N - i)) with i by lia. lia.
Qed.
Example C127_case_conj : conj_int_self 5 (map Some [1; 2; 3; 4; 5]) = Ok (map Some [1; -5; -4; 4; 5]) /\ conj_poly_self 10 3 [[Some 1]; [Some 2]; [Some 3]] = Ok [[Some 1]; [Some 1021]; [Some 3]].
Proof. vm_compute. split; reflexivity. Qed.

(** ** A pair multiplied by its own components *)
Theorem C127_mul_component : forall k LOGQ D0 D1 a0 a1, 1 <= k <= 17 -> widths LOGQ -> holdsP LOGQ (2 ^ k) D0 a0 -> holdsP LOGQ (2 ^ k) D1 a1 ->
  (exists E0 E1, sq_mul_first LOGQ (2 ^ k) (D0, D1) = Ok (E0, E1) /\ holdsP LOGQ (2 ^ k) E0 (negconv (2 ^ k) a0 a0) /\
     holdsP LOGQ (2 ^ k) E1 (negconv (2 ^ k) a1 (negconv (2 ^ k) a0 a0))) /\
  (exists E0 E1, sq_mul_second LOGQ (2 ^ k) (D0, D1) = Ok (E0, E1) /\ holdsP LOGQ (2 ^ k) E0 (negconv (2 ^ k) a0 a1) /\
     holdsP LOGQ (2 ^ k) E1 (negconv (2 ^ k) a1 a1)).
Proof.
  intros k LOGQ D0 D1 a0 a1 Hk HW H0 H1. rewrite <- (Z2Nat.id k) in * by lia. set (L := Z.to_nat k) in *.
  assert (HL : (1 <= L <= 17)%nat) by lia. clearbody L. assert (HQ : 1 <= LOGQ) by (unfold widths in HW; lia).
  assert (HN : 0 <= 2 ^ Z.of_nat L) by (apply Z.pow_nonneg; lia).
  apply holdsP_rep in H0, H1; auto. subst.
  split; eexists _, _; (split; [|split; apply repP_holds; auto]).
  - unfold sq_mul_first. cbn [fst snd]. rewrite rq_copy_rep by (auto using objP_new). cbn [bind].
    rewrite conv_poly_ok by (auto using objP_rep). cbn [bind]. rewrite rq_copy_rep by (auto using objP_rep). cbn [bind].
    rewrite conv_poly_ok by (auto using objP_rep). reflexivity.
  - unfold sq_mul_second. cbn [fst snd]. rewrite rq_copy_rep by (auto using objP_new). cbn [bind].
    rewrite conv_poly_ok by (auto using objP_rep). cbn [bind]. rewrite rq_copy_rep by (auto using objP_rep). cbn [bind].
    rewrite conv_poly_ok by (auto using objP_rep). reflexivity.
Qed.
Example C127_case_component : widths 100 /\ holdsP 100 (2 ^ 1) [[Some 3; Some 0]; [Some 4; Some 0]] (coef [3; 4]) /\ holdsP 100 (2 ^ 1) [[Some 1; Some 0]; [Some 2; Some 0]] (coef [1; 2]) /\
  tab 2 (negconv 2 (coef [1; 2]) (negconv 2 (coef [3; 4]) (coef [3; 4]))) = [-55; 10] /\ tab 2 (negconv 2 (coef [1; 2]) (coef [3; 4])) = [-5; 10].
Proof.
  split; [unfold widths; lia|]. split; [apply holdsP_rep; [lia|lia|vm_compute; reflexivity]|]. split; [apply holdsP_rep; [lia|lia|vm_compute; reflexivity]|]. vm_compute. split; reflexivity.
Qed.

(** ** The product of two ciphertexts written into the first *)
Lemma Mul_first_ok LOGQ (Ln : nat) a b c d e f : conv_width LOGQ -> conv_width (2 * LOGQ) -> (1 <= Ln <= 17)%nat ->
  let N := 2 ^ Z.of_nat Ln in
  let d2 := fun i => cent LOGQ (negconv N b d i) in
  let r := fun x i => rnd_shift (2 * LOGQ) LOGQ (negconv N x d2 i) in
  Mul_first LOGQ N (repS LOGQ N a b) (repS LOGQ N c d) (repS (2 * LOGQ) N e f) =
  Ok (repS LOGQ N (fun i => r e i + negconv N (r e) c i) (fun i => r f i + (negconv N (r f) c i + negconv N (r e) d i))).
Proof.
  intros HW HW2 HL N d2 r. assert (HQ : 1 <= LOGQ) by (unfold conv_width in HW; lia). assert (HN : 0 <= N) by (apply Z.pow_nonneg; lia).
  assert (EM : forall x y z, sq_mul (2 * LOGQ) N (repS (2 * LOGQ) N x y) (repP (2 * LOGQ) N z) =
      Ok (repS (2 * LOGQ) N (negconv N x z) (negconv N y z))) by (intros; apply sq_mul_rep; auto).
  unfold Mul_first.
  change (fst (repS LOGQ N ?x ?y)) with (repP LOGQ N x). change (snd (repS LOGQ N ?x ?y)) with (repP LOGQ N y).
  assert (EC : forall x y D, objP LOGQ N D -> conv_poly LOGQ N (repP LOGQ N x) (repP LOGQ N y) D = Ok (repP LOGQ N (negconv N x y)))
    by (intros; apply conv_poly_ok; auto).
  rewrite !EC by apply objP_new. cbn [bind]. rewrite rq_resize_rep by (auto using objP_new; lia). cbn [bind].
  rewrite sq_copy_rep by (auto using objS_new; lia). cbn [bind].
  rewrite EM. cbn [bind].
  rewrite RS_ok by (auto; try lia; split; apply objP_rep). cbn [bind]. unfold sq_new.
  change (fst (repS LOGQ N ?x ?y)) with (repP LOGQ N x). change (snd (repS LOGQ N ?x ?y)) with (repP LOGQ N y).
  rewrite !EC by apply objP_new. cbn [bind]. rewrite rq_add_rep by auto. cbn [bind].
  rewrite EC by apply objP_rep. cbn [bind].
  match goal with |- sq_add _ _ _ (repP _ _ ?x, repP _ _ ?y) = _ => change (repP LOGQ N x, repP LOGQ N y) with (repS LOGQ N x y) end.
  rewrite sq_add_rep by auto. reflexivity.
Qed.

(** With [r] a ciphertext of s^2*b*d up to the error of the key switch, where [b] and [d] are the second components of the factors, the result is r + r*c componentwise
    plus r0*d: the first factor enters only through [b]. *)
Theorem C127_Mul_first : forall k LOGQ ct1 ct2 evk s a b c d, 1 <= k <= 17 -> widths LOGQ -> widths (2 * LOGQ) ->
  switching_key LOGQ (2 ^ k) evk (negconv (2 ^ k) s s) s ->
  holdsP LOGQ (2 ^ k) (fst ct1) a -> holdsP LOGQ (2 ^ k) (snd ct1) b -> holdsP LOGQ (2 ^ k) (fst ct2) c -> holdsP LOGQ (2 ^ k) (snd ct2) d ->
  exists r0 r1 R0 R1 C0 C1 e, holdsP LOGQ (2 ^ k) R0 r0 /\ holdsP LOGQ (2 ^ k) R1 r1 /\
    decrypts LOGQ (2 ^ k) (R0, R1) s (fun i => negconv (2 ^ k) (negconv (2 ^ k) b d) (negconv (2 ^ k) s s) i + e i) /\
    (forall i, 0 <= i < 2 ^ k -> 2 * Z.abs (e i) <= 8 * 2 ^ k + 1 + norm1 (2 ^ k) s) /\
    Mul_first LOGQ (2 ^ k) ct1 ct2 evk = Ok (C0, C1) /\
    holdsP LOGQ (2 ^ k) C0 (fun i => r0 i + negconv (2 ^ k) r0 c i) /\
    holdsP LOGQ (2 ^ k) C1 (fun i => r1 i + (negconv (2 ^ k) r1 c i + negconv (2 ^ k) r0 d i)).
Proof.
  intros k LOGQ [A B] [C D] evk s a b c d Hk HW HW2 (e & He & Hw) Ha Hb Hc Hd. rewrite <- (Z2Nat.id k) in * by lia. set (L := Z.to_nat k) in *.
  assert (HL : (1 <= L <= 17)%nat) by lia. clearbody L. clear k Hk. assert (HQ : 1 <= LOGQ) by (unfold widths in HW; lia).
  assert (HN : 1 <= 2 ^ Z.of_nat L) by (pose proof (pow2_pos (Z.of_nat L)); lia).
  cbn [fst snd] in *. apply holdsP_rep in Ha, Hb, Hc, Hd; try lia. subst.
  apply decrypts_rep in Hw; try lia. destruct Hw as (f & g & -> & Hw).
  pose proof (Mul_first_ok LOGQ L a b c d f g HW HW2 HL) as E. cbv zeta in E. set (N := 2 ^ Z.of_nat L) in *. clearbody N.
  set (P := 2 ^ LOGQ). assert (HP : 0 < P) by (apply pow2_pos; lia). pose proof (pow2_half LOGQ HQ) as HP2. fold P in HP2.
  set (d2 := fun i => cent LOGQ (negconv N b d i)) in *.
  destruct (ks_noise N HN P LOGQ (negconv N s s) s f g d2 e 8 (2 ^ (LOGQ - 1)) HQ eq_refl ltac:(lia) ltac:(apply Z.pow_nonneg; lia) He) as (Er & HE & HC).
  { intros i Hi. unfold d2. pose proof (cent_bounds LOGQ (negconv N b d i) HQ). lia. }
  { replace (P * P) with (2 ^ (2 * LOGQ)) by (unfold P; rewrite <- Z.pow_add_r by lia; f_equal; lia).
    rewrite Hw. apply pcong_peq. intros i Hi. unfold padd, pscal. fold P. lia. }
  set (r := fun x i => rnd_shift (2 * LOGQ) LOGQ (negconv N x d2 i)) in *.
  exists (r f), (r g), (repP LOGQ N (r f)), (repP LOGQ N (r g)). eexists _, _, Er. split; [apply repP_holds; lia|]. split; [apply repP_holds; lia|]. split.
  { apply decrypts_rep; try lia. exists (r f), (r g). split; [reflexivity|]. fold P.
    change (pcong N P (padd (r f) (negconv N s (r g))) (padd (negconv N d2 (negconv N s s)) Er)) in HC.
    change (fun i => negconv N (negconv N b d) (negconv N s s) i + Er i) with (padd (negconv N (negconv N b d) (negconv N s s)) Er).
    assert (Hd2 : pcong N P d2 (negconv N b d)) by (apply pcong_mod; auto; intros i Hi; unfold d2; apply cent_congr; auto).
    rewrite <- Hd2. exact HC. }
  split. { intros i Hi. specialize (HE i Hi). nia. }
  split; [exact E|]. split; apply repP_holds; lia.
Qed.

(** Hence Mul must not write into its first argument: with the key 0 (whose switching key may be 0) the product of encryptions of 1 and 100 decrypts to 0. *)
Theorem C127_Mul_first_refuted : exists k LOGQ ct1 ct2 evk s m1 m2 ct3, 1 <= k <= 17 /\ widths LOGQ /\ widths (2 * LOGQ) /\
  switching_key LOGQ (2 ^ k) evk (negconv (2 ^ k) s s) s /\ decrypts LOGQ (2 ^ k) ct1 s m1 /\ decrypts LOGQ (2 ^ k) ct2 s m2 /\
  Mul_first LOGQ (2 ^ k) ct1 ct2 evk = Ok ct3 /\
  ~ exists e, decrypts LOGQ (2 ^ k) ct3 s (fun i => negconv (2 ^ k) m1 m2 i + e i) /\ forall i, 0 <= i < 2 ^ k -> 2 * Z.abs (e i) <= 8 * 2 ^ k + 1 + norm1 (2 ^ k) s.
Proof.
  set (z := fun _ : Z => 0). set (m1 := coef [1; 0]). set (m2 := coef [100; 0]).
  assert (H1 : decrypts 100 2 (repS 100 2 m1 z) z m1).
  { apply decrypts_rep; try lia. exists m1, z. split; [reflexivity|]. apply pcong_mod; [lia|]. intros i Hi. assert (K : i = 0 \/ i = 1) by lia. destruct K as [->| ->]; reflexivity. }
  assert (H2 : decrypts 100 2 (repS 100 2 m2 z) z m2).
  { apply decrypts_rep; try lia. exists m2, z. split; [reflexivity|]. apply pcong_mod; [lia|]. intros i Hi. assert (K : i = 0 \/ i = 1) by lia. destruct K as [->| ->]; reflexivity. }
  pose proof (Mul_first_ok 100 1 m1 z m2 z z z ltac:(unfold conv_width; lia) ltac:(unfold conv_width; lia) ltac:(lia)) as E. cbv zeta in E. change (2 ^ Z.of_nat 1) with 2 in E.
  eexists 1, 100, (repS 100 2 m1 z), (repS 100 2 m2 z), (repS 200 2 z z), z, m1, m2, _. change (2 ^ 1) with 2.
  split; [lia|]. split; [unfold widths; lia|]. split; [unfold widths; lia|]. split.
  { exists z. split; [intros i Hi; cbn; lia|]. change (2 * 100) with 200. apply decrypts_rep; try lia. exists z, z. split; [reflexivity|]. apply pcong_mod; [lia|].
    intros i Hi. assert (K : i = 0 \/ i = 1) by lia. destruct K as [->| ->]; reflexivity. }
  split; [exact H1|]. split; [exact H2|]. split; [exact E|].
  intros (e & Hd & He). apply decrypts_rep in Hd; try lia. destruct Hd as (x & y & Ex & Hd).
  match type of Ex with repS _ _ ?u ?v = _ => pose proof (f_equal fst Ex) as E0; pose proof (f_equal snd Ex) as E1; cbn [fst snd repS] in E0, E1;
    pose proof (repP_inj 100 2 u x ltac:(lia) E0 0 ltac:(lia)) as F0 end.
  assert (Hd0 : (x 0 + negconv 2 z y 0) mod 2 ^ 100 = (negconv 2 m1 m2 0 + e 0) mod 2 ^ 100).
  { pose proof (proj1 (pcong_mod 2 (2 ^ 100) _ _ ltac:(reflexivity)) Hd 0 ltac:(lia)) as X. exact X. }
  specialize (He 0 ltac:(lia)). change (norm1 2 z) with 0 in He. change (negconv 2 m1 m2 0) with 100 in Hd0.
  replace (negconv 2 z y 0) with 0 in Hd0 by (unfold negconv, z; symmetry; apply zsum_zero; intros; lia). rewrite Z.add_0_r in Hd0. rewrite <- F0 in Hd0. change (2 ^ 100) with 1267650600228229401496703205376 in Hd0.
  match type of Hd0 with ?l = _ => replace l with 0 in Hd0 by (vm_compute; reflexivity) end.
  assert (91 <= 100 + e 0 <= 109) by lia. rewrite Z.mod_small in Hd0 by lia. lia.
Qed.
