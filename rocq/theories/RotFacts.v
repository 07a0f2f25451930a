(** Rotations and conjugations compute the automorphisms X -> X^g. *)
From Coq Require Import ZArith List Bool Lia Znumtheory Zpow_facts.
From Verif Require Import Base BaseFacts ZQ ZQFacts ZQFacts2 RQ Sums SpecPoly NTTFacts RQFacts PolyRing PolyCong ConvFacts CoreFacts Core Rot.
Import ListNotations.
Open Scope Z_scope.

Lemma substituted_auto N g a b : 1 <= N -> substituted N g a b <-> is_auto N g a b.
Proof.
  intros HN. assert (E : forall i, ext N b (g * i) = let j := (g * i) mod (2 * N) in if j <? N then b j else - b (j - N)).
  { intros i. rewrite <- (ext_mod2N N HN). pose proof (Z.mod_pos_bound (g * i) (2 * N) ltac:(lia)) as Hj.
    cbv zeta. set (j := (g * i) mod (2 * N)) in *. destruct (Z.ltb_spec j N).
    - apply ext_in. lia.
    - rewrite <- (ext_in N b (j - N)) by lia. rewrite ext_shift' by auto. lia. }
  split; intros H i Hi.
  - rewrite E. symmetry. apply (H i Hi).
  - cbv zeta. cbv zeta in E. rewrite <- E. symmetry. apply (H i Hi).
Qed.

Section Unit.
  Variables (N g u v : Z).
  Hypothesis HN : 1 <= N.
  Hypothesis Hg : u * g + v * (2 * N) = 1.

  Definition image (a : Z -> Z) (k : Z) : Z := ext N a (u * k).

  Lemma u_odd : Z.odd u = true.
  Proof.
    destruct (Z.odd u) eqn:E; auto. exfalso. assert (He : Z.even u = true) by (rewrite <- Z.negb_odd, E; auto).
    apply Z.even_spec in He. destruct He as [m ->]. assert (2 * (m * g + v * N) = 1) by lia. lia.
  Qed.
  Lemma unit_gcd1 : gcd1 N g.
  Proof. apply bezout_rel_prime. apply Bezout_intro with u v. auto. Qed.
  Lemma ug a i : ext N a (u * (g * i)) = ext N a i.
  Proof.
    rewrite <- (ext_2N N HN a i (- (v * i))). f_equal. assert (E : (u * g + v * (2 * N)) * i = i) by (rewrite Hg; lia). lia.
  Qed.
  Lemma ext_image a k : ext N (image a) k = ext N a (u * k).
  Proof.
    symmetry. apply (ext_unique N HN (image a) (fun k => ext N a (u * k))).
    - intros i Hi. reflexivity.
    - intros j. destruct (Z.odd_spec u) as [Ho _]. destruct (Ho u_odd) as [m Hm].
      replace (u * (j + N)) with (u * j + N + m * (2 * N)) by (rewrite Hm; lia). rewrite ext_2N, ext_shift by auto. reflexivity.
  Qed.
  Lemma image_auto a : is_auto N g a (image a).
  Proof. intros i Hi. rewrite ext_image, ug. apply ext_in. auto. Qed.

  (** The step at which position [k] is written. *)
  Definition when (k : Z) : Z := (u * k) mod N.
  Lemma when_iff k i : 0 <= k < N -> 0 <= i < N -> when k = i <-> k = (g * i) mod N.
  Proof.
    intros Hk Hi. unfold when. split; intros E.
    - subst i. rewrite Z.mul_mod_idemp_r by lia. replace (g * (u * k)) with (k + (- (2 * v * k)) * N).
      + rewrite Z_mod_plus_full, Z.mod_small by auto. reflexivity.
      + assert (E : (u * g + v * (2 * N)) * k = k) by (rewrite Hg; lia). lia.
    - subst k. rewrite Z.mul_mod_idemp_r by lia. replace (u * (g * i)) with (i + (- (2 * v * i)) * N).
      + rewrite Z_mod_plus_full, Z.mod_small by auto. reflexivity.
      + assert (E : (u * g + v * (2 * N)) * i = i) by (rewrite Hg; lia). lia.
  Qed.
  (** The position written at step [i] and its contents. *)
  Lemma slot a i : 0 <= i < N -> let j := (i * g) mod (2 * N) in
    (j < N -> (g * i) mod N = j /\ image a j = a i) /\ (N <= j -> (g * i) mod N = j - N /\ image a (j - N) = - a i).
  Proof.
    intros Hi j. pose proof (Z.mod_pos_bound (i * g) (2 * N) ltac:(lia)) as Hj. fold j in Hj.
    pose proof (Z.div_mod (i * g) (2 * N) ltac:(lia)) as E. fold j in E. set (z := i * g / (2 * N)) in *.
    assert (Ej : ext N (image a) j = a i).
    { unfold j. rewrite ext_mod2N by auto. rewrite (Z.mul_comm i g). apply image_auto. auto. }
    split; intros Hlt.
    - split.
      + symmetry. apply Z.mod_unique_pos with (2 * z); lia.
      + rewrite <- Ej. symmetry. apply ext_in. lia.
    - split.
      + symmetry. apply Z.mod_unique_pos with (2 * z + 1); lia.
      + rewrite <- Ej. rewrite <- (ext_in N (image a) (j - N)) by lia. apply ext_shift'. auto.
  Qed.
End Unit.

(** ** The loops *)
Lemma rot_pow_ok N r : 1 <= N -> 10 * N < 2 ^ 31 -> rot_pow N r = Ok ((5 ^ Z.max 0 r) mod (2 * N)).
Proof.
  intros HN Hb. unfold rot_pow. destruct (Z_le_gt_dec r 0) as [Hr|Hr].
  - rewrite for_nil by lia. f_equal. rewrite Z.max_l by lia. symmetry. apply Z.mod_small. lia.
  - rewrite Z.max_r by lia. rewrite (for_closed _ (fun i => 5 ^ i mod (2 * N)) _ _ _ (5 ^ r mod (2 * N))); auto; try lia.
    + symmetry. apply Z.mod_small. lia.
    + intros i Hi. pose proof (Z.mod_pos_bound (5 ^ i) (2 * N) ltac:(lia)).
      rewrite int_ok by lia. cbn [bind]. rewrite int_ok by lia. cbn [bind]. rewrite Z.rem_mod_nonneg by lia. f_equal.
      rewrite Z.mul_mod_idemp_r by lia. f_equal. rewrite Z.add_1_r, Z.pow_succ_r by lia. reflexivity.
Qed.

Section Loops.
  Variables (N r u v : Z).
  Let g := (5 ^ Z.max 0 r) mod (2 * N).
  Hypothesis HN : 1 <= N.
  Hypothesis Hb : 10 * N < 2 ^ 31.
  Hypothesis Hg : u * g + v * (2 * N) = 1.

  Lemma next_j i : 0 <= i < N -> (t <- int_ ((i * g) mod (2 * N) + g) ;; m <- int_ (2 * N) ;; Ok (Z.rem t m)) = Ok (((i + 1) * g) mod (2 * N)).
  Proof.
    intros Hi. pose proof (Z.mod_pos_bound (i * g) (2 * N) ltac:(lia)).
    assert (Hg2 : 0 <= g < 2 * N) by (apply Z.mod_pos_bound; lia).
    rewrite int_ok by lia. cbn [bind]. rewrite int_ok by lia. cbn [bind]. rewrite Z.rem_mod_nonneg by lia. f_equal.
    rewrite Z.add_mod_idemp_l by lia. f_equal. lia.
  Qed.

  Lemma rot_poly_ok LOGQ a D : 1 <= LOGQ -> objP LOGQ N D ->
    rot_poly LOGQ N (repP LOGQ N a) D r = Ok (repP LOGQ N (image N u a)).
  Proof.
    intros HQ (d & -> & Hd). unfold rot_poly. rewrite rot_pow_ok by auto. fold g. cbn [bind].
    rewrite (for_closed _ (fun i => (tab N (fun k => if when N u k <? i then rep LOGQ (image N u a k) else d k), (i * g) mod (2 * N))) _ _ _
       (repP LOGQ N (image N u a), (N * g) mod (2 * N))); auto; try lia.
    - apply f_equal2; [|reflexivity]. apply tab_ext. intros k Hk. unfold when. pose proof (Z.mod_pos_bound (u * k) N ltac:(lia)).
      destruct (Z.ltb_spec ((u * k) mod N) 0); [lia|reflexivity].
    - apply f_equal2; [|reflexivity]. apply tab_ext. intros k Hk. unfold when. pose proof (Z.mod_pos_bound (u * k) N ltac:(lia)).
      destruct (Z.ltb_spec ((u * k) mod N) N); [reflexivity|lia].
    - intros i Hi. pose proof (next_j i Hi) as Hn. unfold repP at 1. rewrite lget_tab by auto. cbn [bind].
      pose proof (slot N g u v HN Hg a i Hi) as Hs. cbv zeta in Hs. set (j := (i * g) mod (2 * N)) in *.
      assert (Hj : 0 <= j < 2 * N) by (apply Z.mod_pos_bound; lia).
      assert (Hlen : forall k, 0 <= k < N -> length (if when N u k <? i then rep LOGQ (image N u a k) else d k) = Z.to_nat (len LOGQ)).
      { intros k Hk. destruct (_ <? _); auto. apply rep_length. }
      match goal with |- bind ?e _ = _ => assert (E : e = Ok (tab N (fun k => if when N u k <? i + 1 then rep LOGQ (image N u a k) else d k))) end.
      { assert (Hfin : forall k0 x, 0 <= k0 < N -> k0 = (g * i) mod N -> x = rep LOGQ (image N u a k0) ->
           tab N (fun k => if k =? k0 then x else if when N u k <? i then rep LOGQ (image N u a k) else d k) =
           tab N (fun k => if when N u k <? i + 1 then rep LOGQ (image N u a k) else d k)).
        { intros k0 x Hk0 Ek0 ->. apply tab_ext. intros k Hk. pose proof (when_iff N g u v HN Hg k i Hk Hi) as Hw.
          destruct (Z.eqb_spec k k0) as [->|Hne].
          - apply Hw in Ek0. rewrite Ek0. destruct (Z.ltb_spec i (i + 1)); [reflexivity|lia].
          - assert (when N u k <> i) by (intros E; apply Hw in E; congruence).
            destruct (Z.ltb_spec (when N u k) i), (Z.ltb_spec (when N u k) (i + 1)); try lia; reflexivity. }
        destruct (Z.ltb_spec j N) as [Hlt|Hge].
        - destruct Hs as [Hs _]. destruct (Hs Hlt) as [E1 E2].
          rewrite (pupd_tab N _ j _ (rep LOGQ (a i))); [|lia|apply zq_copy_rep; auto; apply Hlen; lia].
          f_equal. apply Hfin; auto; [lia|rewrite E2; reflexivity].
        - destruct Hs as [_ Hs]. destruct (Hs Hge) as [E1 E2].
          rewrite (pupd_tab N _ (j - N) _ (rep LOGQ (a i))); [|lia|apply zq_copy_rep; auto; apply Hlen; lia]. cbn [bind].
          rewrite (pupd_tab N _ (j - N) _ (rep LOGQ (- a i))); [|lia|rewrite Z.eqb_refl; apply zq_negate_rep; auto].
          f_equal. rewrite <- (Hfin (j - N) (rep LOGQ (- a i))); auto; [|lia|rewrite E2; reflexivity].
          apply tab_ext. intros k Hk. destruct (k =? j - N); reflexivity. }
      rewrite E. cbn [bind].
      destruct (int_ (j + g)) as [t| | |]; cbn [bind] in *; try discriminate.
      destruct (int_ (2 * N)) as [m| | |]; cbn [bind] in *; try discriminate. injection Hn as ->. reflexivity.
  Qed.

  Lemma rot_int_ok s (D : list cell) : (forall i, 0 <= i < N -> Z.abs (s i) < 2 ^ 31) -> length D = Z.to_nat N ->
    rot_int N (wtab N s) D r = Ok (wtab N (image N u s)).
  Proof.
    intros Hsb HD. destruct (arr_tab None D N HD) as [d ->]. unfold rot_int. rewrite rot_pow_ok by auto. fold g. cbn [bind].
    rewrite (for_closed _ (fun i => (tab N (fun k => if when N u k <? i then Some (image N u s k) else d k), (i * g) mod (2 * N))) _ _ _
       (wtab N (image N u s), (N * g) mod (2 * N))); auto; try lia.
    - apply f_equal2; [|reflexivity]. apply tab_ext. intros k Hk. unfold when. pose proof (Z.mod_pos_bound (u * k) N ltac:(lia)).
      destruct (Z.ltb_spec ((u * k) mod N) 0); [lia|reflexivity].
    - apply f_equal2; [|reflexivity]. apply tab_ext. intros k Hk. unfold when. pose proof (Z.mod_pos_bound (u * k) N ltac:(lia)).
      destruct (Z.ltb_spec ((u * k) mod N) N); [reflexivity|lia].
    - intros i Hi. pose proof (next_j i Hi) as Hn. rewrite rd_wtab by auto. cbn [bind].
      pose proof (slot N g u v HN Hg s i Hi) as Hs. cbv zeta in Hs. set (j := (i * g) mod (2 * N)) in *.
      assert (Hj : 0 <= j < 2 * N) by (apply Z.mod_pos_bound; lia).
      match goal with |- bind ?e _ = _ => assert (E : e = Ok (tab N (fun k => if when N u k <? i + 1 then Some (image N u s k) else d k))) end.
      { assert (Hfin : forall k0 x, 0 <= k0 < N -> k0 = (g * i) mod N -> x = image N u s k0 ->
           tab N (fun k => if k =? k0 then Some x else if when N u k <? i then Some (image N u s k) else d k) =
           tab N (fun k => if when N u k <? i + 1 then Some (image N u s k) else d k)).
        { intros k0 x Hk0 Ek0 ->. apply tab_ext. intros k Hk. pose proof (when_iff N g u v HN Hg k i Hk Hi) as Hw.
          destruct (Z.eqb_spec k k0) as [->|Hne].
          - apply Hw in Ek0. rewrite Ek0. destruct (Z.ltb_spec i (i + 1)); [reflexivity|lia].
          - assert (when N u k <> i) by (intros E; apply Hw in E; congruence).
            destruct (Z.ltb_spec (when N u k) i), (Z.ltb_spec (when N u k) (i + 1)); try lia; reflexivity. }
        destruct (Z.ltb_spec j N) as [Hlt|Hge].
        - destruct Hs as [Hs _]. destruct (Hs Hlt) as [E1 E2]. rewrite wr_tab by lia. f_equal. apply Hfin; auto; lia.
        - destruct Hs as [_ Hs]. destruct (Hs Hge) as [E1 E2]. rewrite int_ok by (rewrite Z.abs_opp; auto). cbn [bind]. rewrite wr_tab by lia. f_equal. apply Hfin; auto; lia. }
      rewrite E. cbn [bind].
      destruct (int_ (j + g)) as [t| | |]; cbn [bind] in *; try discriminate.
      destruct (int_ (2 * N)) as [m| | |]; cbn [bind] in *; try discriminate. injection Hn as ->. reflexivity.
  Qed.
End Loops.

(** One step, with division instead of a running exponent. *)
Lemma rot_int1_ok N u v s (D : list cell) : 1 <= N -> 10 * N < 2 ^ 31 -> u * 5 + v * (2 * N) = 1 ->
  (forall i, 0 <= i < N -> Z.abs (s i) < 2 ^ 31) -> length D = Z.to_nat N ->
  rot_int1 N (wtab N s) D = Ok (wtab N (image N u s)).
Proof.
  intros HN Hb Hg Hsb HD. destruct (arr_tab None D N HD) as [d ->]. unfold rot_int1.
  rewrite (for_closed _ (fun i => tab N (fun k => if when N u k <? i then Some (image N u s k) else d k)) _ _ _ (wtab N (image N u s))); auto; try lia.
  - apply tab_ext. intros k Hk. unfold when. pose proof (Z.mod_pos_bound (u * k) N ltac:(lia)).
    destruct (Z.ltb_spec ((u * k) mod N) 0); [lia|reflexivity].
  - apply tab_ext. intros k Hk. unfold when. pose proof (Z.mod_pos_bound (u * k) N ltac:(lia)).
    destruct (Z.ltb_spec ((u * k) mod N) N); [reflexivity|lia].
  - intros i Hi. rewrite int_ok by lia. cbn [bind]. rewrite rd_wtab by auto. cbn [bind].
    rewrite Z.quot_div_nonneg, (Z.rem_mod_nonneg (5 * i)) by lia.
    pose proof (Z.mod_pos_bound (5 * i) N ltac:(lia)) as Hm. pose proof (Z.div_pos (5 * i) N ltac:(lia) ltac:(lia)) as Hq.
    rewrite Z.rem_mod_nonneg by lia.
    assert (Ei : image N u s ((5 * i) mod N) = if (5 * i / N) mod 2 =? 0 then s i else - s i).
    { assert (E : ext N (image N u s) (5 * i) = s i) by (apply (image_auto N 5 u v HN Hg); auto).
      unfold ext in E. assert (Ev : Z.even (5 * i / N) = ((5 * i / N) mod 2 =? 0)).
      { rewrite Zmod_even. destruct (Z.even (5 * i / N)); reflexivity. }
      rewrite Ev in E. destruct ((5 * i / N) mod 2 =? 0); lia. }
    assert (E : (if (5 * i / N) mod 2 =? 0 then Ok (s i) else int_ (- s i)) = Ok (image N u s ((5 * i) mod N))).
    { rewrite Ei. destruct (_ =? 0); auto. apply int_ok. rewrite Z.abs_opp. auto. }
    rewrite E. cbn [bind]. rewrite wr_tab by auto. f_equal. apply tab_ext. intros k Hk.
    pose proof (when_iff N 5 u v HN Hg k i Hk Hi) as Hw.
    destruct (Z.eqb_spec k ((5 * i) mod N)) as [Ek|Hne].
    + assert (Hwk : when N u k = i) by (apply Hw; auto). rewrite Hwk, <- Ek. destruct (Z.ltb_spec i (i + 1)); [reflexivity|lia].
    + assert (when N u k <> i) by (intros E'; apply Hw in E'; congruence).
      destruct (Z.ltb_spec (when N u k) i), (Z.ltb_spec (when N u k) (i + 1)); try lia; reflexivity.
Qed.

(** ** Conjugation: the exponent -1 *)
Definition conj_f (N : Z) (a : Z -> Z) (i : Z) : Z := if i =? 0 then a 0 else - a (N - i).
Lemma conj_auto N a : 1 <= N -> is_auto N (-1) a (conj_f N a).
Proof.
  intros HN i Hi. replace (-1 * i) with (- i) by lia. destruct (Z.eq_dec i 0) as [->|Hne].
  - change (- 0) with 0. rewrite ext_in by lia. reflexivity.
  - replace (- i) with (N - i - N) by lia. rewrite ext_shift', ext_in by lia. unfold conj_f. destruct (Z.eqb_spec (N - i) 0); [lia|].
    replace (N - (N - i)) with i by lia. lia.
Qed.
Lemma conj_gcd1 N : gcd1 N (-1).
Proof. apply bezout_rel_prime. apply Bezout_intro with (-1) 0. lia. Qed.
Lemma conj_poly_ok LOGQ N a D : 1 <= LOGQ -> 1 <= N -> objP LOGQ N D ->
  conj_poly LOGQ N (repP LOGQ N a) D = Ok (repP LOGQ N (conj_f N a)).
Proof.
  intros HQ HN (d & -> & Hd). unfold conj_poly. unfold repP at 1. rewrite lget_tab by lia. cbn [bind].
  rewrite (pupd_tab N _ 0 _ (rep LOGQ (a 0))); [|lia|apply zq_copy_rep; auto; apply Hd; lia]. cbn [bind].
  rewrite (for_closed _ (fun i => tab N (fun k => if k <? i then rep LOGQ (conj_f N a k) else d k)) _ _ _ (repP LOGQ N (conj_f N a))); auto.
  - apply tab_ext. intros k Hk. unfold conj_f. destruct (Z.eqb_spec k 0), (Z.ltb_spec k 1); try lia; reflexivity.
  - apply tab_ext. intros k Hk. destruct (Z.ltb_spec k N); [reflexivity|lia].
  - intros i Hi. unfold repP at 1. rewrite lget_tab by lia. cbn [bind].
    rewrite (pupd_tab N _ i _ (rep LOGQ (a (N - i)))); [|lia|].
    2: { destruct (Z.ltb_spec i i); [lia|]. apply zq_copy_rep; auto. apply Hd. lia. }
    cbn [bind]. rewrite (pupd_tab N _ i _ (rep LOGQ (- a (N - i)))); [|lia|].
    2: { rewrite Z.eqb_refl. apply zq_negate_rep. auto. }
    f_equal. apply tab_ext. intros k Hk. unfold conj_f.
    destruct (Z.eqb_spec k i), (Z.ltb_spec k i), (Z.ltb_spec k (i + 1)); try lia; subst; try reflexivity.
    destruct (Z.eqb_spec i 0); [lia|reflexivity].
Qed.
Lemma conj_int_ok N s (D : list cell) : 1 <= N -> (forall i, 0 <= i < N -> Z.abs (s i) < 2 ^ 31) -> length D = Z.to_nat N ->
  conj_int N (wtab N s) D = Ok (wtab N (conj_f N s)).
Proof.
  intros HN Hb HD. destruct (arr_tab None D N HD) as [d ->]. unfold conj_int. rewrite rd_wtab by lia. cbn [bind].
  rewrite wr_tab by lia. cbn [bind].
  rewrite (for_closed _ (fun i => tab N (fun k => if k <? i then Some (conj_f N s k) else d k)) _ _ _ (wtab N (conj_f N s))); auto.
  - apply tab_ext. intros k Hk. unfold conj_f. destruct (Z.eqb_spec k 0), (Z.ltb_spec k 1); try lia; reflexivity.
  - apply tab_ext. intros k Hk. destruct (Z.ltb_spec k N); [reflexivity|lia].
  - intros i Hi. rewrite rd_wtab by lia. cbn [bind]. rewrite int_ok by (rewrite Z.abs_opp; apply Hb; lia). cbn [bind].
    rewrite wr_tab by lia. f_equal. apply tab_ext. intros k Hk. unfold conj_f.
    destruct (Z.eqb_spec k i), (Z.ltb_spec k i), (Z.ltb_spec k (i + 1)); try lia; subst; try reflexivity.
    destruct (Z.eqb_spec i 0); [lia|reflexivity].
Qed.

(** ** Powers of 5 modulo powers of 2 *)
Lemma pow5_cong k : 1 <= k -> (5 ^ (2 ^ (k - 1)) - 1) mod 2 ^ (k + 1) = 0.
Proof.
  intros Hk. assert (H : forall m, 0 <= m -> exists z, 5 ^ (2 ^ m) = 1 + z * 2 ^ (m + 2)).
  { apply natlike_ind.
    - exists 1. reflexivity.
    - intros m Hm [z Hz]. exists (z + 2 * z * z * 2 ^ m).
      replace (2 ^ Z.succ m) with (2 ^ m * 2) by (rewrite Z.pow_succ_r by lia; lia). rewrite Z.pow_mul_r by (try apply Z.pow_nonneg; lia).
      rewrite Hz. unfold Z.succ. rewrite !(Z.pow_add_r 2) by lia. change (2 ^ 2) with 4. change (2 ^ 1) with 2. ring. }
  destruct (H (k - 1) ltac:(lia)) as [z Hz]. rewrite Hz. replace (1 + z * 2 ^ (k - 1 + 2) - 1) with (z * 2 ^ (k + 1)).
  - apply Z.mod_mul. pose proof (Z.pow_pos_nonneg 2 (k + 1)). lia.
  - replace (k - 1 + 2) with (k + 1) by lia. ring.
Qed.
Lemma pow5_unit k r : 0 <= k -> rel_prime ((5 ^ Z.max 0 r) mod (2 * 2 ^ k)) (2 * 2 ^ k).
Proof.
  intros Hk. assert (H2 : 2 * 2 ^ k = 2 ^ (k + 1)) by (rewrite Z.pow_add_r by lia; lia). rewrite H2.
  assert (Hp : 0 < 2 ^ (k + 1)) by (apply Z.pow_pos_nonneg; lia).
  apply rel_prime_mod; auto. apply rel_prime_Zpower; try lia.
  apply bezout_rel_prime. apply Bezout_intro with 1 (-2). reflexivity.
Qed.
