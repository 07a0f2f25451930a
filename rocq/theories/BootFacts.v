(** The tables of CoeffToSlot and SlotToCoeff and the products of their matrices, in exact arithmetic. *)
From Coq Require Import ZArith List Bool Lia Reals Lra Ring.
From Verif Require Import Base BaseFacts Util UtilFacts GSum Matrix MatrixFacts MatMulFacts DFT DFTTheory DFTFacts FFTFacts SpecMat Properties_Mat SpecDFT Properties_DFT SpecEnc SlotFacts
  Properties_Plain SpecLin LinTrans LinSlots GroupFacts GroupSlots Bootstrap.
Import ListNotations.
Open Scope Z_scope.
Add Ring RCbf : HR.

(** ** one stage *)
Section Stage.
Context (n M c : Z) (HM : 0 < M) (Hc : 0 < c) (Hn : n = 2 * M * c) (cs sn : Z -> R).
Context (Hu : forall i, (cs i * cs i + sn i * sn i = 1)%R).
Definition fA (t j : Z) : RC := mk Rops (VR M c cs t j) (VI M sn t j).
Definition bA (t j : Z) : RC := mk Rops (TR n M c cs t j) (TI n M sn t j).

Lemma mod_unit i : modulus (mk Rops (cs i) (sn i)) = 1%R.
Proof. unfold modulus, cre, cim. cbn. rewrite Hu. apply sqrt_1. Qed.
Lemma mod_unit' i : modulus (mk Rops (- cs i)%R (- sn i)%R) = 1%R.
Proof. unfold modulus, cre, cim. cbn. replace (- cs i * - cs i + - sn i * - sn i)%R with 1%R by (rewrite <- (Hu i); ring). apply sqrt_1. Qed.
Lemma mod_one : modulus (mk Rops 1%R 0%R) = 1%R.
Proof. unfold modulus, cre, cim. cbn. replace (1 * 1 + 0 * 0)%R with 1%R by ring. apply sqrt_1. Qed.
Lemma mod_zero : modulus (mk Rops 0%R 0%R) = 0%R.
Proof. apply modulus_0. Qed.

Lemma fA_val t p : 0 <= t < 3 -> modulus (fA t p) = (if p mod (2 * M) <? M then (if t =? 2 then 0 else 1) else (if t =? 0 then 1 else if t =? sH c then 1 else 0))%R.
Proof.
  intros Ht. unfold fA, VR, VI. assert (t = 0 \/ t = 1 \/ t = 2) as [->|[->| ->]] by lia; unfold sH; destruct (p mod (2 * M) <? M); destruct (c =? 1); cbn [Z.eqb Pos.eqb];
    auto using mod_unit, mod_unit', mod_one, mod_zero.
Qed.
Lemma fA_rows p : (gsum (K := Rops) 3 (fun t => modulus (fA t p)) <= 2)%R.
Proof.
  rewrite gsum3. rewrite !fA_val by lia. unfold sH. destruct (p mod (2 * M) <? M); destruct (c =? 1); cbn; lra.
Qed.
Lemma fA_entry t p : 0 <= t < 3 -> (modulus (fA t p) <= 1)%R.
Proof. intros Ht. rewrite fA_val by lia. destruct (_ <? _); [destruct (t =? 2)|destruct (t =? 0); [|destruct (t =? sH c)]]; lra. Qed.
Lemma fA_entries i j : 0 <= i < n -> 0 <= j < n -> (modulus (matrix_of n 3 fA (o3 n M) i j) <= 1)%R.
Proof.
  intros Hi Hj. apply (of_entries n ltac:(nia) 3 fA (o3 n M) (fun t => (t =? 2) && (c =? 1)) 1 i j); auto; [lra|intros t Ht; apply (o3_offs n M c); auto| | |intros; apply fA_entry; auto].
  - intros u t Hu0 Ht Zu Zt Eo. unfold o3 in Eo. assert (c = 1 \/ 2 <= c) as [->|Hc2] by lia.
    + assert (u = 0 \/ u = 1 \/ u = 2) as [->|[->| ->]] by lia; assert (t = 0 \/ t = 1 \/ t = 2) as [->|[->| ->]] by lia; cbn in *; try discriminate; lia.
    + assert (4 * M <= n) by nia. assert (u = 0 \/ u = 1 \/ u = 2) as [->|[->| ->]] by lia; assert (t = 0 \/ t = 1 \/ t = 2) as [->|[->| ->]] by lia; cbn [Z.eqb Pos.eqb andb] in Eo, Zu, Zt; try congruence; try discriminate; lia.
  - intros t p Ht Hp E. apply andb_true_iff in E. destruct E as [E1 E2]. apply Z.eqb_eq in E1, E2. subst t. unfold fA, VR, VI, sH. rewrite E2. cbn. destruct (_ <? _); reflexivity.
Qed.
Lemma fA_flags : flags_right (K := Rops) n 3 (fun t j => cre Rops (fA t j)) (fun t j => cim Rops (fA t j)) (o3 n M) (o3 n M) (zR c) zI.
Proof.
  intros t Ht. destruct (zR c t && zI t) eqn:E.
  - apply andb_true_iff in E. destruct E as [E _]. unfold zR in E. apply andb_true_iff in E. destruct E as [E1 E2]. apply Z.eqb_eq in E1. subst t.
    intros i Hi. unfold fA, VR, VI, cre, cim, sH. rewrite E2. cbn [mk fst snd Z.eqb Pos.eqb]. destruct (i mod (2 * M) <? M); split; reflexivity.
  - split; auto. apply (o3_offs n M c); auto.
Qed.
Lemma bA_idx t i : modulus (bA t i) = modulus (fA t (if o3 n M t >? 0 then (i - o3 n M t) mod n else i)).
Proof.
  unfold bA, fA, TR, TI, tr_vec. destruct (o3 n M t >? 0); [destruct (Z.eq_dec 0 0) as [_|]; [|lia]|]; unfold modulus, cre, cim; cbn; f_equal; ring.
Qed.
Lemma bA_rows i : 0 <= i < n -> (gsum (K := Rops) 3 (fun t => modulus (bA t i)) <= 2)%R.
Proof.
  intros Hi. assert (Hge : 2 * M <= n) by nia. rewrite gsum3. rewrite !bA_idx. unfold o3. cbn [Z.eqb Pos.eqb].
  destruct (Z.gtb_spec 0 0) as [G0|G0]; [lia|]. destruct (Z.gtb_spec M 0) as [G1|G1]; [|lia]. destruct (Z.gtb_spec (n - M) 0) as [G2|G2]; [|lia].
  rewrite !fA_val by lia. rewrite Hn. rewrite !mod_mod_mul by lia.
  replace ((i - (2 * M * c - M)) mod (2 * M)) with ((i + M) mod (2 * M)).
  2:{ replace (i - (2 * M * c - M)) with (i + M + (- c) * (2 * M)) by lia. rewrite Z.mod_add by lia. reflexivity. }
  pose proof (Z.mod_pos_bound i (2 * M) ltac:(lia)). unfold sH.
  destruct (Z.lt_ge_cases (i mod (2 * M)) M) as [H1|H1].
  - rewrite (blk_low M i HM H1). assert (E : (i - M) mod (2 * M) = i mod (2 * M) + M).
    { replace (i - M) with (i + M + (-1) * (2 * M)) by lia. rewrite Z.mod_add by lia. apply blk_low; auto. }
    rewrite E. destruct (Z.ltb_spec (i mod (2 * M)) M); [|lia]. destruct (Z.ltb_spec (i mod (2 * M) + M) M); [lia|].
    destruct (c =? 1); cbn; lra.
  - rewrite (blk_high M i HM H1). assert (E : (i + M) mod (2 * M) = i mod (2 * M) - M).
    { replace (i + M) with (i - M + 1 * (2 * M)) by lia. rewrite Z.mod_add by lia. apply blk_high; auto. }
    rewrite E. destruct (Z.ltb_spec (i mod (2 * M)) M); [lia|]. destruct (Z.ltb_spec (i mod (2 * M) - M) M); [|lia].
    destruct (c =? 1); cbn; lra.
Qed.
Lemma bA_flags k : flags_right (K := Rops) n 3 (fun t j => cre Rops (bA t j) * k)%R (fun t j => cim Rops (bA t j) * k)%R (tr_off n (o3 n M)) (tr_off n (o3 n M)) (zR c) zI.
Proof.
  intros t Ht. pose proof (fA_flags t Ht) as F. destruct (zR c t && zI t).
  - intros i Hi. assert (Hx : 0 <= (if o3 n M t >? 0 then (i - o3 n M t) mod n else i) < n) by (destruct (_ >? 0); [apply Z.mod_pos_bound; lia|auto]).
    specialize (F _ Hx). destruct F as [F1 F2]. unfold fA, cre, cim in F1, F2. cbn in F1, F2. unfold bA, TR, TI, tr_vec, cre, cim. cbn. destruct (o3 n M t >? 0); rewrite F1, F2; split; ring.
  - split; auto. apply (tr_offs n M c); auto.
Qed.
Lemma fA_apply (x : Z -> RC) p : 0 <= p < n -> apply n (matrix_of n 3 fA (o3 n M)) x p = stage M (fun i => mk Rops (cs i) (sn i)) x p.
Proof. intros Hp. exact (apply_stage n M c HM Hc Hn cs sn x p Hp). Qed.
Lemma bA_apply (x : Z -> RC) p : 0 <= p < n -> apply n (matrix_of n 3 bA (tr_off n (o3 n M))) x p = istage M (fun i => mk Rops (cs i) (sn i)) x p.
Proof. intros Hp. exact (apply_istage n M c HM Hc Hn cs sn x p Hp). Qed.
End Stage.

Lemma matrix_scale n S (A : Z -> Z -> CC) o k i j : matrix_of n S (fun t j => (k * A t j)%num) o i j = (k * matrix_of n S A o i j)%num.
Proof. unfold matrix_of. rewrite <- (gsum_scale HC). apply gsum_ext. intros t Ht. destruct (_ =? 0); ring. Qed.
Lemma apply_scale n (A : Z -> Z -> CC) k x i : apply n (fun i j => (k * A i j)%num) x i = (k * apply n A x i)%num.
Proof. unfold apply. rewrite <- (gsum_scale HC). apply gsum_ext. intros. ring. Qed.

Section LogN.
Context (LOGN : Z) (HL : 2 <= LOGN <= 27).
Let n := 2 ^ (LOGN - 1).
Let L := Z.to_nat (LOGN - 1).
Let e := eN (2 * n).
Let c := cts_factor LOGN.
Notation Md := (Md LOGN). Notation csd := (csd LOGN). Notation snd_ := (snd_ LOGN).

Definition ctsR d t j : R := (TR n (Md d) (2 ^ d) (csd d) t j * c)%R.
Definition ctsI d t j : R := (TI n (Md d) (snd_ d) t j * c)%R.
Definition cts_tabs : list (sd Rops) * list (sd Rops) :=
  (tab (LOGN - 1) (fun d => sdi (F := Rops) n 3 (ctsR d) (tr_off n (o3 n (Md d))) (zR (2 ^ d))),
   tab (LOGN - 1) (fun d => sdi (F := Rops) n 3 (ctsI d) (tr_off n (o3 n (Md d))) zI)).
Lemma cts_tables_ok : cts_tables LOGN = Ok cts_tabs.
Proof.
  unfold cts_tables. rewrite splitU0NR_ok by auto. unfold fwd_tables. cbn [bind]. pose proof (n_pos LOGN HL) as Hn. fold n in Hn |- *.
  rewrite (for_closed _ (fun k =>
    (tab (LOGN - 1) (fun d => if d <? k then sdi (F := Rops) n 3 (ctsR d) (tr_off n (o3 n (Md d))) (zR (2 ^ d))
        else sdi (F := Rops) n 3 (VR (Md d) (2 ^ d) (csd d)) (o3 n (Md d)) (zR (2 ^ d))),
     tab (LOGN - 1) (fun d => if d <? k then sdi (F := Rops) n 3 (ctsI d) (tr_off n (o3 n (Md d))) zI
        else sdi (F := Rops) n 3 (VI (Md d) (snd_ d)) (o3 n (Md d)) zI))) _ _ _ cts_tabs); auto; try lia.
  - f_equal; apply tab_ext; intros d Hd; destruct (Z.ltb_spec d 0); auto; lia.
  - unfold cts_tabs. f_equal; apply tab_ext; intros d Hd; destruct (Z.ltb_spec d (LOGN - 1)); auto; lia.
  - intros d Hd. pose proof (Md_pos LOGN d Hd) as HMp. pose proof (n_Md LOGN d Hd) as HnM. fold n in HnM. assert (0 < 2 ^ d) by (apply Z.pow_pos_nonneg; lia).
    assert (Ho : forall s, 0 <= s < 3 -> o3 n (Md d) s < n) by (intros s Hs; apply (o3_offs n (Md d) (2 ^ d)); auto).
    rewrite lget_tab by lia. cbn [bind]. destruct (Z.ltb_spec d d); [lia|].
    rewrite sd_transpose_ok by (auto; lia). cbn [bind]. rewrite lset_tab by lia. cbn [bind].
    rewrite lget_tab by lia. cbn [bind]. destruct (Z.ltb_spec d d); [lia|].
    rewrite sd_transpose_ok by (auto; lia). cbn [bind]. rewrite lset_tab by lia. cbn [bind].
    rewrite lget_tab by lia. cbn [bind]. rewrite Z.eqb_refl. rewrite sd_negate_ok by lia. cbn [bind]. rewrite lset_tab by lia. cbn [bind].
    rewrite lget_tab by lia. cbn [bind]. rewrite Z.eqb_refl. rewrite sd_scale_ok by lia. cbn [bind]. rewrite lset_tab by lia. cbn [bind].
    rewrite lget_tab by lia. cbn [bind]. rewrite !Z.eqb_refl. rewrite sd_scale_ok by lia. cbn [bind]. rewrite lset_tab by lia. cbn [bind]. apply f_equal.
    apply f_equal2; apply tab_ext; intros k Hk; destruct (Z.eqb_spec k d), (Z.ltb_spec k d), (Z.ltb_spec k (d + 1)); try lia; subst; auto.
Qed.

Definition rv (i : Z) := LOGN - 2 - i.
Definition stc_tabs : list (sd Rops) * list (sd Rops) * list (sd Rops) * list (sd Rops) :=
  (tab (LOGN - 1) (fun i => sdi (F := Rops) n 3 (VR (Md (rv i)) (2 ^ rv i) (csd (rv i))) (o3 n (Md (rv i))) (zR (2 ^ rv i))),
   tab (LOGN - 1) (fun i => sdi (F := Rops) n 3 (VI (Md (rv i)) (snd_ (rv i))) (o3 n (Md (rv i))) zI),
   tab (LOGN - 1) (fun i => if i =? 0 then sdi (F := Rops) n 3 (fun t j => - VI (Md (rv i)) (snd_ (rv i)) t j)%R (o3 n (Md (rv i))) zI
                            else sdi (F := Rops) n 3 (VR (Md (rv i)) (2 ^ rv i) (csd (rv i))) (o3 n (Md (rv i))) (zR (2 ^ rv i))),
   tab (LOGN - 1) (fun i => if i =? 0 then sdi (F := Rops) n 3 (VR (Md (rv i)) (2 ^ rv i) (csd (rv i))) (o3 n (Md (rv i))) (zR (2 ^ rv i))
                            else sdi (F := Rops) n 3 (VI (Md (rv i)) (snd_ (rv i))) (o3 n (Md (rv i))) zI)).

Lemma sd_new_sdt : sd_new Rops n 3 = sdt (F := Rops) n 3 (fun _ _ => None) (fun _ => None) (fun _ => None).
Proof. unfold sd_new, sdt, gfresh. rewrite !repeat_tab. reflexivity. Qed.
Lemma assign_new F (g : Z -> sd Rops) i j v o z : 0 <= i < LOGN - 1 -> 0 <= j < LOGN - 1 -> F i = sd_new Rops n 3 -> g j = sdi (F := Rops) n 3 v o z ->
  sd_assign n (tab (LOGN - 1) F) i (tab (LOGN - 1) g) j = Ok (tab (LOGN - 1) (fun k => if k =? i then sdi (F := Rops) n 3 v o z else F k)).
Proof.
  intros Hi Hj HF Hg. unfold sd_assign. rewrite !lget_tab by lia. cbn [bind]. rewrite HF, Hg. pose proof (n_pos LOGN HL) as Hn. fold n in Hn.
  rewrite (sd_copy_ok n 3 _ v o z _ _ _ ltac:(lia) ltac:(lia) sd_new_sdt). cbn [bind]. apply lset_tab. lia.
Qed.
Lemma stc_tables_ok : stc_tables LOGN = Ok stc_tabs.
Proof.
  unfold stc_tables. rewrite splitU0NR_ok by auto. unfold fwd_tables, new_tables. cbn [bind fst]. pose proof (n_pos LOGN HL) as Hn. fold n in Hn |- *. rewrite repeat_tab.
  set (vr := fun i => sdi (F := Rops) n 3 (VR (Md (rv i)) (2 ^ rv i) (csd (rv i))) (o3 n (Md (rv i))) (zR (2 ^ rv i))).
  set (vi := fun i => sdi (F := Rops) n 3 (VI (Md (rv i)) (snd_ (rv i))) (o3 n (Md (rv i))) zI).
  set (iv := fun i => sdi (F := Rops) n 3 (fun t j => - VI (Md (rv i)) (snd_ (rv i)) t j)%R (o3 n (Md (rv i))) zI).
  rewrite (for_closed _ (fun k => (tab (LOGN - 1) (fun d => if d <? k then vr d else sd_new Rops n 3), tab (LOGN - 1) (fun d => if d <? k then vi d else sd_new Rops n 3))) _ _ _ (tab (LOGN - 1) vr, tab (LOGN - 1) vi)); try lia.
  2:{ f_equal; apply tab_ext; intros d Hd; destruct (Z.ltb_spec d 0); auto; lia. }
  2:{ f_equal; apply tab_ext; intros d Hd; destruct (Z.ltb_spec d (LOGN - 1)); auto; lia. }
  2:{ intros d Hd. fold (rv d). assert (Hr : 0 <= rv d < LOGN - 1) by (unfold rv; lia).
    rewrite (assign_new (fun i => if i <? d then vr i else sd_new Rops n 3) _ d (rv d) (VR (Md (rv d)) (2 ^ rv d) (csd (rv d))) (o3 n (Md (rv d))) (zR (2 ^ rv d)) Hd Hr); [|destruct (Z.ltb_spec d d); [lia|auto]|reflexivity]. cbn [bind].
    rewrite (assign_new (fun i => if i <? d then vi i else sd_new Rops n 3) _ d (rv d) (VI (Md (rv d)) (snd_ (rv d))) (o3 n (Md (rv d))) zI Hd Hr); [|destruct (Z.ltb_spec d d); [lia|auto]|reflexivity]. cbn [bind]. apply f_equal.
    apply f_equal2; apply tab_ext; intros k Hk; destruct (Z.eqb_spec k d), (Z.ltb_spec k d), (Z.ltb_spec k (d + 1)); try lia; subst; auto. }
  cbn [bind].
  rewrite (for_closed _ (fun k => (tab (LOGN - 1) (fun d => if d <? k then (if d =? 0 then iv d else vr d) else sd_new Rops n 3), tab (LOGN - 1) (fun d => if d <? k then (if d =? 0 then vr d else vi d) else sd_new Rops n 3))) _ _ _
    (tab (LOGN - 1) (fun d => if d =? 0 then iv d else vr d), tab (LOGN - 1) (fun d => if d =? 0 then vr d else vi d))); try lia.
  - cbn [bind]. reflexivity.
  - f_equal; apply tab_ext; intros d Hd; destruct (Z.ltb_spec d 0); auto; lia.
  - f_equal; apply tab_ext; intros d Hd; destruct (Z.ltb_spec d (LOGN - 1)); auto; lia.
  - intros d Hd. fold (rv d). assert (Hr : 0 <= rv d < LOGN - 1) by (unfold rv; lia).
    set (F := fun i => if i <? d then (if i =? 0 then iv i else vr i) else sd_new Rops n 3). set (F' := fun i => if i <? d then (if i =? 0 then vr i else vi i) else sd_new Rops n 3).
    assert (HF : F d = sd_new Rops n 3) by (unfold F; destruct (Z.ltb_spec d d); [lia|auto]). assert (HF' : F' d = sd_new Rops n 3) by (unfold F'; destruct (Z.ltb_spec d d); [lia|auto]).
    destruct (Z.eqb_spec d 0) as [->|Hd0].
    + rewrite (assign_new F _ 0 (rv 0) (VI (Md (rv 0)) (snd_ (rv 0))) (o3 n (Md (rv 0))) zI Hd Hr HF); [|reflexivity]. cbn [bind].
      rewrite lget_tab by lia. cbn [bind]. rewrite Z.eqb_refl. rewrite sd_negate_ok by lia. cbn [bind]. rewrite lset_tab by lia. cbn [bind].
      rewrite (assign_new F' _ 0 (rv 0) (VR (Md (rv 0)) (2 ^ rv 0) (csd (rv 0))) (o3 n (Md (rv 0))) (zR (2 ^ rv 0)) Hd Hr HF'); [|reflexivity]. cbn [bind]. apply f_equal.
      apply f_equal2; apply tab_ext; intros k Hk; unfold F, F'; destruct (Z.eqb_spec k 0), (Z.ltb_spec k 0), (Z.ltb_spec k (0 + 1)); try lia; subst; auto.
    + rewrite (assign_new F _ d (rv d) (VR (Md (rv d)) (2 ^ rv d) (csd (rv d))) (o3 n (Md (rv d))) (zR (2 ^ rv d)) Hd Hr HF); [|reflexivity]. cbn [bind].
      rewrite (assign_new F' _ d (rv d) (VI (Md (rv d)) (snd_ (rv d))) (o3 n (Md (rv d))) zI Hd Hr HF'); [|reflexivity]. cbn [bind]. apply f_equal.
      apply f_equal2; apply tab_ext; intros k Hk; unfold F, F'; destruct (Z.eqb_spec k d), (Z.ltb_spec k d), (Z.ltb_spec k (d + 1)); try lia; subst; auto; destruct (Z.eqb_spec d 0); try lia; auto.
Qed.

Lemma cs_unit d i : (csd d i * csd d i + snd_ d i * snd_ d i = 1)%R.
Proof. unfold FFTFacts.csd, FFTFacts.snd_, cosN, sinN. set (x := (PI / _ * _)%R). pose proof (sin2_cos2 x) as H. unfold Rsqr in H. lra. Qed.
Lemma c_pos : (0 < c)%R.
Proof. unfold c, cts_factor, Rdiv. rewrite Rmult_1_l. apply Rinv_0_lt_compat. unfold Rpower. apply exp_pos. Qed.
Lemma c_pow : (c ^ L = / IZR (2 * n))%R.
Proof.
  pose proof (n_pos LOGN HL) as Hn. fold n in Hn. unfold c, cts_factor. rewrite (N_is LOGN HL). fold n. set (x := IZR (2 * n)). assert (Hx : (0 < x)%R) by (unfold x; apply IZR_lt; lia).
  unfold Rdiv. rewrite Rmult_1_l. rewrite pow_inv. f_equal. rewrite <- Rpower_pow by apply exp_pos. rewrite Rpower_mult.
  replace (1 * / IZR (LOGN - 1) * INR L)%R with 1%R; [apply Rpower_1; auto|]. rewrite INR_IZR_INZ. unfold L. rewrite Z2Nat.id by lia. field. apply IZR_neq. lia.
Qed.

Definition ctsA d t j : RC := mk Rops (ctsR d t j) (ctsI d t j).
Definition ctsM d := matrix_of n 3 (ctsA d) (tr_off n (o3 n (Md d))).
Definition stcA i t j : RC := mk Rops (VR (Md (rv i)) (2 ^ rv i) (csd (rv i)) t j) (VI (Md (rv i)) (snd_ (rv i)) t j).
Definition stcM i := matrix_of n 3 (stcA i) (o3 n (Md (rv i))).
Definition ii : RC := mk Rops 0%R 1%R.
Definition istcA i t j : RC := if i =? 0 then mk Rops (- VI (Md (rv i)) (snd_ (rv i)) t j)%R (VR (Md (rv i)) (2 ^ rv i) (csd (rv i)) t j) else stcA i t j.
Definition istcM i := matrix_of n 3 (istcA i) (o3 n (Md (rv i))).

Lemma ctsA_scale d t j : ctsA d t j = ((real c : RC) * bA n (Md d) (2 ^ d) (csd d) (snd_ d) t j)%num.
Proof. unfold ctsA, ctsR, ctsI, bA. apply RC_eq; cbn; ring. Qed.
Lemma cts_apply d x p : 0 <= d < LOGN - 1 -> 0 <= p < n -> apply n (ctsM d) x p = (real c * istage (Md d) (tw L e (Z.to_nat (LOGN - 2 - d))) x p)%num.
Proof.
  intros Hd Hp. pose proof (n_pos LOGN HL) as Hn. fold n in Hn.
  rewrite (apply_ext n (ctsM d) (fun i j => (real c * matrix_of n 3 (bA n (Md d) (2 ^ d) (csd d) (snd_ d)) (tr_off n (o3 n (Md d))) i j)%num) x x p Hp); auto.
  - rewrite apply_scale. rewrite bA_apply; auto; [|apply Md_pos; lia|apply Z.pow_pos_nonneg; lia|apply n_Md; auto]. f_equal. unfold istage. rewrite !(tw_d LOGN) by auto. reflexivity.
  - intros i j Hi Hj. unfold ctsM. rewrite <- matrix_scale. unfold matrix_of. apply gsum_ext. intros t Ht. rewrite ctsA_scale. reflexivity.
Qed.
Lemma stc_apply i x p : 0 <= i < LOGN - 1 -> 0 <= p < n -> apply n (stcM i) x p = stage (2 ^ i) (tw L e (Z.to_nat i)) x p.
Proof.
  intros Hi Hp. assert (Hr : 0 <= rv i < LOGN - 1) by (unfold rv; lia).
  transitivity (stage (Md (rv i)) (fun k => mk Rops (csd (rv i) k) (snd_ (rv i) k)) x p).
  - refine (fA_apply n (Md (rv i)) (2 ^ rv i) _ _ _ (csd (rv i)) (snd_ (rv i)) x p Hp); [apply Md_pos; lia|apply Z.pow_pos_nonneg; lia|apply n_Md; auto].
  - assert (EM : Md (rv i) = 2 ^ i) by (unfold FFTFacts.Md, rv; f_equal; lia). rewrite EM. unfold stage.
    replace (Z.to_nat i) with (Z.to_nat (LOGN - 2 - rv i)) by (unfold rv; lia). unfold L, e, n. rewrite !(tw_d LOGN) by auto. reflexivity.
Qed.
Lemma istc_scale i t j : istcA i t j = ((if i =? 0 then ii else 1%num) * stcA i t j)%num.
Proof. unfold istcA, stcA, ii. destruct (i =? 0); apply RC_eq; cbn; ring. Qed.
Lemma istc_apply i x p : 0 <= i < LOGN - 1 -> 0 <= p < n -> apply n (istcM i) x p = ((if i =? 0 then ii else 1) * stage (2 ^ i) (tw L e (Z.to_nat i)) x p)%num.
Proof.
  intros Hi Hp. rewrite <- stc_apply, <- apply_scale by auto. unfold apply. apply gsum_ext. intros j Hj. f_equal. unfold istcM, stcM. rewrite <- matrix_scale.
  unfold matrix_of. apply gsum_ext. intros t Ht. rewrite istc_scale. reflexivity.
Qed.

Lemma real_mul (x y : R) : (real (x * y)%R : RC) = (real x * real y)%num.
Proof. apply RC_eq; cbn; ring. Qed.
Lemma cts_chain k z j : (k <= L)%nat -> 0 <= j < n -> chain n (fun d => ctsM (Z.of_nat d)) k z j = (real (c ^ k)%R * hb LOGN k z j)%num.
Proof.
  revert j. induction k; intros j Hk Hj.
  - cbn [chain hb pow]. change (real 1) with (1%num : RC). ring.
  - cbn [chain hb pow]. rewrite (apply_ext n (ctsM (Z.of_nat k)) (ctsM (Z.of_nat k)) _ (fun p => (real (c ^ k)%R * hb LOGN k z p)%num) j Hj); auto; [|intros p Hp; apply IHk; auto; lia].
    rewrite cts_apply by (auto; unfold L in Hk; lia). rewrite istage_scale by exact Rlawful. rewrite real_mul.
    replace (Z.to_nat (LOGN - 2 - Z.of_nat k)) with (L - 1 - k)%nat by (unfold L; lia).
    replace (Md (Z.of_nat k)) with (2 ^ Z.of_nat (L - 1 - k)) by (unfold FFTFacts.Md, L; f_equal; unfold L in Hk; lia). fold n L e. ring.
Qed.
Lemma cts_full z j : 0 <= j < n -> chain n (fun d => ctsM (Z.of_nat d)) L z j = (real (/ IZR (2 * n))%R * bwd L e L z j)%num.
Proof.
  intros Hj. rewrite cts_chain, c_pow by auto. f_equal. pose proof (hb_bwd LOGN HL L z (Nat.le_refl _)) as E. fold n L e in E. rewrite <- E. rewrite Nat.sub_diag. reflexivity.
Qed.
Lemma stc_full k z j : (k <= L)%nat -> 0 <= j < n -> chain n (fun d => stcM (Z.of_nat d)) k z j = fwd L e k z j.
Proof.
  revert j. induction k; intros j Hk Hj; [reflexivity|]. cbn [chain fwd].
  rewrite (apply_ext n (stcM (Z.of_nat k)) (stcM (Z.of_nat k)) _ (fwd L e k z) j Hj); auto; [|intros p Hp; apply IHk; auto; lia].
  rewrite stc_apply by (auto; unfold L in Hk; lia). rewrite Nat2Z.id. reflexivity.
Qed.
Lemma istc_full k z j : (k <= L)%nat -> 0 <= j < n -> chain n (fun d => istcM (Z.of_nat d)) k z j = ((if (k =? 0)%nat then 1 else ii) * fwd L e k z j)%num.
Proof.
  revert j. induction k; intros j Hk Hj; [cbn [chain fwd Nat.eqb]; ring|]. cbn [chain fwd Nat.eqb].
  rewrite (apply_ext n (istcM (Z.of_nat k)) (istcM (Z.of_nat k)) _ (fun p => ((if (k =? 0)%nat then 1 else ii) * fwd L e k z p)%num) j Hj); auto; [|intros p Hp; apply IHk; auto; lia].
  rewrite istc_apply by (auto; unfold L in Hk; lia). rewrite stage_scale by exact Rlawful. rewrite Nat2Z.id.
  destruct k; [cbn [Nat.eqb Z.of_nat Z.eqb]; ring|]. cbn [Nat.eqb]. destruct (Z.eqb_spec (Z.of_nat (S k)) 0); [lia|]. ring.
Qed.

Lemma good_tab D fr fi M a b : (forall t, 0 <= t < D -> mrep n 3 (fr t, fi t) (M t) (a t) (b t)) -> good n 3 D D (tab D fr) (tab D fi) M a b.
Proof. intros H. exists fr, fi. split; [auto|]. split; [auto|]. intros t Ht. destruct (Z.ltb_spec t D); [auto|lia]. Qed.
Lemma cts_good : good n 3 (LOGN - 1) (LOGN - 1) (fst cts_tabs) (snd cts_tabs) ctsM (fun _ => 2 * c)%R (fun _ => 2 * c)%R.
Proof.
  pose proof c_pos as Hc. apply good_tab. intros d Hd. pose proof (Md_pos LOGN d Hd) as HM. pose proof (n_Md LOGN d Hd) as HnM. fold n in HnM. assert (Hp : 0 < 2 ^ d) by (apply Z.pow_pos_nonneg; lia).
  pose proof (n_pos LOGN HL) as Hn. fold n in Hn. assert (Hn30 : n <= 2 ^ 30) by (apply Z.pow_le_mono_r; lia).
  rewrite <- !diagonals_sdi. apply (mrep_rows n ltac:(lia) 3 (ctsA d)); [lia|exact (bA_flags n (Md d) (2 ^ d) HM Hp HnM (csd d) (snd_ d) c)|]. intros i Hi.
  rewrite (gsum_ext (K := Rops) 3 _ (fun t => c * modulus (bA n (Md d) (2 ^ d) (csd d) (snd_ d) t i) + 0)%R).
  2:{ intros t Ht. rewrite ctsA_scale, modulus_mul, modulus_real, Rabs_right by lra. rewrite Rplus_0_r. reflexivity. }
  rewrite rsum_lin by lia. pose proof (bA_rows n (Md d) (2 ^ d) HM Hp HnM (csd d) (snd_ d) (cs_unit d) i Hi) as B. nra.
Qed.
Lemma stc_good : good n 3 (LOGN - 1) (LOGN - 1) (fst (fst (fst stc_tabs))) (snd (fst (fst stc_tabs))) stcM (fun _ => 2)%R (fun _ => 1)%R.
Proof.
  apply good_tab. intros d Hd. assert (Hr : 0 <= rv d < LOGN - 1) by (unfold rv; lia). pose proof (Md_pos LOGN _ Hr) as HM. pose proof (n_Md LOGN _ Hr) as HnM. fold n in HnM. assert (Hp : 0 < 2 ^ rv d) by (apply Z.pow_pos_nonneg; lia).
  exists (stcA d), (o3 n (Md (rv d))), (zR (2 ^ rv d)), zI. rewrite !diagonals_sdi. split; [reflexivity|]. split; [exact (fA_flags n (Md (rv d)) (2 ^ rv d) HM Hp HnM (csd (rv d)) (snd_ (rv d)))|].
  split; [reflexivity|]. split; [intros i Hi; exact (fA_rows (Md (rv d)) (2 ^ rv d) (csd (rv d)) (snd_ (rv d)) (cs_unit (rv d)) i)|]. split; [lra|]. split.
  - intros t i Ht Hi. exact (fA_entry (Md (rv d)) (2 ^ rv d) (csd (rv d)) (snd_ (rv d)) (cs_unit (rv d)) t i Ht).
  - intros i j Hi Hj. exact (fA_entries n (Md (rv d)) (2 ^ rv d) HM Hp HnM (csd (rv d)) (snd_ (rv d)) (cs_unit (rv d)) i j Hi Hj).
Qed.
Lemma istc_good : good n 3 (LOGN - 1) (LOGN - 1) (snd (fst stc_tabs)) (snd stc_tabs) istcM (fun _ => 2)%R (fun _ => 1)%R.
Proof.
  apply good_tab. intros d Hd. assert (Hr : 0 <= rv d < LOGN - 1) by (unfold rv; lia). pose proof (Md_pos LOGN _ Hr) as HM. pose proof (n_Md LOGN _ Hr) as HnM. fold n in HnM. assert (Hp : 0 < 2 ^ rv d) by (apply Z.pow_pos_nonneg; lia).
  pose proof (fA_flags n (Md (rv d)) (2 ^ rv d) HM Hp HnM (csd (rv d)) (snd_ (rv d))) as F.
  exists (istcA d), (o3 n (Md (rv d))), (if d =? 0 then zI else zR (2 ^ rv d)), (if d =? 0 then zR (2 ^ rv d) else zI). rewrite !diagonals_sdi. assert (Hu : modulus (if d =? 0 then ii else 1%num) = 1%R).
  { destruct (d =? 0); [|apply mod_one]. unfold ii, modulus, cre, cim. cbn. replace (0 * 0 + 1 * 1)%R with 1%R by ring. apply sqrt_1. }
  split; [|split; [|split; [reflexivity|split; [|split; [lra|split]]]]].
  - unfold istcA. destruct (d =? 0); reflexivity.
  - unfold istcA. destruct (d =? 0); [|exact F]. intros t Ht. specialize (F t Ht). rewrite andb_comm. destruct (zR (2 ^ rv d) t && zI t); [|exact F].
    intros j Hj. destruct (F j Hj) as [F1 F2]. unfold fA, cre, cim in F1, F2. cbn in F1, F2. unfold cre, cim. cbn. rewrite F1, F2. split; ring.
  - intros i Hi. eapply Rle_trans; [|exact (fA_rows (Md (rv d)) (2 ^ rv d) (csd (rv d)) (snd_ (rv d)) (cs_unit (rv d)) i)]. apply Req_le.
    apply (gsum_ext (K := Rops)). intros t Ht. rewrite istc_scale, modulus_mul. unfold fA, stcA.
    rewrite Hu, Rmult_1_l. reflexivity.
  - intros t i Ht Hi. rewrite istc_scale, modulus_mul, Hu, Rmult_1_l. exact (fA_entry (Md (rv d)) (2 ^ rv d) (csd (rv d)) (snd_ (rv d)) (cs_unit (rv d)) t i Ht).
  - intros i j Hi Hj. unfold istcM. replace (matrix_of n 3 (istcA d) (o3 n (Md (rv d))) i j) with ((if d =? 0 then ii else 1%num) * stcM d i j)%num.
    + rewrite modulus_mul, Hu, Rmult_1_l. exact (fA_entries n (Md (rv d)) (2 ^ rv d) HM Hp HnM (csd (rv d)) (snd_ (rv d)) (cs_unit (rv d)) i j Hi Hj).
    + unfold stcM. rewrite <- matrix_scale. unfold matrix_of. apply gsum_ext. intros t Ht. rewrite istc_scale. reflexivity.
Qed.

(** ** the transforms of the slots of [m] *)
Lemma fwd_add k (x y : Z -> RC) p : fwd L e k (fun p => x p + y p)%num p = (fwd L e k x p + fwd L e k y p)%num.
Proof.
  revert p. induction k; intros p; cbn [fwd]; [reflexivity|]. rewrite (stage_ext _ _ _ _ p IHk). unfold stage. destruct (_ <? _); ring.
Qed.
Lemma fwd_slots (x : Z -> RC) (m : Z -> R) j : (forall p, 0 <= p < n -> x p = fold_c LOGN m (brv L p)) -> 0 <= j < n -> fwd L e L x j = slot (2 ^ LOGN) m j.
Proof.
  intros Hx Hj. pose proof (fwd_bound LOGN HL L x (fun p => fold_c LOGN m (brv L p)) j (Nat.le_refl _)) as FB. fold n L e in FB. rewrite FB by auto. rewrite (fold_slot LOGN HL) by lia.
  assert (EL : 2 ^ Z.of_nat L = n) by (unfold L, n; f_equal; lia).
  pose proof (fwd_full Rlawful L e (eN_0 (2 * n)) (eN_add (2 * n)) (e_N LOGN HL) (fold_c LOGN m) j) as F. rewrite EL in F. exact (F Hj).
Qed.
Lemma bwd_slots (z : Z -> RC) (m : Z -> R) j : (forall p, 0 <= p < n -> z p = slot (2 ^ LOGN) m p) -> 0 <= j < n -> bwd L e L z j = (real (IZR n) * fold_c LOGN m (brv L j))%num.
Proof.
  intros Hz Hj. assert (EL : 2 ^ Z.of_nat L = n) by (unfold L, n; f_equal; lia).
  pose proof (brv_range L j) as Hr. rewrite EL in Hr.
  pose proof (bwd_full Rlawful L e (eN_0 (2 * n)) (eN_add (2 * n)) (e_N LOGN HL) z (brv L j)) as B. rewrite EL in B. specialize (B Hr).
  rewrite brv_involutive in B by (rewrite EL; auto). rewrite B.
  pose proof (inv1 LOGN HL (fold_c LOGN m) (brv L j) Hr) as I1. fold n in I1. fold e in I1.
  transitivity (mk Rops (IZR n * fst (fold_c LOGN m (brv L j)))%R (IZR n * snd (fold_c LOGN m (brv L j)))%R).
  - rewrite <- I1. apply gsum_ext. intros k Hk. f_equal. rewrite Hz by auto. apply (fold_slot LOGN HL). lia.
  - apply RC_eq; cbn; ring.
Qed.

Theorem cts_exact (m : Z -> R) j : 0 <= j < n -> chain n (fun d => ctsM (Z.of_nat d)) L (slot (2 ^ LOGN) m) j = mk Rops (m (brv L j) / 2)%R (m (brv L j + n)%Z / 2)%R.
Proof.
  intros Hj. rewrite cts_full by auto. rewrite (bwd_slots _ m j) by auto. pose proof (n_pos LOGN HL) as Hn. fold n in Hn. assert (IZR n <> 0)%R by (apply IZR_neq; lia).
  unfold fold_c. fold n. rewrite mult_IZR. apply RC_eq; cbn; field; auto.
Qed.
Theorem stc_exact (m : Z -> R) (y0 y1 : Z -> RC) j : (forall p, 0 <= p < n -> m (brv L p) = (fst (y0 p) - snd (y1 p))%R) -> (forall p, 0 <= p < n -> m (brv L p + n) = (snd (y0 p) + fst (y1 p))%R) -> 0 <= j < n ->
  (chain n (fun d => stcM (Z.of_nat d)) L y0 j + chain n (fun d => istcM (Z.of_nat d)) L y1 j)%num = slot (2 ^ LOGN) m j.
Proof.
  intros H0 H1 Hj. rewrite stc_full, istc_full by auto. assert (EL : (L =? 0)%nat = false) by (apply Nat.eqb_neq; unfold L; lia). rewrite EL.
  rewrite <- (fwd_slots (fun p => y0 p + ii * y1 p)%num m j); auto.
  - rewrite fwd_add. rewrite fwd_scale by exact Rlawful. reflexivity.
  - intros p Hp. unfold fold_c. fold n. rewrite H0, H1 by auto. apply RC_eq; cbn; ring.
Qed.
End LogN.
