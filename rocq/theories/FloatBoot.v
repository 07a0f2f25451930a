(** The tables of CoeffToSlot and SlotToCoeff in floating-point arithmetic. *)
From Coq Require Import ZArith List Bool Lia Reals Lra Ring.
From Verif Require Import Base BaseFacts Util UtilFacts GSum Matrix MatrixFacts MatMulFacts DFT DFTTheory DFTFacts FFTFacts SpecMat Properties_Mat SpecDFT Properties_DFT SpecEnc SlotFacts
  Properties_Plain SpecLin LinTrans LinSlots GroupFacts GroupSlots Bootstrap BootFacts SpecBoot BootSlots.
From Verif Require Import Float SpecFloat FloatFacts FloatError FloatStage FloatNum Properties_Float.
From Verif Require Import SpecFloatLin SpecFloatBoot FloatLin FloatMM FloatGroup.
Import ListNotations.
Open Scope Z_scope.
Add Ring RCfbt : HR.

(** ** closed forms *)
Section Tables.
Context (F : fpu) (lpow : R -> R -> R) (LOGN : Z) (HL : 2 <= LOGN <= 27).
Let n := 2 ^ (LOGN - 1).
Let fc := f_cts_factor F lpow LOGN.
Notation Md := (Md LOGN). Notation fcs := (fcs F LOGN). Notation fsn := (fsn F LOGN). Notation rv := (rv LOGN).

Definition f_ctsR d t j : R := rnd F (TR n (Md d) (2 ^ d) (fcs d) t j * fc).
Definition f_ctsI d t j : R := rnd F (TI n (Md d) (fsn d) t j * fc).
Definition f_cts_tabs : list (sd Rops) * list (sd Rops) :=
  (tab (LOGN - 1) (fun d => sdi (F := Rops) n 3 (f_ctsR d) (tr_off n (o3 n (Md d))) (zR (2 ^ d))),
   tab (LOGN - 1) (fun d => sdi (F := Rops) n 3 (f_ctsI d) (tr_off n (o3 n (Md d))) zI)).
Lemma f_sd_scale_ok S v o z a : 0 <= S -> sd_scale (K := Fops F) n S (sdi (F := Rops) n S v o z) a = Ok (sdi (F := Rops) n S (fun s i => rnd F (v s i * a)) o z).
Proof. intros HS. pose proof (n_pos LOGN HL) as Hn. fold n in Hn. exact (sd_scale_ok (K := Fops F) n S v o z a ltac:(lia) HS). Qed.
Lemma f_cts_tables_ok : f_cts_tables F lpow LOGN = Ok f_cts_tabs.
Proof.
  unfold f_cts_tables. rewrite f_splitU0NR_ok by auto. unfold f_fwd_tables. cbn [bind]. pose proof (n_pos LOGN HL) as Hn. fold n in Hn |- *. fold fc.
  change (@sd_transpose (Fops F)) with (@sd_transpose Rops). change (@sd_negate (Fops F)) with (@sd_negate Rops). change (car (Fops F)) with R.
  rewrite (for_closed _ (fun k =>
    (tab (LOGN - 1) (fun d => if d <? k then sdi (F := Rops) n 3 (f_ctsR d) (tr_off n (o3 n (Md d))) (zR (2 ^ d))
        else sdi (F := Rops) n 3 (VR (Md d) (2 ^ d) (fcs d)) (o3 n (Md d)) (zR (2 ^ d))),
     tab (LOGN - 1) (fun d => if d <? k then sdi (F := Rops) n 3 (f_ctsI d) (tr_off n (o3 n (Md d))) zI
        else sdi (F := Rops) n 3 (VI (Md d) (fsn d)) (o3 n (Md d)) zI))) _ _ _ f_cts_tabs); auto; try lia.
  - apply f_equal2; apply tab_ext; intros d Hd; destruct (Z.ltb_spec d 0); auto; lia.
  - unfold f_cts_tabs. apply f_equal2; apply tab_ext; intros d Hd; destruct (Z.ltb_spec d (LOGN - 1)); auto; lia.
  - intros d Hd. pose proof (Md_pos LOGN d Hd) as HMp. pose proof (n_Md LOGN d Hd) as HnM. fold n in HnM. assert (0 < 2 ^ d) by (apply Z.pow_pos_nonneg; lia).
    assert (Ho : forall s, 0 <= s < 3 -> o3 n (Md d) s < n) by (intros s Hs; apply (o3_offs n (Md d) (2 ^ d)); auto).
    rewrite lget_tab by lia. cbn [bind]. destruct (Z.ltb_spec d d); [lia|].
    rewrite sd_transpose_ok by (auto; lia). cbn [bind]. rewrite lset_tab by lia. cbn [bind].
    rewrite lget_tab by lia. cbn [bind]. destruct (Z.ltb_spec d d); [lia|].
    rewrite sd_transpose_ok by (auto; lia). cbn [bind]. rewrite lset_tab by lia. cbn [bind].
    rewrite lget_tab by lia. cbn [bind]. rewrite Z.eqb_refl. rewrite sd_negate_ok by lia. cbn [bind]. rewrite lset_tab by lia. cbn [bind].
    rewrite lget_tab by lia. cbn [bind]. rewrite Z.eqb_refl. rewrite f_sd_scale_ok by lia. cbn [bind]. rewrite lset_tab by lia. cbn [bind].
    rewrite lget_tab by lia. cbn [bind]. rewrite !Z.eqb_refl. rewrite f_sd_scale_ok by lia. cbn [bind]. rewrite lset_tab by lia. cbn [bind]. apply f_equal.
    apply f_equal2; apply tab_ext; intros k Hk; destruct (Z.eqb_spec k d), (Z.ltb_spec k d), (Z.ltb_spec k (d + 1)); try lia; subst; auto.
Qed.

Definition f_stc_tabs : list (sd Rops) * list (sd Rops) * list (sd Rops) * list (sd Rops) :=
  (tab (LOGN - 1) (fun i => sdi (F := Rops) n 3 (VR (Md (rv i)) (2 ^ rv i) (fcs (rv i))) (o3 n (Md (rv i))) (zR (2 ^ rv i))),
   tab (LOGN - 1) (fun i => sdi (F := Rops) n 3 (VI (Md (rv i)) (fsn (rv i))) (o3 n (Md (rv i))) zI),
   tab (LOGN - 1) (fun i => if i =? 0 then sdi (F := Rops) n 3 (fun t j => - VI (Md (rv i)) (fsn (rv i)) t j)%R (o3 n (Md (rv i))) zI
                            else sdi (F := Rops) n 3 (VR (Md (rv i)) (2 ^ rv i) (fcs (rv i))) (o3 n (Md (rv i))) (zR (2 ^ rv i))),
   tab (LOGN - 1) (fun i => if i =? 0 then sdi (F := Rops) n 3 (VR (Md (rv i)) (2 ^ rv i) (fcs (rv i))) (o3 n (Md (rv i))) (zR (2 ^ rv i))
                            else sdi (F := Rops) n 3 (VI (Md (rv i)) (fsn (rv i))) (o3 n (Md (rv i))) zI)).
Lemma f_stc_tables_ok : f_stc_tables F LOGN = Ok f_stc_tabs.
Proof.
  unfold f_stc_tables. rewrite f_splitU0NR_ok by auto. unfold f_fwd_tables, new_tables. cbn [bind fst]. pose proof (n_pos LOGN HL) as Hn. fold n in Hn |- *. rewrite repeat_tab.
  change (@sd_negate (Fops F)) with (@sd_negate Rops). change (car (Fops F)) with R.
  set (vr := fun i => sdi (F := Rops) n 3 (VR (Md (rv i)) (2 ^ rv i) (fcs (rv i))) (o3 n (Md (rv i))) (zR (2 ^ rv i))).
  set (vi := fun i => sdi (F := Rops) n 3 (VI (Md (rv i)) (fsn (rv i))) (o3 n (Md (rv i))) zI).
  set (iv := fun i => sdi (F := Rops) n 3 (fun t j => - VI (Md (rv i)) (fsn (rv i)) t j)%R (o3 n (Md (rv i))) zI).
  rewrite (for_closed _ (fun k => (tab (LOGN - 1) (fun d => if d <? k then vr d else sd_new Rops n 3), tab (LOGN - 1) (fun d => if d <? k then vi d else sd_new Rops n 3))) _ _ _ (tab (LOGN - 1) vr, tab (LOGN - 1) vi)); try lia.
  2:{ apply f_equal2; apply tab_ext; intros d Hd; destruct (Z.ltb_spec d 0); auto; lia. }
  2:{ apply f_equal2; apply tab_ext; intros d Hd; destruct (Z.ltb_spec d (LOGN - 1)); auto; lia. }
  2:{ intros d Hd. fold (rv d). assert (Hr : 0 <= rv d < LOGN - 1) by (unfold rv; lia).
    rewrite (assign_new LOGN HL (fun i => if i <? d then vr i else sd_new Rops n 3) _ d (rv d) (VR (Md (rv d)) (2 ^ rv d) (fcs (rv d))) (o3 n (Md (rv d))) (zR (2 ^ rv d)) Hd Hr); [|destruct (Z.ltb_spec d d); [lia|auto]|reflexivity]. cbn [bind].
    rewrite (assign_new LOGN HL (fun i => if i <? d then vi i else sd_new Rops n 3) _ d (rv d) (VI (Md (rv d)) (fsn (rv d))) (o3 n (Md (rv d))) zI Hd Hr); [|destruct (Z.ltb_spec d d); [lia|auto]|reflexivity]. cbn [bind]. apply f_equal.
    apply f_equal2; apply tab_ext; intros k Hk; destruct (Z.eqb_spec k d), (Z.ltb_spec k d), (Z.ltb_spec k (d + 1)); try lia; subst; auto. }
  cbn [bind].
  rewrite (for_closed _ (fun k => (tab (LOGN - 1) (fun d => if d <? k then (if d =? 0 then iv d else vr d) else sd_new Rops n 3), tab (LOGN - 1) (fun d => if d <? k then (if d =? 0 then vr d else vi d) else sd_new Rops n 3))) _ _ _
    (tab (LOGN - 1) (fun d => if d =? 0 then iv d else vr d), tab (LOGN - 1) (fun d => if d =? 0 then vr d else vi d))); try lia.
  - cbn [bind]. reflexivity.
  - apply f_equal2; apply tab_ext; intros d Hd; destruct (Z.ltb_spec d 0); auto; lia.
  - apply f_equal2; apply tab_ext; intros d Hd; destruct (Z.ltb_spec d (LOGN - 1)); auto; lia.
  - intros d Hd. fold (rv d). assert (Hr : 0 <= rv d < LOGN - 1) by (unfold rv; lia).
    set (H := fun i => if i <? d then (if i =? 0 then iv i else vr i) else sd_new Rops n 3). set (H' := fun i => if i <? d then (if i =? 0 then vr i else vi i) else sd_new Rops n 3).
    assert (HF : H d = sd_new Rops n 3) by (unfold H; destruct (Z.ltb_spec d d); [lia|auto]). assert (HF' : H' d = sd_new Rops n 3) by (unfold H'; destruct (Z.ltb_spec d d); [lia|auto]).
    destruct (Z.eqb_spec d 0) as [->|Hd0].
    + rewrite (assign_new LOGN HL H _ 0 (rv 0) (VI (Md (rv 0)) (fsn (rv 0))) (o3 n (Md (rv 0))) zI Hd Hr HF); [|reflexivity]. cbn [bind].
      rewrite lget_tab by lia. cbn [bind]. rewrite Z.eqb_refl. rewrite sd_negate_ok by lia. cbn [bind]. rewrite lset_tab by lia. cbn [bind].
      rewrite (assign_new LOGN HL H' _ 0 (rv 0) (VR (Md (rv 0)) (2 ^ rv 0) (fcs (rv 0))) (o3 n (Md (rv 0))) (zR (2 ^ rv 0)) Hd Hr HF'); [|reflexivity]. cbn [bind]. apply f_equal.
      apply f_equal2; apply tab_ext; intros k Hk; unfold H, H'; destruct (Z.eqb_spec k 0), (Z.ltb_spec k 0), (Z.ltb_spec k (0 + 1)); try lia; subst; auto.
    + rewrite (assign_new LOGN HL H _ d (rv d) (VR (Md (rv d)) (2 ^ rv d) (fcs (rv d))) (o3 n (Md (rv d))) (zR (2 ^ rv d)) Hd Hr HF); [|reflexivity]. cbn [bind].
      rewrite (assign_new LOGN HL H' _ d (rv d) (VI (Md (rv d)) (fsn (rv d))) (o3 n (Md (rv d))) zI Hd Hr HF'); [|reflexivity]. cbn [bind]. apply f_equal.
      apply f_equal2; apply tab_ext; intros k Hk; unfold H, H'; destruct (Z.eqb_spec k d), (Z.ltb_spec k d), (Z.ltb_spec k (d + 1)); try lia; subst; auto; destruct (Z.eqb_spec d 0); try lia; auto.
Qed.
End Tables.

(** ** diagonals close to exact ones *)
Lemma frep_near n S (A A' : Z -> Z -> CC) o zr zi M a b r : 0 < n <= 2 ^ 30 -> 0 <= S ->
  flags_right (K := Rops) n S (fun t j => cre Rops (A' t j)) (fun t j => cim Rops (A' t j)) o o zr zi ->
  (forall i j, 0 <= i < n -> 0 <= j < n -> matrix_of n S A o i j = M i j) ->
  (forall i, 0 <= i < n -> (gsum (K := Rops) S (fun t => modulus (A t i)) <= a)%R) -> (0 <= b <= a)%R -> (forall t i, 0 <= t < S -> 0 <= i < n -> (modulus (A t i) <= b)%R) ->
  (forall i j, 0 <= i < n -> 0 <= j < n -> (modulus (M i j) <= b)%R) ->
  (forall i, 0 <= i < n -> (gsum (K := Rops) S (fun t => modulus (A' t i - A t i)%num) <= r)%R) ->
  frep n S (diagonals n S (fun t j => cre Rops (A' t j)) o zr, diagonals n S (fun t j => cim Rops (A' t j)) o zi) M a b r.
Proof.
  intros Hn HS Hf HM Ha Hb He Hm Hr.
  assert (Hd : rows n (fun i j => matrix_of n S A' o i j - M i j)%num r).
  { apply (rows_ext n (matrix_of n S (fun t j => A' t j - A t j)%num o)); [|apply rows_of; auto; lia].
    intros i j Hi Hj. rewrite <- matrix_of_sub, HM by auto. reflexivity. }
  assert (Hone : forall t i, 0 <= t < S -> 0 <= i < n -> (modulus (A' t i - A t i)%num <= r)%R).
  { intros t i Ht Hi. eapply Rle_trans; [|apply (Hr i Hi)]. exact (gsum_member_mod S (fun t => (A' t i - A t i)%num) t Ht). }
  assert (Hadd : forall x y : CC, (modulus x <= modulus y + modulus (x - y)%num)%R) by (intros x y; replace x with (y + (x - y))%num at 1 by ring; apply modulus_add).
  exists A', o, zr, zi. split; [reflexivity|]. split; [exact Hf|]. split; [exact Hd|]. split; [|split; [|split; [exact Hb|split]]].
  - apply (rows_ext n (matrix_of n S A o)); [auto|]. apply rows_of; auto. lia.
  - intros i Hi. eapply Rle_trans; [apply (rsum_le S _ (fun t => modulus (A t i) + modulus (A' t i - A t i)%num)%R); auto|].
    pose proof (gsum_add Rlawful S (fun t => modulus (A t i)) (fun t => modulus (A' t i - A t i)%num)) as E. cbn [oadd Rops] in E. change (car Rops) with R in *. rewrite E. apply Rplus_le_compat; auto.
  - intros t i Ht Hi. eapply Rle_trans; [apply (Hadd _ (A t i))|]. apply Rplus_le_compat; auto.
  - intros i j Hi Hj. eapply Rle_trans; [apply (Hadd _ (M i j))|]. apply Rplus_le_compat; auto.
    eapply Rle_trans; [|apply (Hd i Hi)]. exact (gsum_member_mod n (fun j => (matrix_of n S A' o i j - M i j)%num) j Hj).
Qed.

(** ** errors of the entries *)
Section Errors.
Open Scope R_scope.
Context (F : fpu) (u eta top t : R) (ar : arithmetic u eta top t (rnd F) (dpi F) (lcos F) (lsin F)).
Context (lpow : R -> R -> R) (p : R) (Hp : power_within p lpow) (LOGN : Z) (HL : (2 <= LOGN <= 27)%Z).
Let n := (2 ^ (LOGN - 1))%Z.
Let c := cts_factor LOGN.
Let fc := f_cts_factor F lpow LOGN.
Let T := table_error u eta t (2 ^ LOGN).
Let Ph := factor_error u eta p LOGN.

Lemma exp_near x d : Rabs x <= d -> d <= / 2 -> Rabs (exp x - 1) <= 2 * d.
Proof.
  intros H Hd. apply abs_le in H. pose proof (exp_ineq1_le x) as H1. pose proof (exp_ineq1_le (- x)) as H2. rewrite exp_Ropp in H2. pose proof (exp_pos x) as H3.
  assert (H4 : exp x * (1 - x) <= 1).
  { apply (Rmult_le_compat_l (exp x)) in H2; [|lra]. rewrite Rinv_r in H2 by lra. lra. }
  apply Rabs_le. split; [lra|]. nra.
Qed.
Lemma c_le : c <= / 2.
Proof.
  assert (E : 2 * c = Rpower 2 (- / IZR (LOGN - 1))).
  { pose proof (cts_row LOGN 1 (Z.to_nat (LOGN - 1)) HL ltac:(lia)) as E. rewrite pow_1 in E. unfold c. rewrite E. rewrite INR_IZR_INZ, Z2Nat.id by lia. reflexivity. }
  pose proof (cts_row_le (Z.to_nat (LOGN - 1)) ltac:(lia)) as B. rewrite INR_IZR_INZ, Z2Nat.id in B by lia. lra.
Qed.
Lemma c_0 : 0 < c.  Proof. apply c_pos. Qed.

Lemma factor_close : (LOGN <= 17)%Z -> Rabs (fc - c) <= Ph.
Proof.
  intros HL17. destruct ar as [Hu He _ Ht Hrd _ _ _ _]. destruct Hp as [Hp0 Hpw]. pose proof c_le as Hc2. pose proof c_0 as Hc0.
  set (l := IZR (LOGN - 1)). assert (Hl : 1 <= l) by (unfold l; apply IZR_le; lia). assert (Hll : IZR LOGN = l + 1) by (unfold l; rewrite minus_IZR; lra).
  set (y := 1 / l). assert (Hy : 0 < y <= 1).
  { unfold y, Rdiv. rewrite Rmult_1_l. split; [apply Rinv_0_lt_compat; lra|]. rewrite <- Rinv_1. apply Rinv_le_contravar; lra. }
  set (y' := rnd F y). assert (Hy' : Rabs (y' - y) <= u * y + eta) by (unfold y'; pose proof (Hrd y) as Q; rewrite (Rabs_right y) in Q by lra; apply Q; lra).
  assert (Huy : 0 <= u * y <= u) by (split; [apply Rmult_le_pos; lra|]; rewrite <- (Rmult_1_r u) at 2; apply Rmult_le_compat_l; lra).
  set (x := IZR (2 ^ LOGN)). assert (Hx : 1 <= x) by (unfold x; apply IZR_le; pose proof (Z.pow_pos_nonneg 2 LOGN); lia).
  assert (Hx2 : x <= IZR (2 ^ 27)) by (unfold x; apply IZR_le, Z.pow_le_mono_r; lia).
  assert (Elx : ln x = IZR LOGN * ln 2).
  { unfold x. rewrite <- (Z2Nat.id LOGN) by lia. rewrite <- INR_IZR_INZ. replace (IZR (2 ^ Z.of_nat (Z.to_nat LOGN))) with (2 ^ Z.to_nat LOGN)%R by (rewrite pow_IZR; reflexivity).
    rewrite ln_pow by lra. reflexivity. }
  assert (Hl2 : 0 < ln 2 <= 1).
  { split; [rewrite <- ln_1; apply ln_increasing; lra|]. rewrite <- (ln_exp 1). apply Rlt_le, ln_increasing; [lra|]. pose proof (exp_ineq1 1 ltac:(lra)). lra. }
  assert (Hlx : 0 <= ln x <= l + 1) by (rewrite Elx, Hll; split; [apply Rmult_le_pos; lra|]; rewrite <- (Rmult_1_r (l + 1)) at 2; apply Rmult_le_compat_l; lra).
  set (d0 := 2 * u + IZR LOGN * eta). assert (HN17 : IZR LOGN <= 17) by (apply IZR_le; lia). assert (HN2 : 2 <= IZR LOGN) by (apply IZR_le; lia).
  assert (Hd0 : 0 <= d0 <= 19 / 1024) by (unfold d0; split; nra).
  set (P := Rpower x y). set (P' := Rpower x y'). assert (HP : 0 < P) by apply exp_pos.
  assert (Ec : c = / P) by (unfold c, cts_factor; fold l; fold x; fold y; fold P; unfold Rdiv; ring).
  assert (EP : P' = P * exp ((y' - y) * ln x)) by (unfold P', P, Rpower; rewrite <- exp_plus; f_equal; ring).
  assert (Hd : Rabs ((y' - y) * ln x) <= d0).
  { rewrite Rabs_mult, (Rabs_right (ln x)) by lra. eapply Rle_trans; [apply Rmult_le_compat_r; [lra|exact Hy']|].
    eapply Rle_trans; [apply Rmult_le_compat_l; [lra|apply (proj2 Hlx)]|]. unfold d0. rewrite Hll.
    assert (Ey : y * (l + 1) <= 2) by (unfold y; replace (1 / l * (l + 1)) with (1 + / l) by (field; lra); assert (/ l <= 1) by (rewrite <- Rinv_1; apply Rinv_le_contravar; lra); lra).
    replace ((u * y + eta) * (l + 1)) with (u * (y * (l + 1)) + (l + 1) * eta) by ring. assert (u * (y * (l + 1)) <= u * 2) by (apply Rmult_le_compat_l; lra). lra. }
  pose proof (exp_near _ _ Hd ltac:(lra)) as Hex. set (ex := exp ((y' - y) * ln x)) in *. apply abs_le in Hex.
  assert (Hyb : 0 <= y' <= 2).
  { apply abs_le in Hy'. split; [|lra].
    (* y is at least 1/16 *)
    assert (/ 16 <= y) by (unfold y, Rdiv; rewrite Rmult_1_l; apply Rinv_le_contravar; lra). lra. }
  pose proof (Hpw x y' (conj Hx Hx2) Hyb) as Hq. fold P' in Hq. set (Q := lpow x y') in *.
  (* relative error of the power *)
  set (th := 3 * d0 + p).
  assert (Hth : 0 <= th <= 58 / 1024) by (unfold th; lra).
  assert (HQ : P * (1 - th) <= Q <= P * (1 + th)).
  { apply abs_le in Hq. rewrite EP in Hq. assert (E1 : (1 - 2 * d0) <= ex <= 1 + 2 * d0) by lra.
    assert (Hpx : 0 <= p * ex <= p * (1 + 2 * d0)) by (split; [apply Rmult_le_pos; lra|apply Rmult_le_compat_l; lra]).
    assert (Hpd : 0 <= p * d0 <= d0 / 1024) by (apply small_mul; lra).
    assert (1 - th <= ex - p * ex /\ ex + p * ex <= 1 + th) as [G1 G2] by (unfold th; split; lra).
    apply (Rmult_le_compat_l P) in G1; [|lra]. apply (Rmult_le_compat_l P) in G2; [|lra]. split; lra. }
  assert (HQ0 : 0 < Q) by nra.
  assert (Hq1 : Rabs (1 / Q - c) <= th).
  { assert (E1 : 1 / Q - c = c * ((P - Q) * / Q)) by (rewrite Ec; field; lra). rewrite E1, Rabs_mult, (Rabs_right c) by lra.
    assert (E2 : Rabs ((P - Q) * / Q) <= 2 * th).
    { rewrite Rabs_mult, (Rabs_right (/ Q)) by (apply Rle_ge, Rlt_le, Rinv_0_lt_compat; auto). apply (Rmult_le_reg_r Q); auto. rewrite Rmult_assoc, Rinv_l by lra. rewrite Rmult_1_r.
      apply Rabs_le. split; nra. }
    pose proof (Rabs_pos ((P - Q) * / Q)). nra. }
  assert (Hfc : fc = rnd F (1 / Q)) by (unfold fc, f_cts_factor; fold l; fold x; fold y; fold y'; fold Q; reflexivity).
  rewrite Hfc. pose proof (round_near u eta top (rnd F) Hu Hrd (1 / Q) c th (/ 2) Hq1) as R1. rewrite (Rabs_right c) in R1 by lra. specialize (R1 Hc2 ltac:(lra)).
  eapply Rle_trans; [exact R1|]. unfold Ph, factor_error. assert (Hut : u * th <= u * / 2) by (apply Rmult_le_compat_l; lra). rewrite Rmult_plus_distr_l. assert (E3 : th = 6 * u + 3 * IZR LOGN * eta + p) by (unfold th, d0; ring). rewrite Rmult_plus_distr_r. lra.
Qed.
Context (HL17 : (LOGN <= 17)%Z) (Hsmall : T <= / 64).
Lemma T_pos : 0 <= T.
Proof. apply (table_pos F u eta top t ar). pose proof (Z.pow_pos_nonneg 2 LOGN); lia. Qed.
Lemma Ph_pos : 0 <= Ph <= / 16.
Proof.
  destruct ar as [Hu He _ _ _ _ _ _ _]. destruct Hp as [Hp0 _]. unfold Ph, factor_error.
  assert (HN17 : IZR LOGN <= 17) by (apply IZR_le; lia). assert (HN2 : 2 <= IZR LOGN) by (apply IZR_le; lia).
  assert (0 <= (3 * IZR LOGN + 1) * eta <= 52 * eta) by (split; [apply Rmult_le_pos; lra|apply Rmult_le_compat_r; lra]). lra.
Qed.
Lemma rnd_0 : rnd F 0 = 0.
Proof.
  destruct ar as [_ _ _ Ht _ He _ _ _]. specialize (He 0%Z 0%Z ltac:(lia) ltac:(lia)). rewrite Rmult_0_l, Rabs_R0 in He. apply He. lra.
Qed.
Lemma comp_err x x' : Rabs x <= 1 -> Rabs (x' - x) <= T -> Rabs (rnd F (x' * fc) - x * c) <= T + Ph + u + eta.
Proof.
  intros Hx Hx'. destruct ar as [Hu He _ Ht Hrd _ _ _ _]. pose proof (factor_close HL17) as Hf. pose proof c_le as Hc2. pose proof c_0 as Hc0. pose proof T_pos as HT. pose proof Ph_pos as HP.
  assert (E1 : Rabs (x' * fc - x * c) <= T + Ph).
  { replace (x' * fc - x * c) with ((x' - x) * fc + x * (fc - c)) by ring. eapply Rle_trans; [apply Rabs_triang|]. apply Rplus_le_compat.
    - rewrite <- (Rmult_1_r T). apply abs_mul_le; auto. apply abs_le in Hf. apply Rabs_le. lra.
    - rewrite <- (Rmult_1_l Ph). apply abs_mul_le; auto. }
  assert (E2 : Rabs (x * c) <= / 2) by (replace (/ 2) with (1 * / 2) by ring; apply abs_mul_le; auto; rewrite Rabs_right; lra).
  pose proof (round_near u eta top (rnd F) Hu Hrd _ _ _ _ E1 E2 ltac:(lra)) as R1. eapply Rle_trans; [exact R1|].
  assert (u * (/ 2 + (T + Ph)) <= u * 1) by (apply Rmult_le_compat_l; lra). lra.
Qed.
Lemma VR_err M c0 (cs cs' : Z -> R) s i : (forall k, Rabs (cs' k - cs k) <= T) -> Rabs (VR M c0 cs' s i - VR M c0 cs s i) <= T.
Proof.
  intros H. pose proof T_pos. unfold VR. destruct (_ <? _)%Z.
  - destruct (s =? 0)%Z; [|destruct (s =? 1)%Z; [apply H|]]; rewrite Rminus_diag_eq, Rabs_R0 by reflexivity; auto.
  - destruct (s =? 0)%Z; [|destruct (s =? sH c0)%Z]; try (rewrite Rminus_diag_eq, Rabs_R0 by reflexivity; auto).
    match goal with |- Rabs (- ?a - - ?b) <= _ => replace (- a - - b) with (- (a - b)) by ring end. rewrite Rabs_Ropp. apply H.
Qed.
Lemma VI_err M (cs cs' : Z -> R) s i : (forall k, Rabs (cs' k - cs k) <= T) -> Rabs (VI M cs' s i - VI M cs s i) <= T.
Proof.
  intros H. pose proof T_pos. unfold VI. destruct (_ <? _)%Z.
  - destruct (s =? 1)%Z; [apply H|]; rewrite Rminus_diag_eq, Rabs_R0 by reflexivity; auto.
  - destruct (s =? 0)%Z; try (rewrite Rminus_diag_eq, Rabs_R0 by reflexivity; auto).
    match goal with |- Rabs (- ?a - - ?b) <= _ => replace (- a - - b) with (- (a - b)) by ring end. rewrite Rabs_Ropp. apply H.
Qed.
Lemma VR_one M c0 (cs : Z -> R) s i : (forall k, Rabs (cs k) <= 1) -> Rabs (VR M c0 cs s i) <= 1.
Proof. intros H. unfold VR. destruct (_ <? _)%Z; [destruct (s =? 0)%Z; [|destruct (s =? 1)%Z]|destruct (s =? 0)%Z; [|destruct (s =? sH c0)%Z]]; rewrite ?Rabs_Ropp, ?Rabs_R1, ?Rabs_R0; auto; lra. Qed.
Lemma VI_one M (cs : Z -> R) s i : (forall k, Rabs (cs k) <= 1) -> Rabs (VI M cs s i) <= 1.
Proof. intros H. unfold VI. destruct (_ <? _)%Z; [destruct (s =? 1)%Z|destruct (s =? 0)%Z]; rewrite ?Rabs_Ropp, ?Rabs_R0; auto; lra. Qed.
Lemma cs_one d k : Rabs (csd LOGN d k) <= 1.
Proof. unfold csd, cosN. apply Rabs_le. apply COS_bound. Qed.
Lemma sn_one d k : Rabs (snd_ LOGN d k) <= 1.
Proof. unfold snd_, sinN. apply Rabs_le. apply SIN_bound. Qed.
Lemma T_is : T = table_error u eta t (2 * 2 ^ (LOGN - 1)).
Proof. unfold T. rewrite (N_is LOGN HL). reflexivity. Qed.
Lemma fcs_T d k : Rabs (fcs F LOGN d k - csd LOGN d k) <= T.
Proof. rewrite T_is. apply (fcs_err F u eta top t ar LOGN HL). rewrite <- T_is. exact Hsmall. Qed.
Lemma fsn_T d k : Rabs (fsn F LOGN d k - snd_ LOGN d k) <= T.
Proof. rewrite T_is. apply (fsn_err F u eta top t ar LOGN HL). rewrite <- T_is. exact Hsmall. Qed.
Lemma sum3 (f : Z -> R) e : (forall s, (0 <= s < 3)%Z -> f s <= e) -> gsum (K := Rops) 3 f <= 3 * e.
Proof.
  intros H. rewrite gsum3. pose proof (H 0%Z ltac:(lia)). pose proof (H 1%Z ltac:(lia)). pose proof (H 2%Z ltac:(lia)). change (car Rops) with R in *.
  match goal with |- ?x <= _ => change x with (0 + f 0%Z + f 1%Z + f 2%Z) end. lra.
Qed.

Open Scope Z_scope.
Lemma fgood_tab D fr fi M a b r : (forall t, 0 <= t < D -> frep n 3 (fr t, fi t) (M t) (a t) (b t) (r t)) -> fgood n 3 D D (tab D fr) (tab D fi) M a b r.
Proof. intros H. exists fr, fi. split; [auto|]. split; [auto|]. intros s Hs. destruct (Z.ltb_spec s D); [auto|lia]. Qed.
Lemma f_cts_good : fgood n 3 (LOGN - 1) (LOGN - 1) (fst (f_cts_tabs F lpow LOGN)) (snd (f_cts_tabs F lpow LOGN)) (ctsM LOGN) (fun _ => 2 * c)%R (fun _ => 2 * c)%R (fun _ => cts_row_error u eta t p LOGN).
Proof.
  pose proof c_0 as Hc. pose proof T_pos as HT. pose proof Ph_pos as HPh. apply fgood_tab. intros d Hd. pose proof (Md_pos LOGN d Hd) as HM. pose proof (n_Md LOGN d Hd) as HnM. fold n in HnM. assert (Hp2 : 0 < 2 ^ d) by (apply Z.pow_pos_nonneg; lia).
  pose proof (n_pos LOGN HL) as Hn. fold n in Hn. assert (Hn30 : n <= 2 ^ 30) by (apply Z.pow_le_mono_r; lia).
  set (A := ctsA LOGN d). set (A' := fun s j => mk Rops (f_ctsR F lpow LOGN d s j) (f_ctsI F lpow LOGN d s j) : CC).
  assert (Hrow : forall i, 0 <= i < n -> (gsum (K := Rops) 3 (fun s => modulus (A s i)) <= 2 * c)%R).
  { intros i Hi. rewrite (gsum_ext (K := Rops) 3 _ (fun s => c * modulus (bA n (Md LOGN d) (2 ^ d) (csd LOGN d) (snd_ LOGN d) s i) + 0)%R).
    2:{ intros s Hs. unfold A. rewrite ctsA_scale, modulus_mul, modulus_real. fold c. rewrite Rabs_right by lra. rewrite Rplus_0_r. reflexivity. }
    rewrite rsum_lin by lia. pose proof (bA_rows n (Md LOGN d) (2 ^ d) HM Hp2 HnM (csd LOGN d) (snd_ LOGN d) (cs_unit LOGN d) i Hi) as B. nra. }
  pose proof (rows_of n ltac:(lia) 3 A (tr_off n (o3 n (Md LOGN d))) _ ltac:(lia) Hrow) as HR.
  rewrite <- !diagonals_sdi.
  apply (frep_near n 3 A A' (tr_off n (o3 n (Md LOGN d))) (zR (2 ^ d)) zI (ctsM LOGN d)); [lia|lia| |reflexivity|exact Hrow|lra| | |].
  - pose proof (bA_flags n (Md LOGN d) (2 ^ d) HM Hp2 HnM (fcs F LOGN d) (fsn F LOGN d) fc) as Fl. intros s Hs. specialize (Fl s Hs). destruct (zR (2 ^ d) s && zI s); [|exact Fl].
    intros j Hj. destruct (Fl j Hj) as [F1 F2]. unfold A', f_ctsR, f_ctsI, cre, cim. cbn. unfold bA, cre, cim in F1, F2. cbn in F1, F2. fold n fc. rewrite F1, F2. rewrite rnd_0. auto.
  - intros s i Hs Hi. eapply Rle_trans; [|apply (Hrow i Hi)]. exact (gsum_member_mod 3 (fun s => A s i) s Hs).
  - intros i j Hi Hj. eapply Rle_trans; [|apply (HR i Hi)]. exact (gsum_member_mod n (fun j => matrix_of n 3 A (tr_off n (o3 n (Md LOGN d))) i j) j Hj).
  - intros i Hi. eapply Rle_trans; [apply (sum3 _ (3 / 2 * (T + Ph + u + eta))%R)|].
    + intros s Hs. eapply Rle_trans; [apply (modulus_comp _ (T + Ph + u + eta)%R)|].
      * cbn. unfold f_ctsR, ctsR. fold n c fc. apply comp_err; unfold TR, tr_vec; destruct (_ >? 0); auto using VR_one, cs_one, VR_err, fcs_T.
      * cbn. unfold f_ctsI, ctsI. fold n c fc. assert (E : forall a b, (Rabs (a - b) <= T -> Rabs (- a - - b) <= T)%R) by (intros a b Hab; replace (- a - - b)%R with (- (a - b))%R by ring; rewrite Rabs_Ropp; auto).
        apply comp_err; unfold TI, tr_vec; [rewrite Rabs_Ropp|apply E]; destruct (_ >? 0); auto using VI_one, sn_one, VI_err, fsn_T.
      * assert (0 <= T + Ph + u + eta)%R by (destruct ar; lra). lra.
    + unfold cts_row_error. fold T Ph. lra.
Qed.
Lemma f_stc_rep d A A' zr zi k : 0 <= d < LOGN - 1 -> (forall s j, A s j = (k * stcA LOGN d s j)%num) -> modulus k = 1%R ->
  flags_right (K := Rops) n 3 (fun s j => cre Rops (A' s j)) (fun s j => cim Rops (A' s j)) (o3 n (Md LOGN (rv LOGN d))) (o3 n (Md LOGN (rv LOGN d))) zr zi ->
  (forall s j, (Rabs (cre Rops (A' s j) - cre Rops (A s j)) <= T)%R) -> (forall s j, (Rabs (cim Rops (A' s j) - cim Rops (A s j)) <= T)%R) ->
  frep n 3 (diagonals n 3 (fun s j => cre Rops (A' s j)) (o3 n (Md LOGN (rv LOGN d))) zr, diagonals n 3 (fun s j => cim Rops (A' s j)) (o3 n (Md LOGN (rv LOGN d))) zi)
    (matrix_of n 3 A (o3 n (Md LOGN (rv LOGN d)))) 2 1 (stc_row_error u eta t LOGN).
Proof.
  intros Hd HA Hk Hf H1 H2. assert (Hr : 0 <= rv LOGN d < LOGN - 1) by (unfold rv; lia). pose proof (Md_pos LOGN _ Hr) as HM. pose proof (n_Md LOGN _ Hr) as HnM. fold n in HnM. assert (Hp2 : 0 < 2 ^ rv LOGN d) by (apply Z.pow_pos_nonneg; lia).
  pose proof (n_pos LOGN HL) as Hn. fold n in Hn. assert (Hn30 : n <= 2 ^ 30) by (apply Z.pow_le_mono_r; lia). pose proof T_pos as HT.
  assert (HmA : forall s i, modulus (A s i) = modulus (stcA LOGN d s i)) by (intros; rewrite HA, modulus_mul, Hk; apply Rmult_1_l).
  apply (frep_near n 3 A A'); [lia|lia|exact Hf|reflexivity| |lra| | |].
  - intros i Hi. rewrite (gsum_ext (K := Rops) 3 _ (fun s => modulus (stcA LOGN d s i))) by (intros; apply HmA). exact (fA_rows (Md LOGN (rv LOGN d)) (2 ^ rv LOGN d) (csd LOGN (rv LOGN d)) (snd_ LOGN (rv LOGN d)) (cs_unit LOGN (rv LOGN d)) i).
  - intros s i Hs Hi. rewrite HmA. exact (fA_entry (Md LOGN (rv LOGN d)) (2 ^ rv LOGN d) (csd LOGN (rv LOGN d)) (snd_ LOGN (rv LOGN d)) (cs_unit LOGN (rv LOGN d)) s i Hs).
  - intros i j Hi Hj. replace (matrix_of n 3 A (o3 n (Md LOGN (rv LOGN d))) i j) with (k * stcM LOGN d i j)%num.
    + rewrite modulus_mul, Hk, Rmult_1_l. exact (fA_entries n (Md LOGN (rv LOGN d)) (2 ^ rv LOGN d) HM Hp2 HnM (csd LOGN (rv LOGN d)) (snd_ LOGN (rv LOGN d)) (cs_unit LOGN (rv LOGN d)) i j Hi Hj).
    + unfold stcM. rewrite <- matrix_scale. unfold matrix_of. apply gsum_ext. intros s Hs. rewrite HA. reflexivity.
  - intros i Hi. eapply Rle_trans; [apply (sum3 _ (3 / 2 * T)%R)|].
    + intros s Hs. eapply Rle_trans; [apply (modulus_comp _ T)|]; [apply H1|apply H2|lra].
    + unfold stc_row_error. fold T. lra.
Qed.
Lemma f_stc_good : fgood n 3 (LOGN - 1) (LOGN - 1) (fst (fst (fst (f_stc_tabs F LOGN)))) (snd (fst (fst (f_stc_tabs F LOGN)))) (stcM LOGN) (fun _ => 2)%R (fun _ => 1)%R (fun _ => stc_row_error u eta t LOGN).
Proof.
  apply fgood_tab. intros d Hd. assert (Hr : 0 <= rv LOGN d < LOGN - 1) by (unfold rv; lia). pose proof (Md_pos LOGN _ Hr) as HM. pose proof (n_Md LOGN _ Hr) as HnM. fold n in HnM. assert (Hp2 : 0 < 2 ^ rv LOGN d) by (apply Z.pow_pos_nonneg; lia).
  rewrite <- !diagonals_sdi. fold n.
  apply (f_stc_rep d (stcA LOGN d) (fun s j => mk Rops (VR (Md LOGN (rv LOGN d)) (2 ^ rv LOGN d) (fcs F LOGN (rv LOGN d)) s j) (VI (Md LOGN (rv LOGN d)) (fsn F LOGN (rv LOGN d)) s j)) _ _ 1%num Hd).
  - intros. ring.
  - apply mod_one.
  - exact (fA_flags n (Md LOGN (rv LOGN d)) (2 ^ rv LOGN d) HM Hp2 HnM (fcs F LOGN (rv LOGN d)) (fsn F LOGN (rv LOGN d))).
  - intros. apply VR_err. intros. apply fcs_T.
  - intros. apply VI_err. intros. apply fsn_T.
Qed.
Lemma f_istc_good : fgood n 3 (LOGN - 1) (LOGN - 1) (snd (fst (f_stc_tabs F LOGN))) (snd (f_stc_tabs F LOGN)) (istcM LOGN) (fun _ => 2)%R (fun _ => 1)%R (fun _ => stc_row_error u eta t LOGN).
Proof.
  apply fgood_tab. intros d Hd. assert (Hr : 0 <= rv LOGN d < LOGN - 1) by (unfold rv; lia). pose proof (Md_pos LOGN _ Hr) as HM. pose proof (n_Md LOGN _ Hr) as HnM. fold n in HnM. assert (Hp2 : 0 < 2 ^ rv LOGN d) by (apply Z.pow_pos_nonneg; lia).
  pose proof (fA_flags n (Md LOGN (rv LOGN d)) (2 ^ rv LOGN d) HM Hp2 HnM (fcs F LOGN (rv LOGN d)) (fsn F LOGN (rv LOGN d))) as Fl.
  destruct (Z.eqb_spec d 0) as [->|Hd0].
  - cbn [Z.eqb]. rewrite <- !diagonals_sdi. fold n.
    apply (f_stc_rep 0 (istcA LOGN 0) (fun s j => mk Rops (- VI (Md LOGN (rv LOGN 0)) (fsn F LOGN (rv LOGN 0)) s j)%R (VR (Md LOGN (rv LOGN 0)) (2 ^ rv LOGN 0) (fcs F LOGN (rv LOGN 0)) s j)) _ _ ii Hd).
    + intros. rewrite istc_scale. reflexivity.
    + unfold ii, modulus, cre, cim. cbn. replace (0 * 0 + 1 * 1)%R with 1%R by ring. apply sqrt_1.
    + intros s Hs. specialize (Fl s Hs). rewrite andb_comm. destruct (zR (2 ^ rv LOGN 0) s && zI s); [|exact Fl].
      intros j Hj. destruct (Fl j Hj) as [F1 F2]. unfold fA, cre, cim in F1, F2. cbn in F1, F2. unfold cre, cim. cbn. rewrite F1, F2. split; ring.
    + intros s j. cbn. match goal with |- (Rabs (- ?a - - ?b) <= _)%R => replace (- a - - b)%R with (- (a - b))%R by ring end. rewrite Rabs_Ropp. apply VI_err. intros. apply fsn_T.
    + intros. apply VR_err. intros. apply fcs_T.
  - rewrite <- !diagonals_sdi. fold n.
    apply (f_stc_rep d (istcA LOGN d) (fun s j => mk Rops (VR (Md LOGN (rv LOGN d)) (2 ^ rv LOGN d) (fcs F LOGN (rv LOGN d)) s j) (VI (Md LOGN (rv LOGN d)) (fsn F LOGN (rv LOGN d)) s j)) _ _ 1%num Hd).
    + intros. rewrite istc_scale. destruct (Z.eqb_spec d 0); [lia|reflexivity].
    + apply mod_one.
    + exact Fl.
    + intros. unfold istcA. destruct (Z.eqb_spec d 0); [lia|]. apply VR_err. intros. apply fcs_T.
    + intros. unfold istcA. destruct (Z.eqb_spec d 0); [lia|]. apply VI_err. intros. apply fsn_T.
Qed.
End Errors.
