(** The polynomial of EvalMod is close to cos(3 pi t) a little outside [-1,1] too: on [-1.0105,1.0105]. *)
From Coq Require Import ZArith Reals Lra Lia List Bool.
From Verif Require Import PiBound CosTaylor PolyZ CosApprox.
Import ListNotations.
Open Scope R_scope.

Lemma rcheb_prod t i : forall m, (i <= m)%nat -> rcheb t (m + i) + rcheb t (m - i) = 2 * rcheb t m * rcheb t i.
Proof.
  enough (H : (forall m, (i <= m)%nat -> rcheb t (m + i) + rcheb t (m - i) = 2 * rcheb t m * rcheb t i) /\
              (forall m, (S i <= m)%nat -> rcheb t (m + S i) + rcheb t (m - S i) = 2 * rcheb t m * rcheb t (S i))) by apply H.
  induction i as [|i [IH1 IH2]].
  - split; intros m Hm.
    + rewrite Nat.add_0_r, Nat.sub_0_r. cbn [rcheb]. ring.
    + destruct m as [|m]; [lia|]. replace (S m + 1)%nat with (S (S m)) by lia. replace (S m - 1)%nat with m by lia. rewrite rcheb_SS. change (rcheb t 1) with t. ring.
  - split; [exact IH2|]. intros m Hm. rewrite (rcheb_SS t i). 
    pose proof (IH2 m ltac:(lia)) as A. pose proof (IH1 m ltac:(lia)) as B.
    replace (m + S (S i))%nat with (S (S (m + i))) by lia. rewrite rcheb_SS. replace (S (m + i))%nat with (m + S i)%nat by lia.
    assert (C : rcheb t (m - i) = 2 * t * rcheb t (m - S i) - rcheb t (m - S (S i))).
    { replace (m - i)%nat with (S (S (m - S (S i)))) by lia. rewrite rcheb_SS. replace (S (m - S (S i)))%nat with (m - S i)%nat by lia. reflexivity. }
    replace (rcheb t (m - S (S i))) with (2 * t * rcheb t (m - S i) - rcheb t (m - i)) by lra.
    transitivity (2 * t * (rcheb t (m + S i) + rcheb t (m - S i)) - (rcheb t (m + i) + rcheb t (m - i))); [ring|]. rewrite A, B. ring.
Qed.
Lemma rcheb_double_all t n : rcheb t (2 * n) = 2 * (rcheb t n * rcheb t n) - 1.
Proof. pose proof (rcheb_prod t n n ltac:(lia)) as H. rewrite Nat.sub_diag in H. replace (2 * n)%nat with (n + n)%nat by lia. cbn [rcheb] in H. lra. Qed.
Lemma chebZ_all t k : evM (chebZ k) t = rcheb t (2 ^ k).
Proof.
  induction k as [|k IH]; [cbn; ring|]. cbn [chebZ]. cbv zeta. rewrite evM_add, evM_scale, evM_mul, IH.
  replace (2 ^ S k)%nat with (2 * 2 ^ k)%nat by (cbn; lia). rewrite rcheb_double_all. cbn [evM]. lra.
Qed.
Lemma prodZ_all t k : forall l, length l = (2 ^ k)%nat -> evM (prodZ k l) t = rprod t k (fun n => IZR (nth n l 0%Z)).
Proof.
  induction k as [|k IH]; intros l Hl.
  - destruct l as [|c [|]]; cbn in Hl; try lia. cbn. ring.
  - assert (E : (2 ^ S k = 2 ^ k + 2 ^ k)%nat) by (cbn; lia). rewrite E in Hl. cbn [prodZ rprod]. rewrite evM_add, evM_mul, chebZ_all.
    rewrite !IH by (rewrite ?firstn_length, ?skipn_length; lia). f_equal; [|f_equal]; apply rprod_ext; intros n Hn; f_equal.
    + rewrite <- (firstn_skipn (2 ^ k) l) at 2. rewrite app_nth1; [reflexivity|]. rewrite firstn_length. lia.
    + rewrite <- (firstn_skipn (2 ^ k) l) at 2. rewrite app_nth2 by (rewrite firstn_length; lia). f_equal. rewrite firstn_length. lia.
Qed.
(** T_1, T_2, T_4, T_8, T_16 on this interval *)
Definition wide : R := 2021 / 2000.
Definition wide_bound (i : nat) : R := nth i [wide; 10423 / 10000; 1173 / 1000; 1752 / 1000; 514 / 100] 0.
Lemma wide_cheb t i : Rabs t <= wide -> (i < 5)%nat -> Rabs (rcheb t (2 ^ i)) <= wide_bound i.
Proof.
  intros Ht Hi. unfold wide in *.
  assert (S : forall x M, Rabs x <= M -> 1 <= M -> Rabs (2 * (x * x) - 1) <= 2 * (M * M) - 1).
  { intros x M Hx HM. assert (x * x <= M * M). { rewrite <- (Rabs_right (x * x)) by (apply Rle_ge, Rle_0_sqr). rewrite Rabs_mult. apply Rmult_le_compat; auto; apply Rabs_pos. }
    pose proof (Rle_0_sqr x) as Q. unfold Rsqr in Q. apply Rabs_le. nra. }
  assert (A0 : Rabs (rcheb t 1) <= 2021 / 2000) by exact Ht.
  assert (A1 : Rabs (rcheb t 2) <= 10423 / 10000) by (change 2%nat with (2 * 1)%nat; rewrite rcheb_double_all; eapply Rle_trans; [apply (S _ _ A0); lra|lra]).
  assert (A2 : Rabs (rcheb t 4) <= 1173 / 1000) by (change 4%nat with (2 * 2)%nat; rewrite rcheb_double_all; eapply Rle_trans; [apply (S _ _ A1); lra|lra]).
  assert (A3 : Rabs (rcheb t 8) <= 1752 / 1000) by (change 8%nat with (2 * 4)%nat; rewrite rcheb_double_all; eapply Rle_trans; [apply (S _ _ A2); lra|lra]).
  assert (A4 : Rabs (rcheb t 16) <= 514 / 100) by (change 16%nat with (2 * 8)%nat; rewrite rcheb_double_all; eapply Rle_trans; [apply (S _ _ A3); lra|lra]).
  unfold wide_bound, wide. destruct i as [|[|[|[|[|i]]]]]; [exact A0|exact A1|exact A2|exact A3|exact A4|lia].
Qed.

(** coefficients of p(a s / b), over b^(length - 1) *)
Fixpoint dil (a b : Z) (l : list Z) : list Z :=
  match l with [] => [] | c :: l => (c * b ^ Z.of_nat (length l))%Z :: lscale a (dil a b l) end.
Lemma dil_ok a b l s : IZR b <> 0 -> IZR b * evM (dil a b l) s = IZR b ^ length l * evM l (IZR a / IZR b * s).
Proof.
  intros Hb. induction l as [|c l IH]; [cbn; ring|]. cbn [dil evM length]. rewrite evM_scale, mult_IZR, <- pow_IZR. cbn [pow].
  transitivity (IZR b * IZR b ^ length l * IZR c + IZR a * s * (IZR b * evM (dil a b l) s)); [ring|]. rewrite IH. field. auto.
Qed.
Definition diff_wide : list Z := dil 2021 2000 diff30.
Lemma diff_wide_small : (let '(l, k) := tocheb diff_wide in (labs l <=? 716000000000000000 * k * 2000 ^ 51)%Z && (0 <? k)%Z && (length diff30 =? 52)%nat) = true.
Proof. vm_compute. reflexivity. Qed.
Lemma tay_sum_wide t : Rabs t <= wide -> Rabs (evM tay_list t - IZR S30 * ctaylor TD (3 * PI * t)) <= INR (S TD) * (2 * IZR E30).
Proof.
  intros Ht. unfold tay_list. rewrite evM_spread, evM_seq. unfold ctaylor. rewrite scal_sum, <- minus_sum.
  assert (T2 : 0 <= t * t <= wide * wide). { split; [apply Rle_0_sqr|]. rewrite <- (Rabs_right (t * t)) by (apply Rle_ge, Rle_0_sqr). rewrite Rabs_mult. apply Rmult_le_compat; auto; apply Rabs_pos. }
  assert (G : forall n, (n <= TD)%nat -> Rabs (sum_f_R0 (fun m => IZR (tay m) * (t * t) ^ m - cterm (3 * PI * t) m * IZR S30) n) <= INR (S n) * (2 * IZR E30)).
  { assert (B : forall m, (m <= TD)%nat -> Rabs (IZR (tay m) * (t * t) ^ m - cterm (3 * PI * t) m * IZR S30) <= 2 * IZR E30).
    { intros m Hm. pose proof (tay_near m ltac:(unfold TD in Hm; lia)) as HN.
      unfold cterm. rewrite (Rpow_mult_distr (3 * PI) t). rewrite (pow_mult t 2 m). replace (t ^ 2) with (t * t) by ring.
      match goal with |- Rabs ?e <= _ => replace e with ((IZR (tay m) - IZR S30 * ((-1) ^ m * ((3 * PI) ^ (2 * m) / INR (fact (2 * m))))) * (t * t) ^ m) by (unfold Rdiv; ring) end.
      rewrite Rabs_mult. assert (0 <= (t * t) ^ m <= 2).
      { split; [apply pow_le; lra|]. apply Rle_trans with ((wide * wide) ^ m); [apply pow_incr; lra|]. apply Rle_trans with ((wide * wide) ^ TD); [apply Rle_pow; [unfold wide; lra|exact Hm]|].
        apply Rle_trans with ((10212 / 10000) ^ TD); [apply pow_incr; unfold wide; lra|]. unfold Rdiv. rewrite Rpow_mult_distr, pow_inv.
        apply Rmult_le_reg_r with (10000 ^ TD); [apply pow_lt; lra|]. rewrite Rmult_assoc, Rinv_l, Rmult_1_r by (apply pow_nonzero; lra). rewrite !pow_IZR, <- mult_IZR. apply IZR_le. vm_compute. discriminate. }
      rewrite (Rabs_right ((t * t) ^ m)) by lra. pose proof (Rabs_pos (IZR (tay m) - IZR S30 * ((-1) ^ m * ((3 * PI) ^ (2 * m) / INR (fact (2 * m)))))).
      match goal with |- ?a * ?b <= _ => apply Rle_trans with (a * 2); [apply Rmult_le_compat_l; lra|lra] end. }
    induction n as [|n IH]; intros Hn.
    - cbn [sum_f_R0 INR]. rewrite Rmult_1_l. apply B. lia.
    - cbn [sum_f_R0]. eapply Rle_trans; [apply Rabs_triang|]. rewrite (S_INR (S n)). pose proof (IH ltac:(lia)). pose proof (B (S n) Hn). lra. }
  apply G. lia.
Qed.
Theorem cos_poly_wide t : Rabs t <= wide -> Rabs (rprod t 5 (fun n => IZR (nth n cos_u17 0%Z) / IZR (10 ^ 17)) - cos (3 * PI * t)) <= 74 / IZR (10 ^ 14).
Proof.
  intros Ht.
  assert (Hs : -1 <= t / wide <= 1).
  { assert (Rabs (t / wide) <= 1). { unfold Rdiv. rewrite Rabs_mult, (Rabs_right (/ wide)) by (unfold wide; lra). apply Rmult_le_reg_r with wide; [unfold wide; lra|]. rewrite Rmult_assoc, Rinv_l, Rmult_1_r, Rmult_1_l by (unfold wide; lra). exact Ht. }
    pose proof (Rle_abs (t / wide)). pose proof (Rle_abs (- (t / wide))) as H'. rewrite Rabs_Ropp in H'. lra. }
  assert (D : Rabs (evM diff30 t) <= IZR 716000000000000000).
  { pose proof diff_wide_small as H. rewrite (surjective_pairing (tocheb diff_wide)) in H. apply andb_prop in H. destruct H as [H H3]. apply andb_prop in H. destruct H as [H1 H2].
    apply Z.leb_le in H1. apply Z.ltb_lt in H2. apply Nat.eqb_eq in H3. set (k := snd (tocheb diff_wide)) in *.
    apply IZR_le in H1. rewrite !mult_IZR in H1. apply IZR_lt in H2. pose proof (tocheb_ok diff_wide (t / wide)) as E. fold k in E.
    pose proof (evT_bound (fst (tocheb diff_wide)) (t / wide) Hs 0) as B. rewrite E, Rabs_mult, (Rabs_right (IZR k)) in B by lra.
    pose proof (dil_ok 2021 2000 diff30 (t / wide) ltac:(lra)) as E2. fold diff_wide in E2. rewrite H3 in E2. replace (2021 / 2000 * (t / wide)) with t in E2 by (unfold wide; field).
    set (L := IZR (labs (fst (tocheb diff_wide)))) in *. clearbody L. set (x := evM diff_wide (t / wide)) in *. clearbody x k. clear E.
    change (2000 ^ 51)%Z with (2000 ^ Z.of_nat 51)%Z in H1. rewrite <- (pow_IZR 2000 51) in H1. change (2000 ^ 52) with (2000 * 2000 ^ 51) in E2.
    assert (P : 0 < 2000 ^ 51) by (apply pow_lt; lra). set (p := 2000 ^ 51) in *. clearbody p.
    assert (E3 : x = p * evM diff30 t) by lra. rewrite E3, Rabs_mult, (Rabs_right p) in B by lra. set (y := Rabs (evM diff30 t)) in *. clearbody y.
    assert (K0 : 0 < IZR k * p) by (apply Rmult_lt_0_compat; auto). apply Rmult_le_reg_l with (IZR k * p); [auto|]. lra. }
  unfold diff30 in D. rewrite evM_add, !evM_scale, prodZ_all in D by reflexivity.
  pose proof (tay_sum_wide t Ht) as T. pose proof (cos_taylor TD (3 * PI * t)) as C.
  assert (R : (3 * PI * t) ^ (2 * S TD) / INR (fact (2 * S TD)) <= 1 / IZR (10 ^ 16)).
  { rewrite <- zfact_INR. assert (HF : 0 < IZR (zfact (2 * S TD))) by (apply IZR_lt, zfact_pos).
    assert (Z1 : (95238 ^ 52 * 10 ^ 16 <= zfact (2 * S TD) * 10 ^ 208)%Z) by (apply Z.leb_le; vm_compute; reflexivity).
    apply IZR_le in Z1. rewrite !mult_IZR in Z1.
    assert (P : (3 * PI * t) ^ (2 * S TD) <= IZR (95238 ^ 52) / IZR (10 ^ 208)).
    { rewrite <- pow_abs_even. apply Rle_trans with ((95238 / 10000) ^ (2 * S TD)).
      - apply pow_incr. split; [apply Rabs_pos|]. pose proof PI_bounds as [P1 P2]. change (10 ^ 25)%Z with 10000000000000000000000000%Z in *. pose proof PI_RGT_0.
        rewrite Rabs_mult, (Rabs_right (3 * PI)) by lra. apply Rle_trans with (3 * PI * wide); [apply Rmult_le_compat_l; lra|]. unfold wide. lra.
      - unfold Rdiv. rewrite Rpow_mult_distr, pow_inv. change (2 * S TD)%nat with 52%nat. change (95238 ^ 52)%Z with (95238 ^ Z.of_nat 52)%Z. rewrite IZR_pow. change (10 ^ 208)%Z with (10000 ^ Z.of_nat 52)%Z. rewrite IZR_pow. apply Rle_refl. }
    assert (H18 : 0 < IZR (10 ^ 16)) by (apply IZR_lt; reflexivity). assert (H208 : 0 < IZR (10 ^ 208)) by (apply IZR_lt; reflexivity).
    set (F := IZR (zfact (2 * S TD))) in *. set (X := (3 * PI * t) ^ (2 * S TD)) in *. clearbody F X. generalize dependent (IZR (95238 ^ 52)). generalize dependent (IZR (10 ^ 208)). intros W HW Y Z1 P.
    apply Rmult_le_reg_r with F; [auto|]. replace (X / F * F) with X by (field; lra). eapply Rle_trans; [exact P|].
    apply Rmult_le_reg_r with W; [auto|]. replace (Y / W * W) with Y by (field; lra). apply Rmult_le_reg_r with (IZR (10 ^ 16)); [auto|].
    replace (1 / IZR (10 ^ 16) * F * W * IZR (10 ^ 16)) with (F * W) by (field; lra). lra. }
  assert (E : rprod t 5 (fun n => IZR (nth n cos_u17 0%Z) / IZR (10 ^ 17)) = / IZR (10 ^ 17) * rprod t 5 (fun n => IZR (nth n cos_u17 0%Z))).
  { rewrite <- rprod_scale. apply rprod_ext. intros n _. unfold Rdiv. ring. }
  rewrite E. clear E. set (P := rprod t 5 (fun n => IZR (nth n cos_u17 0%Z))) in *. set (X := (3 * PI * t) ^ (2 * S TD) / INR (fact (2 * S TD))) in *.
  set (V := evM tay_list t) in *. set (Y := ctaylor TD (3 * PI * t)) in *. set (c := cos (3 * PI * t)) in *. clearbody P X V Y c. clear Hs Ht t.
  replace (INR (S TD)) with 26 in T by (unfold TD; rewrite INR_IZR_INZ; reflexivity). unfold S30, E30 in T.
  change (10 ^ 30)%Z with 1000000000000000000000000000000%Z in T. change (10 ^ 10)%Z with 10000000000%Z in T. change (10 ^ 13)%Z with 10000000000000%Z in D.
  change (10 ^ 17)%Z with 100000000000000000%Z. change (10 ^ 14)%Z with 100000000000000%Z. change (10 ^ 16)%Z with 10000000000000000%Z in R.
  assert (K : forall a b, Rabs a <= b -> -b <= a <= b). { intros a b H. pose proof (Rle_abs a). pose proof (Rle_abs (- a)) as H'. rewrite Rabs_Ropp in H'. lra. }
  apply K in D, T, C. apply Rabs_le. lra.
Qed.
