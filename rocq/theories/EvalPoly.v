(** The levels of eval_poly_deg3, ..., eval_poly_deg127. *)
From Coq Require Import ZArith List Bool Lia Reals Lra Ring.
From Verif Require Import Base BaseFacts Sums ZQ ZQFacts RQ RQFacts Conv Rot Core CoreFacts Util UtilFacts GSum Matrix MatrixFacts DFT DFTTheory DFTFacts FFTFacts
  SpecZQ SpecPoly SpecPolyFacts SpecScheme SpecMat SpecDFT SpecEnc SlotFacts Encode EncodeFacts PolyCong Noise Properties_DFT Properties_Conv Properties_Core Properties_Plain LinTrans LinTransFacts LinSlots BootSlots
  SpecCheb Poly ChebFacts SpecEval EvalFacts.
Import ListNotations.
Open Scope Z_scope.
Add Ring RCep : HR.

Lemma fill_list {A} (body : Z -> list A -> res (list A)) (d0 : A) (P : Z -> A -> Prop) cnt : 0 <= cnt ->
  (forall n, 0 <= n < cnt -> exists d, P n d /\ forall L, lget L n = Ok d0 -> body n L = lset L n d) ->
  exists f, for_ 0 cnt body (repeat d0 (Z.to_nat cnt)) = Ok (tab cnt f) /\ forall n, 0 <= n < cnt -> P n (f n).
Proof.
  intros Hc H. destruct (finite_choice (fun n d => P n d /\ forall L, lget L n = Ok d0 -> body n L = lset L n d) d0 cnt Hc H) as [f Hf].
  exists f. split; [|intros n Hn; apply Hf; auto].
  rewrite repeat_tab by auto.
  apply (for_closed body (fun k => tab cnt (fun i => if i <? k then f i else d0))); [lia| | |].
  - apply tab_ext. intros i Hi. destruct (Z.ltb_spec i 0); [lia|auto].
  - apply tab_ext. intros i Hi. destruct (Z.ltb_spec i cnt); [auto|lia].
  - intros n Hn. destruct (Hf n Hn) as [_ E]. rewrite E by (rewrite lget_tab by auto; destruct (Z.ltb_spec n n); [lia|auto]).
    rewrite lset_tab by auto. f_equal. apply tab_ext. intros i Hi. destruct (Z.eqb_spec i n) as [->|].
    + destruct (Z.ltb_spec n (n + 1)); [auto|lia].
    + destruct (Z.ltb_spec i n), (Z.ltb_spec i (n + 1)); auto; lia.
Qed.

(** truncation *)
Definition trunc (x : R) : Z := if Rlt_dec x 0 then - Int_part (- x)%R else Int_part x.
Lemma trunc_near x : (Rabs (IZR (trunc x) - x) <= 1)%R.
Proof.
  unfold trunc. destruct (Rlt_dec x 0).
  - pose proof (Int_part_spec (- x)). rewrite opp_IZR. apply Rabs_le. lra.
  - pose proof (Int_part_spec x). apply Rabs_le. lra.
Qed.
Lemma Int_part_pos x : (0 <= x)%R -> 0 <= Int_part x.
Proof. intros H. pose proof (Int_part_spec x). assert (-1 < Int_part x); [apply lt_IZR; lra|lia]. Qed.
Lemma trunc_abs x : (Rabs (IZR (trunc x)) <= Rabs x)%R.
Proof.
  unfold trunc. destruct (Rlt_dec x 0).
  - pose proof (Int_part_spec (- x)). rewrite opp_IZR, Rabs_Ropp, (Rabs_left x) by auto.
    rewrite Rabs_right; [lra|]. apply Rle_ge, IZR_le, Int_part_pos. lra.
  - pose proof (Int_part_spec x). rewrite (Rabs_right x) by lra. rewrite Rabs_right; [lra|]. apply Rle_ge, IZR_le, Int_part_pos. lra.
Qed.
Lemma r_to_u64_ok x : (-1 < x)%R -> (x < IZR (2 ^ 64))%R -> r_to_u64 x = Ok (trunc x) /\ 0 <= trunc x < 2 ^ 64.
Proof.
  intros H1 H2. assert (H : 0 <= trunc x < 2 ^ 64).
  { unfold trunc. destruct (Rlt_dec x 0).
    - rewrite (Int_part_unique (- x) 0) by lra. lia.
    - pose proof (Int_part_pos x ltac:(lra)). pose proof (Int_part_spec x). split; [auto|]. apply lt_IZR. lra. }
  split; [|auto]. unfold r_to_u64. fold (trunc x). unfold to_u64. rewrite (proj2 (Z.leb_le 0 _)), (proj2 (Z.ltb_lt _ W)); [reflexivity|apply H|apply H].
Qed.
Lemma r_to_u64_bad x : (x <= -1)%R -> r_to_u64 x = Undef.
Proof.
  intros H. unfold r_to_u64. fold (trunc x). unfold to_u64. destruct (Z.leb_spec 0 (trunc x)); [|reflexivity]. exfalso.
  unfold trunc in *. destruct (Rlt_dec x 0); [|lra]. pose proof (Int_part_spec (- x)). assert (0 < Int_part (- x)); [apply lt_IZR; lra|lia].
Qed.

Lemma zq_const_ok Q w v : 1 <= Q -> is_word w -> is_word v -> zq_const Q w v = Ok (rep Q (w * v)).
Proof.
  intros HQ Hw Hv. unfold zq_const. rewrite zq_setzero_ok by (auto; unfold zq_new; apply fresh_length). cbn [bind].
  rewrite (first_word Q 2) by (auto; lia). cbn [bind]. apply zq_mul_word_raw; auto.
Qed.
Lemma product_value_ext k u v x : (forall n, 0 <= n < 2 ^ Z.of_nat k -> u n = v n) -> product_value k u x = product_value k v x.
Proof. intros H. unfold product_value. apply gsum_ext. intros n Hn. rewrite H by auto. reflexivity. Qed.
Lemma part_bound_ok (M : nat -> R) U (x : CC) k : (forall i, (i < k)%nat -> (modulus (cheb x (2 ^ i)) <= M i)%R) ->
  forall u, (forall n, 0 <= n < 2 ^ Z.of_nat k -> (Rabs (u n) <= U)%R) -> (modulus (product_value k u x) <= part_bound M U k)%R.
Proof.
  induction k as [|k IH]; intros HM u HU.
  - unfold product_value. cbn [Z.of_nat bit_product part_bound]. change (2 ^ 0) with 1.
    replace (gsum 1 _) with (real (u 0)); [rewrite modulus_real; apply HU; cbn; lia|]. rewrite (gsum_single HC 1 0); [|lia|intros; lia]. cbn [bit_product]. ring.
  - rewrite product_halves. cbn [part_bound]. rewrite Nat2Z.inj_succ, Z.pow_succ_r in HU by lia. assert (0 < 2 ^ Z.of_nat k) by (apply Z.pow_pos_nonneg; lia).
    assert (H1 : (modulus (product_value k u x) <= part_bound M U k)%R) by (apply IH; [intros; apply HM; lia|intros; apply HU; lia]).
    assert (H2 : (modulus (product_value k (fun n => u (2 ^ Z.of_nat k + n)%Z) x) <= part_bound M U k)%R) by (apply IH; [intros; apply HM; lia|intros; apply HU; lia]).
    eapply Rle_trans; [apply modulus_add|]. rewrite modulus_mul.
    assert (modulus (cheb x (2 ^ k)) * modulus (product_value k (fun n => u (2 ^ Z.of_nat k + n)%Z) x) <= M k * part_bound M U k)%R.
    { apply Rmult_le_compat; try apply modulus_nonneg; auto. } lra.
Qed.
Lemma cheb_double x i : cheb x (2 ^ S i) = ((1 + 1) * cheb x (2 ^ i) * cheb x (2 ^ i) - 1)%num.
Proof.
  pose proof (cheb_prod x (2 ^ i) (2 ^ i) ltac:(lia)) as H. rewrite Nat.sub_diag in H. cbn [cheb] in H. rewrite <- H.
  replace (2 ^ S i)%nat with (2 ^ i + 2 ^ i)%nat by (cbn; lia). ring.
Qed.
Lemma pow_LD LD : 1 <= LD <= 63 -> 2 <= 2 ^ LD < 2 ^ 64.
Proof. intros HLD. split; [change 2 with (2 ^ 1) at 1; apply Z.pow_le_mono_r; lia|apply Z.pow_lt_mono_r; lia]. Qed.
Lemma HDelta LD : 1 <= LD <= 63 -> (2 <= IZR (2 ^ LD))%R.
Proof. intros HLD. apply IZR_le. apply pow_LD. auto. Qed.
Lemma one_shl_ok LD : 1 <= LD <= 63 -> one_shl LD = Ok (2 ^ LD).
Proof. intros HLD. unfold one_shl. rewrite (proj2 (Z.leb_le _ _)), (proj2 (Z.ltb_lt _ _)) by lia. reflexivity. Qed.

Section Poly.
Context (LOGN LD : Z) (HL : 1 <= LOGN <= 17) (HLD : 1 <= LD <= 63) (s : Z -> Z).
Let N := 2 ^ LOGN. Let h := norm1 N s. Let Delta := IZR (2 ^ LD).
Local Lemma HN : 2 <= N.
Proof. unfold N. change 2 with (2 ^ 1) at 1. apply Z.pow_le_mono_r; lia. Qed.
Lemma pow_split Q : LD <= Q -> IZR (2 ^ (Q - (Q - LD))) = Delta.
Proof. intros. replace (Q - (Q - LD)) with LD by lia. reflexivity. Qed.


Lemma L0_ok sg Q n x : 1 <= Q -> (Rabs x * Delta < IZR (2 ^ 64))%R -> (Rabs x * Delta < IZR (2 ^ Q))%R -> (sg = false -> (-1 < x * Delta)%R) ->
  L0_entry sg Q N LD n x = Ok (repP Q N (const (trunc (x * Delta) * (if n mod 2 =? 0 then 2 ^ LD else 1)))).
Proof.
  intros HQ H64 HQ64 Hsg. pose proof HN. pose proof (pow_LD LD HLD) as Hp. pose proof (HDelta LD HLD) as HD; fold Delta in HD.
  unfold L0_entry. rewrite one_shl_ok by auto. cbn [bind]. rewrite rq_setzero_ok by (try lia; apply objP_new). cbn [bind]. fold Delta.
  set (y := ((if sg then Rabs x else x) * Delta)%R).
  assert (Hy : (-1 < y)%R /\ (y < IZR (2 ^ 64))%R /\ (y < IZR (2 ^ Q))%R).
  { unfold y. destruct sg; [|].
    - pose proof (Rabs_pos x). assert (0 <= Rabs x * Delta)%R by (apply Rmult_le_pos; lra). lra.
    - assert (x * Delta <= Rabs x * Delta)%R by (apply Rmult_le_compat_r; [lra|apply Rle_abs]). specialize (Hsg eq_refl). lra. }
  destruct Hy as (Hy1 & Hy2 & Hy3). destruct (r_to_u64_ok y Hy1 Hy2) as [-> Hw]. cbn [bind].
  set (w := trunc y) in *.
  assert (HwQ : 0 <= w < 2 ^ Q).
  { split; [lia|]. unfold w, trunc. destruct (Rlt_dec y 0) as [Hn|].
    - rewrite (Int_part_unique (- y) 0) by lra. apply Z.pow_pos_nonneg; lia.
    - apply lt_IZR. eapply Rle_lt_trans; [apply Int_part_spec|exact Hy3]. }
  unfold repP at 1. rewrite (pupd_tab N _ _ _ (rep Q w)).
  2: lia.
  2: { rewrite first_word0 by (auto; unfold is_word, W; lia). f_equal. apply raw_rep; lia. }
  cbn [bind]. set (v := if n mod 2 =? 0 then 2 ^ LD else 1).
  replace (if n mod 2 =? 0 then _ else _) with (Ok (repP Q N (const (w * v)))).
  2: { unfold v. destruct (n mod 2 =? 0).
    - rewrite (pupd_tab N _ _ _ (rep Q (w * 2 ^ LD))); [|lia|rewrite Z.eqb_refl; apply zq_mul_word_rep; auto; unfold is_word, W; lia].
      f_equal. apply tab_ext. intros i Hi. unfold const. destruct (Z.eqb_spec i 0); reflexivity.
    - f_equal. apply tab_ext. intros i Hi. unfold const. rewrite Z.mul_1_r. destruct (Z.eqb_spec i 0); reflexivity. }
  cbn [bind]. destruct sg.
  - destruct (Rlt_dec x 0) as [Hx|Hx].
    + unfold repP at 1. rewrite (pupd_tab N _ _ _ (rep Q (- (w * v)))); [|lia|unfold const; rewrite Z.eqb_refl; apply zq_negate_rep; auto].
      f_equal. apply tab_ext. intros i Hi. unfold const. destruct (Z.eqb_spec i 0) as [->|]; [|reflexivity]. f_equal.
      unfold w, y, trunc. rewrite (Rabs_left x Hx). assert (x * Delta < 0)%R by nra.
      destruct (Rlt_dec (- x * Delta) 0); [lra|]. destruct (Rlt_dec (x * Delta) 0); [|lra]. replace (- (x * Delta))%R with (- x * Delta)%R by ring. lia.
    + unfold w, y. rewrite Rabs_right by lra. reflexivity.
  - reflexivity.
Qed.

Lemma L0_list_ok sg Q cnt u : 1 <= Q -> 0 <= cnt ->
  (forall n, 0 <= n < cnt -> (Rabs (u n) * Delta < IZR (2 ^ 64))%R /\ (Rabs (u n) * Delta < IZR (2 ^ Q))%R /\ (sg = false -> (-1 < u n * Delta)%R)) ->
  L0_list sg Q N LD cnt (gtab cnt u) = Ok (tab cnt (fun n => repP Q N (const (trunc (u n * Delta) * (if n mod 2 =? 0 then 2 ^ LD else 1))))).
Proof.
  intros HQ Hc H. unfold L0_list.
  destruct (fill_list (fun n L => x <- grd (gtab cnt u) n ;; P <- L0_entry sg Q N LD n x ;; lset L n P) (rq_new Q N)
    (fun n d => d = repP Q N (const (trunc (u n * Delta) * (if n mod 2 =? 0 then 2 ^ LD else 1)))) cnt Hc) as (f & E & Hf).
  - intros n Hn. eexists. split; [reflexivity|]. intros L _. rewrite grd_gtab by auto. cbn [bind]. destruct (H n Hn) as (H1 & H2 & H3).
    rewrite L0_ok by auto. reflexivity.
  - rewrite E. f_equal. apply tab_ext. auto.
Qed.

Lemma err_nonneg Q ct D x e : carries Q N s ct D x e -> (0 <= e)%R.
Proof.
  intros (m & _ & Hs). eapply Rle_trans; [apply modulus_nonneg|apply (Hs 0)]. split; [lia|]. apply Z.div_str_pos. pose proof HN. lia.
Qed.
Lemma noises : (0 <= mul_noise N h Delta)%R /\ (0 <= rescale_noise N h Delta)%R.
Proof.
  pose proof HN. pose proof (HDelta LD HLD) as HD; fold Delta in HD. assert (0 <= h) by (apply norm1_nonneg; lia).
  unfold mul_noise, rescale_noise. split; (apply Rmult_le_pos; [apply Rmult_le_pos; apply IZR_le; lia|apply Rlt_le, Rinv_0_lt_compat; nra]).
Qed.

Lemma carries_double Q T evk D x e M : LD < Q -> widths Q -> widths (2 * Q) -> switching_key Q N evk (negconv N s s) s -> object2 (Q - LD) N D ->
  (forall j, 0 <= j < N / 2 -> (modulus (x j) <= M)%R) -> carries Q N s T Delta x e ->
  exists T', double_angle Q N LD T evk D = Ok T' /\ carries (Q - LD) N s T' Delta (fun j => (1 + 1) * x j * x j - 1)%num (double_error N h Delta M e).
Proof.
  intros HQ HW HW2 Hk Ho HM HT. pose proof HN. pose proof (HDelta LD HLD) as HD; fold Delta in HD. pose proof (pow_LD LD HLD) as Hp.
  destruct (carries_Mul LOGN HL s Q T T evk (sq_new Q N) Delta Delta x x e e M M HW HW2 Hk ltac:(apply new_object2; lia) ltac:(lra) ltac:(lra) HM HM HT HT) as (t1 & E1 & H1).
  fold N in E1, H1. destruct (carries_scale LOGN HL s Q t1 _ _ _ 2 ltac:(lia) ltac:(lia) H1) as (t2 & E2 & H2). fold N in E2, H2.
  destruct (carries_sub0 LOGN HL s Q t2 _ _ _ (2 ^ LD * 2 ^ LD) ltac:(lia) H2) as (t0 & E3 & H3). fold N in H3.
  replace (Delta * Delta)%R with (Delta * IZR (2 ^ (Q - (Q - LD))))%R in H3 at 1 by (rewrite pow_split by lia; reflexivity).
  destruct (carries_RS LOGN HL s Q (Q - LD) _ D Delta _ _ ltac:(lia) ltac:(lra) Ho H3) as (T' & E4 & H4). fold N in E4, H4.
  exists T'. split.
  - unfold double_angle. rewrite E1. cbn [bind]. rewrite E2. cbn [bind]. rewrite one_shl_ok by auto. cbn [bind]. rewrite zq_const_ok by (try lia; unfold is_word, W; lia).
    cbn [bind]. replace (pupd _ _ _) with (Ok t0) by (symmetry; exact E3). cbn [bind]. exact E4.
  - eapply carries_ext; [| |exact H4]; fold N.
    + intros j Hj. rewrite mult_IZR. fold Delta. replace (Delta * Delta / (Delta * Delta))%R with 1%R by (field; lra).
      replace (real 1) with (1%num : CC) by (apply RC_eq; reflexivity). rewrite real_2. ring.
    + unfold double_error, mul_noise, rescale_noise. fold h. apply Req_le. field. lra.
Qed.

Lemma carries_combine Q (T a b evk D : sq) x xa xb e ea M B : LD < Q -> widths Q -> widths (2 * Q) -> switching_key Q N evk (negconv N s s) s -> object2 (Q - LD) N D ->
  (forall j, 0 <= j < N / 2 -> (modulus (x j) <= M)%R) -> (forall j, 0 <= j < N / 2 -> (modulus (xb j) <= B)%R) ->
  carries Q N s T Delta x e -> carries Q N s a Delta xa ea -> carries Q N s b Delta xb ea ->
  forall (L : list sq) n, lget L (2 * n + 1) = Ok b -> lget L (2 * n) = Ok a ->
  exists p, combine Q N LD T L n evk D = Ok p /\ carries (Q - LD) N s p Delta (fun j => xa j + x j * xb j)%num (combine_error N h Delta M e B ea).
Proof.
  intros HQ HW HW2 Hk Ho HM HB HT Ha Hb L n Lb La. pose proof HN. pose proof (HDelta LD HLD) as HD; fold Delta in HD. pose proof (pow_LD LD HLD) as Hp.
  destruct (carries_Mul LOGN HL s Q T b evk (sq_new Q N) Delta Delta x xb e ea M B HW HW2 Hk ltac:(apply new_object2; lia) ltac:(lra) ltac:(lra) HM HB HT Hb) as (t1 & E1 & H1).
  fold N in E1, H1. destruct (carries_raise LOGN HL s Q a Delta _ _ (2 ^ LD) ltac:(lia) ltac:(lia) ltac:(lra) Ha) as (a' & E2 & H2). fold N Delta in E2, H2.
  destruct (carries_add LOGN HL s Q t1 a' _ _ _ _ _ ltac:(lia) H1 H2) as (t2 & E3 & H3). fold N in E3, H3.
  replace (Delta * Delta)%R with (Delta * IZR (2 ^ (Q - (Q - LD))))%R in H3 at 1 by (rewrite pow_split by lia; reflexivity).
  destruct (carries_RS LOGN HL s Q (Q - LD) _ D Delta _ _ ltac:(lia) ltac:(lra) Ho H3) as (p & E4 & H4). fold N in E4, H4.
  exists p. split.
  - unfold combine. rewrite Lb. cbn [bind]. rewrite E1. cbn [bind]. rewrite La. cbn [bind]. rewrite one_shl_ok by auto. cbn [bind]. rewrite E2. cbn [bind]. rewrite E3. cbn [bind]. exact E4.
  - eapply carries_ext; [| |exact H4]; fold N.
    + intros j Hj. cbv beta. ring.
    + unfold combine_error, mul_noise, rescale_noise. fold h. apply Req_le. field. lra.
Qed.

Lemma carries_near Q ct D x y e d : (forall j, 0 <= j < N / 2 -> (modulus (x j - y j)%num <= d)%R) -> carries Q N s ct D x e -> carries Q N s ct D y (e + d).
Proof.
  intros H (m & Hm & Hs). exists m. split; [auto|]. intros j Hj.
  match goal with |- (modulus ?z0 <= _)%R => replace z0 with ((slots N D m j - x j) + (x j - y j))%num by ring end.
  eapply Rle_trans; [apply modulus_add|]. apply Rplus_le_compat; auto.
Qed.

Lemma trunc_scaled x : (Rabs (IZR (trunc (x * Delta)) / Delta - x) <= 1 / Delta)%R /\ (Rabs (IZR (trunc (x * Delta)) / Delta) <= Rabs x)%R.
Proof.
  pose proof (HDelta LD HLD) as HD; fold Delta in HD. pose proof (trunc_near (x * Delta)) as H1. pose proof (trunc_abs (x * Delta)) as H2. set (q := IZR (trunc (x * Delta))) in *. split.
  - replace (q / Delta - x)%R with ((q - x * Delta) * / Delta)%R by (field; lra). unfold Rdiv. rewrite Rabs_mult, (Rabs_right (/ Delta)) by (apply Rle_ge, Rlt_le, Rinv_0_lt_compat; lra).
    apply Rmult_le_compat_r; [apply Rlt_le, Rinv_0_lt_compat; lra|auto].
  - unfold Rdiv. rewrite Rabs_mult, (Rabs_right (/ Delta)) by (apply Rle_ge, Rlt_le, Rinv_0_lt_compat; lra). rewrite Rabs_mult, (Rabs_right Delta) in H2 by lra.
    apply (Rmult_le_reg_r Delta); [lra|]. rewrite Rmult_assoc, Rinv_l by lra. lra.
Qed.

Definition L0_of (u : Z -> R) (n : Z) : Z := trunc (u n * Delta) * (if n mod 2 =? 0 then 2 ^ LD else 1).
Lemma carries_linear Q (T1 : sq) u x e M U cnt : LD < Q -> widths Q -> 0 <= cnt -> (forall j, 0 <= j < N / 2 -> (modulus (x j) <= M)%R) ->
  (forall n, 0 <= n < 2 * cnt -> (Rabs (u n) <= U)%R) -> carries Q N s T1 Delta x e ->
  exists f, L1_list Q N LD cnt (tab (2 * cnt) (fun n => repP Q N (const (L0_of u n)))) T1 = Ok (tab cnt f) /\
    forall n, 0 <= n < cnt -> carries (Q - LD) N s (f n) Delta (fun j => real (u (2 * n)%Z) + x j * real (u (2 * n + 1)%Z))%num (combine_error N h Delta M e U (1 / Delta)).
Proof.
  intros HQ HW Hc HM HU HT. pose proof HN. pose proof (HDelta LD HLD) as HD; fold Delta in HD. pose proof (pow_LD LD HLD) as Hp. unfold L1_list.
  apply (fill_list (A := sq) _ _ (fun n d => carries (Q - LD) N s d Delta (fun j => real (u (2 * n)%Z) + x j * real (u (2 * n + 1)%Z))%num (combine_error N h Delta M e U (1 / Delta)))); [auto|].
  intros n Hn. set (q0 := trunc (u (2 * n) * Delta)). set (q1 := trunc (u (2 * n + 1) * Delta)).
  destruct (carries_times LOGN HL s Q T1 Delta x e q1 Delta HW ltac:(lra) ltac:(lra) HT) as (t1 & E1 & H1). fold N in E1, H1.
  destruct (carries_const LOGN HL s Q t1 _ _ _ (q0 * 2 ^ LD) ltac:(lia) H1) as (t0 & E2 & H2). fold N in E2, H2.
  replace (Delta * Delta)%R with (Delta * IZR (2 ^ (Q - (Q - LD))))%R in H2 at 1 by (rewrite pow_split by lia; reflexivity).
  destruct (carries_RS LOGN HL s Q (Q - LD) _ (sq_new (Q - LD) N) Delta _ _ ltac:(lia) ltac:(lra) ltac:(apply new_object2; fold N; lia) H2) as (d & E3 & H3). fold N in E3, H3.
  exists d. split.
  - eapply carries_ext; [reflexivity| |eapply carries_near; [|exact H3]].
    2: { intros j Hj. cbv beta.
      replace (IZR (q0 * 2 ^ LD) / (Delta * Delta))%R with (IZR q0 / Delta)%R by (rewrite mult_IZR; fold Delta; field; lra).
      match goal with |- (modulus ?z0 <= _)%R => replace z0 with (x j * real (IZR q1 / Delta - u (2 * n + 1)%Z) + real (IZR q0 / Delta - u (2 * n)%Z))%num by (rewrite !real_sub; ring) end.
      eapply Rle_trans; [apply modulus_add|]. rewrite modulus_mul, !modulus_real.
      apply Rplus_le_compat; [apply Rmult_le_compat; [apply modulus_nonneg|apply Rabs_pos|apply HM; auto|apply trunc_scaled]|apply trunc_scaled]. }
    pose proof (err_nonneg _ _ _ _ _ HT) as He. unfold combine_error.
    assert (H4 : (Rabs (IZR q1 / Delta) * e <= U * e)%R).
    { apply Rmult_le_compat_r; [auto|]. eapply Rle_trans; [apply trunc_scaled|apply HU; lia]. }
    pose proof noises as [Hn1 _]. assert (0 <= e * (1 / Delta))%R by (apply Rmult_le_pos; [auto|apply Rlt_le, Rdiv_lt_0_compat; lra]). fold h. lra.
  - intros L HLn. rewrite (carries_copy LOGN HL s Q T1 Delta x e) by (auto; try lia; try (apply new_object2; fold N; lia)). cbn [bind].
    rewrite lget_tab by lia. cbn [bind].
    replace (L0_of u (2 * n + 1)) with q1.
    2: { unfold L0_of. replace ((2 * n + 1) mod 2) with 1 by (rewrite Z.add_comm, Z.mul_comm, Z_mod_plus_full; reflexivity). change (1 =? 0) with false. cbv iota. fold q1. lia. }
    rewrite E1. cbn [bind]. rewrite lget_tab by lia. cbn [bind].
    replace (L0_of u (2 * n)) with (q0 * 2 ^ LD).
    2: { unfold L0_of. replace (2 * n mod 2) with 0 by (rewrite Z.mul_comm, Z_mod_mult; reflexivity). change (0 =? 0) with true. cbv iota. fold q0. lia. }
    replace (rq_add _ _ _ _) with (Ok t0) by (symmetry; exact E2). cbn [bind]. rewrite HLn. cbn [bind]. replace (RS _ _ _ _ _) with (Ok d) by (symmetry; exact E3). reflexivity.
Qed.


Fixpoint chain (Q : Z) (evks : list sq) : Prop :=
  match evks with
  | [] => True
  | evk :: r => LD < Q /\ widths Q /\ widths (2 * Q) /\ switching_key Q N evk (negconv N s s) s /\ chain (Q - LD) r
  end.

Section Levels.
Context (M : nat -> R) (U e : R) (u : Z -> R) (x : Z -> CC).
Definition part (k : nat) (n j : Z) : CC := product_value k (fun m => u (n * 2 ^ Z.of_nat k + m)%Z) (x j).
Lemma part_S k n j : part (S k) n j = (part k (2 * n) j + cheb (x j) (2 ^ k) * part k (2 * n + 1) j)%num.
Proof.
  unfold part. rewrite product_halves. assert (E : 2 ^ Z.of_nat (S k) = 2 * 2 ^ Z.of_nat k) by (rewrite Nat2Z.inj_succ, Z.pow_succ_r by lia; reflexivity).
  rewrite E. f_equal; [|f_equal]; apply product_value_ext; intros m Hm; f_equal; ring.
Qed.
Lemma levels_ok evks : evks <> [] -> forall i Q cnt (T : sq) (f : Z -> sq) evk (p : sq),
  chain Q (evk :: evks) -> cnt = 2 ^ Z.of_nat (length evks - 1) ->
  (forall b, (b <= i + length evks)%nat -> forall j, 0 <= j < N / 2 -> (modulus (cheb (x j) (2 ^ b)) <= M b)%R) ->
  (forall n, 0 <= n < 2 ^ Z.of_nat (S i + length evks) -> (Rabs (u n) <= U)%R) ->
  carries Q N s T Delta (fun j => cheb (x j) (2 ^ i)) (angle_error N h Delta M e i) ->
  (forall n, 0 <= n < 2 * cnt -> carries (Q - LD) N s (f n) Delta (part (S i) n) (poly_error N h Delta M U e (S i))) ->
  object2 (Q - LD * Z.of_nat (S (length evks))) N p ->
  exists p', eval_levels N LD Q cnt T (tab (2 * cnt) f) evk evks p = Ok p' /\
    carries (Q - LD * Z.of_nat (S (length evks))) N s p' Delta (fun j => product_value (S i + length evks) u (x j)) (poly_error N h Delta M U e (S i + length evks)).
Proof.
  induction evks as [|evk' rest IH]; [congruence|]. intros _ i Q cnt T f evk p HCh Hc HM HU HT HLs Hp.
  cbn [chain] in HCh. destruct HCh as (HQ & HW & HW2 & Hk & HQ' & HW' & HW2' & Hk' & HCh). cbn [length] in *.
  pose proof HN. cbn [eval_levels].
  destruct (carries_double Q T evk (sq_new (Q - LD) N) _ _ (M i) HQ HW HW2 Hk ltac:(apply new_object2; lia) (HM i ltac:(lia)) HT) as (T' & -> & HT'). cbn [bind].
  assert (HT2 : carries (Q - LD) N s T' Delta (fun j => cheb (x j) (2 ^ S i)) (angle_error N h Delta M e (S i))).
  { eapply carries_ext; [|apply Rle_refl|exact HT']. intros j Hj. symmetry. apply cheb_double. }
  assert (Hcomb : forall n D, 0 <= n < cnt -> object2 (Q - LD - LD) N D -> exists d, combine (Q - LD) N LD T' (tab (2 * cnt) f) n evk' D = Ok d /\
    carries (Q - LD - LD) N s d Delta (part (S (S i)) n) (poly_error N h Delta M U e (S (S i)))).
  { intros n D Hn HD'.
    assert (Hpb : forall j, 0 <= j < N / 2 -> (modulus (part (S i) (2 * n + 1) j) <= part_bound M U (S i))%R).
    { intros j Hj. unfold part. apply part_bound_ok; [intros b Hb; apply HM; [lia|auto]|]. intros m Hm. apply HU.
      assert (E : 2 ^ Z.of_nat (S i + S (length rest)) = 2 * cnt * 2 ^ Z.of_nat (S i)).
      { rewrite Hc. replace (S (length rest) - 1)%nat with (length rest) by lia. replace 2 with (2 ^ 1) at 2 by reflexivity. rewrite <- !Z.pow_add_r by lia. f_equal. lia. }
      rewrite E. split; [nia|]. assert (2 * n + 1 + 1 <= 2 * cnt) by lia. nia. }
    destruct (carries_combine (Q - LD) T' (f (2 * n)) (f (2 * n + 1)) evk' D _ _ _ _ _ (M (S i)) (part_bound M U (S i)) HQ' HW' HW2' Hk' HD'
      (HM (S i) ltac:(lia)) Hpb HT2 (HLs (2 * n) ltac:(lia)) (HLs (2 * n + 1) ltac:(lia)) (tab (2 * cnt) f) n ltac:(apply lget_tab; lia) ltac:(apply lget_tab; lia)) as (d & Ed & Hd).
    exists d. split; [exact Ed|]. eapply carries_ext; [|apply Rle_refl|exact Hd]. intros j Hj. symmetry. apply part_S. }
  destruct rest as [|evk'' rest].
  - cbn [length] in *. change (2 ^ Z.of_nat (1 - 1)) with 1 in Hc. subst cnt.
    replace (Q - LD * Z.of_nat 2) with (Q - LD - LD) in * by lia.
    destruct (Hcomb 0 p ltac:(lia) Hp) as (d & Ed & Hd). exists d. split; [exact Ed|]. replace (S i + 1)%nat with (S (S i)) by lia.
    eapply carries_ext; [|apply Rle_refl|exact Hd]. intros j Hj. unfold part. apply product_value_ext. intros m Hm. f_equal; lia.
  - assert (Hc2 : cnt = 2 * (cnt / 2) /\ cnt / 2 = 2 ^ Z.of_nat (length (evk'' :: rest) - 1)).
    { subst cnt. cbn [length]. replace (S (S (length rest)) - 1)%nat with (S (length rest)) by lia. replace (S (length rest) - 1)%nat with (length rest) by lia.
      rewrite Nat2Z.inj_succ, Z.pow_succ_r by lia. rewrite (Z.mul_comm 2), Z.div_mul by lia. lia. }
    destruct Hc2 as [Hc2 Hc3].
    destruct (fill_list (A := sq) (fun n L' => d <- lget L' n ;; d <- combine (Q - LD) N LD T' (tab (2 * cnt) f) n evk' d ;; lset L' n d) (sq_new (Q - LD - LD) N)
      (fun n d => carries (Q - LD - LD) N s d Delta (part (S (S i)) n) (poly_error N h Delta M U e (S (S i)))) cnt) as (g & Eg & Hg).
    { pose proof (Z.pow_nonneg 2 (Z.of_nat (length (evk'' :: rest) - 1))). lia. }
    { intros n Hn. cbn [chain] in HCh. destruct (Hcomb n (sq_new (Q - LD - LD) N) Hn ltac:(apply new_object2; lia)) as (d & Ed & Hd). exists d. split; [exact Hd|].
      intros L ->. cbn [bind]. rewrite Ed. reflexivity. }
    rewrite Eg. cbn [bind].
    destruct (IH ltac:(congruence) (S i) (Q - LD) (cnt / 2) T' g evk' p) as (p' & E' & H').
    + cbn [chain]. cbn [chain] in HCh. tauto.
    + exact Hc3.
    + intros b Hb. apply HM. cbn [length] in *. lia.
    + intros n Hn. apply HU. cbn [length] in *. replace (S i + S (S (length rest)))%nat with (S (S i) + S (length rest))%nat by lia. exact Hn.
    + exact HT2.
    + rewrite <- Hc2. exact Hg.
    + cbn [length] in *. replace (Q - LD - LD * Z.of_nat (S (S (length rest)))) with (Q - LD * Z.of_nat (S (S (S (length rest))))) by lia. exact Hp.
    + exists p'. rewrite <- Hc2 in E'. split; [exact E'|]. cbn [length] in *.
      replace (Q - LD * Z.of_nat (S (S (S (length rest))))) with (Q - LD - LD * Z.of_nat (S (S (length rest)))) by lia.
      replace (S i + S (S (length rest)))%nat with (S (S i) + S (length rest))%nat by lia. exact H'.
Qed.
End Levels.

Theorem eval_poly_ok sg Q K (M : nat -> R) U e u x (ct : sq) evk1 evks p :
  (length evks = K)%nat -> (1 <= K)%nat -> chain Q (evk1 :: evks) ->
  (forall b, (b <= K)%nat -> forall j, 0 <= j < N / 2 -> (modulus (cheb (x j) (2 ^ b)) <= M b)%R) ->
  (forall n, 0 <= n < 2 ^ Z.of_nat (S K) -> (Rabs (u n) <= U)%R /\ (sg = false -> (-1 < u n * Delta)%R)) ->
  (U * Delta < IZR (2 ^ 64))%R -> (U * Delta < IZR (2 ^ Q))%R ->
  carries Q N s ct Delta x e -> object2 (Q - LD * Z.of_nat (S K)) N p ->
  exists p', eval_poly sg Q N LD (2 ^ Z.of_nat K) (gtab (2 ^ Z.of_nat (S K)) u) ct evk1 evks p = Ok p' /\
    carries (Q - LD * Z.of_nat (S K)) N s p' Delta (fun j => product_value (S K) u (x j)) (poly_error N h Delta M U e (S K)).
Proof.
  intros HK HK1 HCh HM HU HU64 HUQ HT Hp. pose proof HN. pose proof (HDelta LD HLD) as HD; fold Delta in HD. assert (HQ : LD < Q /\ widths Q) by (cbn [chain] in HCh; tauto).
  assert (E2 : 2 ^ Z.of_nat (S K) = 2 * 2 ^ Z.of_nat K) by (rewrite Nat2Z.inj_succ, Z.pow_succ_r by lia; reflexivity).
  assert (E3 : 2 ^ Z.of_nat K = 2 * 2 ^ Z.of_nat (K - 1)).
  { replace (Z.of_nat K) with (Z.succ (Z.of_nat (K - 1))) by lia. apply Z.pow_succ_r. lia. }
  assert (0 < 2 ^ Z.of_nat (K - 1)) by (apply Z.pow_pos_nonneg; lia).
  unfold eval_poly. rewrite <- E2. rewrite L0_list_ok; [|lia|lia|].
  2: { intros n Hn. destruct (HU n Hn) as [Hn1 Hn2]. assert (Rabs (u n) * Delta <= U * Delta)%R by (apply Rmult_le_compat_r; [lra|auto]). split; [lra|split; [lra|auto]]. }
  cbn [bind]. rewrite E2.
  destruct (carries_linear Q ct u x e (M 0%nat) U (2 ^ Z.of_nat K)) as (f & Ef & Hf); auto; try tauto; try lia.
  { intros j Hj. specialize (HM 0%nat ltac:(lia) j Hj). exact HM. }
  { intros n Hn. apply HU. lia. }
  unfold L0_of in Ef. rewrite Ef. cbn [bind]. replace (2 ^ Z.of_nat K / 2) with (2 ^ Z.of_nat (K - 1)) by (rewrite E3, Z.mul_comm, Z.div_mul; lia). rewrite E3.
  destruct (levels_ok M U e u x evks ltac:(intros ->; cbn in HK; lia) 0 Q (2 ^ Z.of_nat (K - 1)) ct f evk1 p) as (p' & Ep & Hp'); rewrite ?HK; auto.
  - intros n Hn. apply HU. exact Hn.
  - intros n Hn. eapply carries_ext; [|apply Rle_refl|apply Hf; lia]. intros j Hj. rewrite part_S. unfold part.
    assert (H1 : forall v y, product_value 0 v y = real (v 0)).
    { intros v y. unfold product_value. change (2 ^ Z.of_nat 0) with 1. rewrite (gsum_single HC 1 0); [|lia|intros; lia]. cbn [bit_product]. ring. }
    rewrite !H1. cbn [Z.of_nat cheb Nat.pow]. f_equal; [|f_equal]; do 2 f_equal; change (2 ^ 0) with 1; lia.
  - exists p'. split; [exact Ep|]. rewrite HK in Hp'. exact Hp'.
Qed.
End Poly.
