(** C103: what element_test and vector_test of matmul_test.cpp print. *)
From Coq Require Import ZArith List Bool Lia Reals Lra Ring.
From Verif Require Import Base BaseFacts Sums ZQ RQ Conv Rot Util GSum Matrix MatrixFacts MatMulFacts
  DFT DFTTheory DFTFacts FFTFacts SpecZQ SpecPoly SpecMat Properties_Mat Properties_Msg SpecDFT Properties_DFT SpecEnc
  GroupFacts SlotFacts Encode Plain BootFacts Properties_Enc Properties_Plain SpecLin SpecBoot PlainFacts SpecStat StatFacts Section3 Properties_Stat Properties_MatErr Properties_Serial.
From Verif Require Import TestLin.
Import ListNotations.
Open Scope Z_scope.
Add Ring RCtm : HR.

(** get_element returns the entry of the matrix when of several diagonals with the same offset only the first is not zero *)
Lemma get_element_first N S (v : Z -> Z -> R) o z i j : 0 < N <= 2 ^ 30 -> 0 <= S -> offsets_in N S o ->
  (forall s t, 0 <= s < t -> t < S -> o s = o t -> forall i, 0 <= i < N -> v t i = 0%R) -> 0 <= i < N -> 0 <= j < N ->
  get_element (K := Rops) N S (diagonals (F := Rops) N S v o z) i j = Ok (matrix_of (K := Rops) N S v o i j).
Proof.
  intros HN HS Ho Hd Hi Hj. rewrite diagonals_sdi, (get_element_ok (K := Rops)); auto.
  2:{ intros s Hs. specialize (Ho s Hs). lia. }
  apply f_equal. cbv zeta. pose proof (first_diag_spec N S i j o HS) as H. cbv zeta in H. destruct H as (Hr & H1 & H2).
  set (r := first_diag N S i j o) in *. destruct (Z.ltb_spec r S) as [Hlt|Hge].
  - unfold matrix_of. rewrite (gsum_single (K := Rops) Rlawful S r).
    + specialize (H2 Hlt). unfold ondiag in H2. rewrite H2. reflexivity.
    + lia.
    + intros s Hs Hne. destruct (Z.eqb_spec ((j - i - o s) mod N) 0) as [E|]; [|reflexivity].
      destruct (Z.lt_ge_cases s r) as [L|L].
      { specialize (H1 s ltac:(lia)). unfold ondiag in H1. apply Z.eqb_neq in H1. congruence. }
      specialize (H2 Hlt). unfold ondiag in H2. apply Z.eqb_eq in H2. apply (Hd r s); try lia.
      pose proof (Ho r ltac:(lia)). pose proof (Ho s Hs).
      assert (Q1 : (o s - o r) mod N = 0). { replace (o s - o r) with ((j - i - o r) - (j - i - o s)) by ring. rewrite Zminus_mod, E, H2. reflexivity. }
      apply Z.mod_divide in Q1; [|lia]. destruct Q1 as [k Hk]. assert (k = 0) by nia. lia.
  - symmetry. unfold matrix_of. apply (gsum_zero (K := Rops) Rlawful). intros s Hs. specialize (H1 s ltac:(lia)). unfold ondiag in H1. rewrite H1. reflexivity.
Qed.

(** The matrix of stage d of the inverse transform *)
Definition stage_matrix (LOGN d : Z) : Z -> Z -> CC := matrix_of (2 ^ (LOGN - 1)) 3 (stage_diagonal LOGN d) (stage_offset LOGN d).

Section Mat.
Context (LOGN : Z) (HL : 3 <= LOGN <= 17).
Local Notation n := (2 ^ (LOGN - 1)).
Local Notation re d := (fun t j => cre Rops (uA LOGN d t j)).
Local Notation im d := (fun t j => cim Rops (uA LOGN d t j)).
Let HL2 : 2 <= LOGN <= 17. Proof. lia. Qed.
Let Hn : 0 < n <= 2 ^ 30.
Proof. split; [apply Z.pow_pos_nonneg; lia|apply Z.pow_le_mono_r; lia]. Qed.
Let L0 : 0 <= 0 <= 63. Proof. lia. Qed.

Lemma stage_tab d : 0 <= d < LOGN - 1 ->
  lget (fst (bwd_tables LOGN)) d = Ok (diagonals (F := Rops) n 3 (re d) (uo LOGN d) (zR (2 ^ d))) /\ lget (snd (bwd_tables LOGN)) d = Ok (diagonals (F := Rops) n 3 (im d) (uo LOGN d) zI).
Proof.
  intros Hd. destruct (stage_msg LOGN HL2 0 d (fun _ => 0%num) (carray (K := Rops) n (fun _ => (0%num : CC))) Hd (carray_of_carray _ _)) as (a & b & E1 & E2 & -> & -> & _). auto.
Qed.
Lemma stage_flags d : 0 <= d < LOGN - 1 -> flags_right (K := Rops) n 3 (re d) (im d) (uo LOGN d) (uo LOGN d) (zR (2 ^ d)) zI.
Proof.
  intros Hd t Ht. destruct (stage_shape LOGN 0 d Hd) as (H1 & H2 & H3). pose proof (bA_flags n (Md LOGN d) (2 ^ d) H1 H2 H3 (csd LOGN d) (snd_ LOGN d) 1 t Ht) as F. cbv beta in F. unfold uA, uo.
  destruct (zR (2 ^ d) t && zI t); auto. intros i Hi. specialize (F i Hi). rewrite !Rmult_1_r in F. exact F.
Qed.
Lemma stage_offs d : 0 <= d < LOGN - 1 -> offsets_in n 3 (uo LOGN d).
Proof. intros Hd t Ht. destruct (stage_shape LOGN 0 d Hd) as (H1 & H2 & H3). apply (tr_offs n (Md LOGN d) (2 ^ d)); auto. Qed.
Lemma stage_same d s t : 0 <= d < LOGN - 1 -> 0 <= s < t -> t < 3 -> uo LOGN d s = uo LOGN d t -> forall i, 0 <= i < n -> uA LOGN d t i = 0%num.
Proof.
  intros Hd Hs Ht E i Hi. rewrite !(uo_offset LOGN HL2 0 L0) in E by (auto; lia). rewrite (uA_diagonal LOGN HL2 0 L0) by (auto; lia).
  assert (EM : n = 2 ^ (LOGN - 2 - d) * (2 * 2 ^ d)). { replace (2 * 2 ^ d) with (2 ^ (1 + d)) by (rewrite Z.pow_add_r by lia; reflexivity). rewrite <- Z.pow_add_r by lia. f_equal. lia. }
  assert (PM : 0 < 2 ^ (LOGN - 2 - d)) by (apply Z.pow_pos_nonneg; lia). unfold stage_offset in E. set (M := 2 ^ (LOGN - 2 - d)) in *.
  assert (Pd : 0 < 2 ^ d) by (apply Z.pow_pos_nonneg; lia).
  destruct (Z.eqb_spec s 0); destruct (Z.eqb_spec t 0); try lia; destruct (Z.eqb_spec s 1); destruct (Z.eqb_spec t 1); try lia; try nia.
  assert (t = 2) by lia. subst s t. assert (d = 0). { destruct (Z.eq_dec d 0); auto. assert (2 ^ 1 <= 2 ^ d) by (apply Z.pow_le_mono_r; lia). nia. }
  subst d. unfold stage_diagonal. destruct (_ <? _); reflexivity.
Qed.
Lemma stage_get d i j : 0 <= d < LOGN - 1 -> 0 <= i < n -> 0 <= j < n ->
  get_element (K := Rops) n 3 (diagonals (F := Rops) n 3 (re d) (uo LOGN d) (zR (2 ^ d))) i j = Ok (cre Rops (uM LOGN d i j)) /\
  get_element (K := Rops) n 3 (diagonals (F := Rops) n 3 (im d) (uo LOGN d) zI) i j = Ok (cim Rops (uM LOGN d i j)).
Proof.
  intros Hd Hi Hj. pose proof (stage_offs d Hd) as Ho. rewrite !get_element_first; auto; try lia.
  2:{ intros s t Hs Ht E k Hk. rewrite (stage_same d s t Hd Hs Ht E k Hk). reflexivity. }
  2:{ intros s t Hs Ht E k Hk. rewrite (stage_same d s t Hd Hs Ht E k Hk). reflexivity. }
  unfold uM. rewrite <- (GroupFacts.cmat_of n 3 (uA LOGN d) (uo LOGN d) i j). split; reflexivity.
Qed.
Lemma stage_uM d i j : 0 <= d < LOGN - 1 -> 0 <= i < n -> uM LOGN d i j = stage_matrix LOGN d i j.
Proof.
  intros Hd Hi. unfold uM, stage_matrix, matrix_of. apply gsum_ext. intros t Ht. rewrite (uo_offset LOGN HL2 0 L0) by auto. rewrite (uA_diagonal LOGN HL2 0 L0) by auto. reflexivity.
Qed.

(** the product of two stages, entry by entry *)
Lemma stages_product d e : 0 <= d < LOGN - 1 -> 0 <= e < LOGN - 1 ->
  exists vr vi o z, matmul2 (K := Rops) n 3 3 (diagonals (F := Rops) n 3 (re d) (uo LOGN d) (zR (2 ^ d))) (diagonals (F := Rops) n 3 (im d) (uo LOGN d) zI)
      (diagonals (F := Rops) n 3 (re e) (uo LOGN e) (zR (2 ^ e))) (diagonals (F := Rops) n 3 (im e) (uo LOGN e) zI) (sd_new Rops n 9) (sd_new Rops n 9)
      = Ok (diagonals (F := Rops) n 9 vr o z, diagonals (F := Rops) n 9 vi o z) /\
    flags_right (K := Rops) n 9 vr vi o o z z /\
    (forall i j, 0 <= i < n -> 0 <= j < n -> cmat (K := Rops) (matrix_of (K := Rops) n 9 vr o) (matrix_of (K := Rops) n 9 vi o) i j = product n (uM LOGN d) (uM LOGN e) i j) /\
    forall i j, 0 <= i < n -> 0 <= j < n ->
      get_element (K := Rops) n 9 (diagonals (F := Rops) n 9 vr o z) i j = Ok (cre Rops (product n (uM LOGN d) (uM LOGN e) i j)) /\
      get_element (K := Rops) n 9 (diagonals (F := Rops) n 9 vi o z) i j = Ok (cim Rops (product n (uM LOGN d) (uM LOGN e) i j)).
Proof.
  intros Hd He. pose proof (flags_fits _ _ _ _ _ _ _ _ (stage_flags d Hd)) as F1. pose proof (flags_fits _ _ _ _ _ _ _ _ (stage_flags e He)) as F2.
  destruct (shape_sdt _ _ _ (shape_new n 9 ltac:(lia))) as (a & b & c & E).
  destruct (matmul2_ok Rlawful n 3 3 _ _ _ _ _ _ _ _ _ _ _ _ (sd_new Rops n 9) (sd_new Rops n 9) a b c a b c Hn ltac:(lia) ltac:(lia) F1 F2 E E) as (v & o & z & cnt & E1 & HI). change (3 * 3) with 9 in *.
  assert (Hoff : offsets_in n 9 o).
  { intros s Hs. destruct (Z.lt_ge_cases s cnt).
    - apply (inv_used _ _ _ _ _ _ _ _ HI s). lia.
    - destruct (inv_free _ _ _ _ _ _ _ _ HI s ltac:(lia)) as [-> _]. lia. }
  assert (HF : flags_right (K := Rops) n 9 (reals v) (imags v) o o z z).
  { intros s Hs. rewrite andb_diag. destruct (z s) eqn:Ez.
    - intros i Hi. destruct (Z.lt_ge_cases s cnt).
      + destruct (inv_used _ _ _ _ _ _ _ _ HI s ltac:(lia)) as [_ E2]. congruence.
      + destruct (inv_free _ _ _ _ _ _ _ _ HI s ltac:(lia)) as (_ & _ & E2). unfold reals, imags. rewrite E2 by auto. split; reflexivity.
    - split; auto. }
  assert (HM : forall i j, 0 <= i < n -> 0 <= j < n -> cmat (K := Rops) (matrix_of (K := Rops) n 9 (reals v) o) (matrix_of (K := Rops) n 9 (imags v) o) i j = product n (uM LOGN d) (uM LOGN e) i j).
  { intros i j Hi Hj. pose proof (inv_sum _ _ _ _ _ _ _ _ HI i j Hi Hj) as Hs. cbv beta in Hs. rewrite <- reals_cvec in Hs.
    rewrite (fits_dense n 9 (reals v) (imags v) o o z z i j Hi (flags_fits _ _ _ _ _ _ _ _ HF)) in Hs. etransitivity; [exact Hs|].
    unfold product. apply gsum_ext. intros k Hk. rewrite (fits_dense _ _ _ _ _ _ _ _ i k Hi F1), (fits_dense _ _ _ _ _ _ _ _ k j Hk F2).
    unfold uM. rewrite <- !GroupFacts.cmat_of. reflexivity. }
  exists (reals v), (imags v), o, z. rewrite !diagonals_sdi. split; [exact E1|]. split; [exact HF|]. split; [exact HM|].
  assert (Hz : forall s t, 0 <= s < t -> t < 9 -> o s = o t -> forall i, 0 <= i < n -> v t i = 0%num).
  { intros s t Hs Ht Eo i Hi. destruct (Z.lt_ge_cases t cnt).
    - pose proof (inv_dist _ _ _ _ _ _ _ _ HI s t ltac:(lia) ltac:(lia) Eo). lia.
    - apply (inv_free _ _ _ _ _ _ _ _ HI t ltac:(lia)). auto. }
  intros i j Hi Hj. rewrite <- (HM i j Hi Hj), <- !diagonals_sdi. rewrite !get_element_first; auto; try lia.
  - intros s t Hs Ht Eo k Hk. unfold imags. rewrite (Hz s t Hs Ht Eo k Hk). reflexivity.
  - intros s t Hs Ht Eo k Hk. unfold reals. rewrite (Hz s t Hs Ht Eo k Hk). reflexivity.
Qed.

Lemma isEqual_same a : isEqual a a = true.
Proof.
  unfold isEqual. destruct (Req_EM_T a 0); [destruct (Req_EM_T a a); congruence|]. replace ((a - a) / a)%R with 0%R by (field; auto).
  destruct (Rlt_dec (-1 / 1000) 0); [|lra]. destruct (Rlt_dec 0 (1 / 1000)); [reflexivity|lra].
Qed.

(** element_test finds no mismatch: the entries of the product of the first two matrices are the sums it computes. *)
Theorem C103_element_test : element_test LOGN = Ok [].
Proof.
  unfold element_test. rewrite (inv_tables_ok LOGN ltac:(lia)). rewrite (surjective_pairing (bwd_tables LOGN)). cbn [bind].
  destruct (stage_tab 0 ltac:(lia)) as [E1 E2]. destruct (stage_tab 1 ltac:(lia)) as [E3 E4]. rewrite E1, E2, E3, E4. cbn [bind].
  destruct (stages_product 0 1 ltac:(lia) ltac:(lia)) as (vr & vi & o & z & E5 & _ & _ & HG). rewrite E5. cbn [bind].
  match goal with |- for_ 0 n ?f [] = _ => destruct (for_inv f (fun _ out => out = []) 0 n []) as (out & E & ->) end; [lia|reflexivity| |exact E].
  intros i out Hi ->.
  match goal with |- exists _, for_ 0 n ?f [] = _ /\ _ => destruct (for_inv f (fun _ out => out = []) 0 n []) as (out & E & ->) end; [lia|reflexivity| |exists []; auto].
  intros j out Hj ->. exists []. split; [|reflexivity]. destruct (HG i j Hi Hj) as [G1 G2].
  set (P := fun k => gsum (K := RC) k (fun k => (uM LOGN 0 i k * uM LOGN 1 k j)%num)).
  rewrite (for_closed _ (fun k => (cre Rops (P k), cim Rops (P k))) 0 n _ (cre Rops (P n), cim Rops (P n))).
  - cbn [bind]. rewrite G1, G2. cbn [bind]. fold (P n). unfold product. fold (P n). rewrite !isEqual_same. reflexivity.
  - lia.
  - reflexivity.
  - reflexivity.
  - intros k Hk. destruct (stage_get 0 i k ltac:(lia) Hi Hk) as [A1 A2]. destruct (stage_get 1 k j ltac:(lia) Hk Hj) as [A3 A4].
    rewrite A1, A2, A3, A4. cbn [bind]. unfold P. rewrite (gsum_S (K := RC)) by lia.
    set (x := gsum k _). set (u := uM LOGN 0 i k). set (w := uM LOGN 1 k j). clearbody x u w. destruct x as [x1 x2], u as [u1 u2], w as [w1 w2].
    unfold cre, cim. cbn. apply f_equal. apply f_equal2; ring.
Qed.

(** vector_test prints the same vector twice: the first two stages applied to the message. *)
Theorem C103_vector_test : forall z : Z -> CC,
  exists y, vector_test LOGN (carray (K := Rops) n z) = Ok (carray (K := Rops) n y, carray (K := Rops) n y) /\
    forall j, 0 <= j < n -> y j = apply n (stage_matrix LOGN 1) (apply n (stage_matrix LOGN 0) z) j.
Proof.
  intros z. exists (apply n (uM LOGN 1) (apply n (uM LOGN 0) z)). split.
  - unfold vector_test. rewrite (inv_tables_ok LOGN ltac:(lia)). rewrite (surjective_pairing (bwd_tables LOGN)). cbn [bind].
    destruct (stage_tab 0 ltac:(lia)) as [E1 E2]. destruct (stage_tab 1 ltac:(lia)) as [E3 E4]. rewrite E1, E2, E3, E4. cbn [bind].
    destruct (stages_product 1 0 ltac:(lia) ltac:(lia)) as (vr & vi & o & zz & E5 & HF & HM & _). rewrite E5. cbn [bind].
    rewrite !(C68_new (K := Rops)) by lia. cbn [bind].
    assert (ST : forall d x, 0 <= d < LOGN - 1 -> msg_mvp (K := Rops) n 3 (carray (K := Rops) n x) (diagonals (F := Rops) n 3 (re d) (uo LOGN d) (zR (2 ^ d))) (diagonals (F := Rops) n 3 (im d) (uo LOGN d) zI) (carray (K := Rops) n (fun _ => (0%num : CC))) = Ok (carray (K := Rops) n (apply n (uM LOGN d) x))).
    { intros d x Hd. destruct (stage_msg LOGN HL2 0 d x (carray (K := Rops) n (fun _ => (0%num : CC))) Hd (carray_of_carray _ _)) as (a & b & _ & _ & -> & -> & E). exact E. }
    rewrite ST by lia. cbn [bind]. rewrite ST by lia. cbn [bind].
    rewrite (C50_msg_mvp Rlawful) by (auto; try lia; apply carray_of_carray). cbn [bind]. apply f_equal. apply f_equal2; [reflexivity|].
    apply carray_ext. intros i Hi. rewrite <- apply_product. unfold apply. apply gsum_ext. intros j Hj. f_equal. apply HM; auto.
  - intros j Hj. transitivity (apply n (stage_matrix LOGN 1) (apply n (uM LOGN 0) z) j).
    + unfold apply at 1 3. apply gsum_ext. intros k Hk. rewrite stage_uM by (auto; lia). reflexivity.
    + unfold apply at 1 3. apply gsum_ext. intros k Hk. f_equal. unfold apply. apply gsum_ext. intros l Hl. rewrite stage_uM by (auto; lia). reflexivity.
Qed.
(** the entries of the product of the first two matrices, read with get_element, are those of the matrix product *)
Theorem C103_product : exists U0r U0i r0 i0 r1 i1 Ar Ai, inv_tables LOGN = Ok (U0r, U0i) /\ lget U0r 0 = Ok r0 /\ lget U0i 0 = Ok i0 /\ lget U0r 1 = Ok r1 /\ lget U0i 1 = Ok i1 /\
  matmul2 (K := Rops) n 3 3 r0 i0 r1 i1 (sd_new Rops n 9) (sd_new Rops n 9) = Ok (Ar, Ai) /\
  forall i j, 0 <= i < n -> 0 <= j < n ->
    get_element (K := Rops) n 9 Ar i j = Ok (cre Rops (product n (stage_matrix LOGN 0) (stage_matrix LOGN 1) i j)) /\
    get_element (K := Rops) n 9 Ai i j = Ok (cim Rops (product n (stage_matrix LOGN 0) (stage_matrix LOGN 1) i j)).
Proof.
  destruct (stage_tab 0 ltac:(lia)) as [E1 E2]. destruct (stage_tab 1 ltac:(lia)) as [E3 E4]. destruct (stages_product 0 1 ltac:(lia) ltac:(lia)) as (vr & vi & o & z & E5 & _ & _ & HG).
  do 8 eexists. split; [rewrite (inv_tables_ok LOGN ltac:(lia)); rewrite (surjective_pairing (bwd_tables LOGN)); reflexivity|]. split; [exact E1|]. split; [exact E2|]. split; [exact E3|]. split; [exact E4|]. split; [exact E5|].
  intros i j Hi Hj. replace (product n (stage_matrix LOGN 0) (stage_matrix LOGN 1) i j) with (product n (uM LOGN 0) (uM LOGN 1) i j); [apply HG; auto|].
  unfold product. apply gsum_ext. intros k Hk. rewrite !stage_uM by (auto; lia). reflexivity.
Qed.
End Mat.

(** What isEqual tests: both numbers are 0, or they differ by less than a thousandth of the first *)
Theorem C103_isEqual : forall a b, isEqual a b = true <-> (a = 0 /\ b = 0)%R \/ (a <> 0 /\ Rabs (b - a) < / 1000 * Rabs a)%R.
Proof.
  intros a b. unfold isEqual. destruct (Req_EM_T a 0) as [->|Ha].
  - destruct (Req_EM_T 0 b) as [Hb|Hb]; split; auto; try discriminate; intros [[_ H]|[H _]]; congruence.
  - pose proof (Rabs_pos_lt a Ha) as Pa. assert (E : Rabs ((b - a) / a) = (Rabs (b - a) / Rabs a)%R) by (unfold Rdiv; rewrite Rabs_mult, Rabs_inv; reflexivity).
    set (x := ((b - a) / a)%R) in *. transitivity (Rabs x < / 1000)%R.
    + destruct (Rlt_dec (-1 / 1000) x), (Rlt_dec x (1 / 1000)); cbn [andb]; (split; [try discriminate; intros _; apply Rabs_def1; lra|intros H; apply Rabs_def2 in H; lra || reflexivity]).
    + rewrite E. split.
      * intros H. right. split; auto. apply (Rmult_lt_compat_r (Rabs a)) in H; auto. replace (Rabs (b - a) / Rabs a * Rabs a)%R with (Rabs (b - a)) in H by (field; lra). exact H.
      * intros [[H _]|[_ H]]; [contradiction|]. apply (Rmult_lt_reg_r (Rabs a)); auto. replace (Rabs (b - a) / Rabs a * Rabs a)%R with (Rabs (b - a)) by (field; lra). exact H.
Qed.
