(** C118, C119: messages and products of dense matrices in floating-point arithmetic. *)
From Coq Require Import ZArith List Bool Lia Reals Lra Ring.
From Verif Require Import Base BaseFacts GSum Matrix MatrixFacts MatMulFacts DFT DFTTheory DFTFacts FFTFacts SpecMat Properties_Mat Properties_Msg SpecDFT SpecEnc SlotFacts
  Properties_Plain SpecLin LinTrans LinSlots Properties_DFT SupFacts.
From Verif Require Import Float SpecFloat FloatFacts FloatError Binary64 Properties_Float.
From Verif Require Import FloatDot FloatMsg SpecFloatMsg FloatMsgFacts.
Import ListNotations.
Open Scope Z_scope.

(** C66 with any operations *)
Lemma matrix_product_any {K : ops} N (A B : Z -> Z -> Cops K) Cr Ci : 0 <= N -> (square N Cr) -> square N Ci ->
  matrix_product N (rows N (fun i j => cre K (A i j))) (rows N (fun i j => cim K (A i j)))
                   (rows N (fun i j => cre K (B i j))) (rows N (fun i j => cim K (B i j))) Cr Ci
  = Ok (rows N (fun i j => cre K (product N A B i j)), rows N (fun i j => cim K (product N A B i j))).
Proof.
  intros HN Hr Hi. destruct (square_otab N Cr Hr) as [a ->]. destruct (square_otab N Ci Hi) as [b ->]. rewrite !rows_otab.
  unfold matrix_product.
  pose (P := fun i j => product N A B i j).
  rewrite (for_closed _ (fun i => (otab N (fun i' j' => if i' <? i then Some (cre K (P i' j')) else a i' j'),
      otab N (fun i' j' => if i' <? i then Some (cim K (P i' j')) else b i' j'))) _ _ _
      (otab N (fun i j => Some (cre K (P i j))), otab N (fun i j => Some (cim K (P i j))))); auto.
  - f_equal; apply otab_ext; intros i j Hi' Hj; destruct (Z.ltb_spec i 0); auto; lia.
  - f_equal; apply otab_ext; intros i j Hi' Hj; destruct (Z.ltb_spec i N); auto; lia.
  - intros i Hii.
    rewrite (for_closed _ (fun j => (otab N (fun i' j' => if (i' <? i) || ((i' =? i) && (j' <? j)) then Some (cre K (P i' j')) else a i' j'),
        otab N (fun i' j' => if (i' <? i) || ((i' =? i) && (j' <? j)) then Some (cim K (P i' j')) else b i' j'))) _ _ _
      (otab N (fun i' j' => if i' <? i + 1 then Some (cre K (P i' j')) else a i' j'),
       otab N (fun i' j' => if i' <? i + 1 then Some (cim K (P i' j')) else b i' j'))); auto; try lia.
    + f_equal; apply otab_ext; intros i' j' Hi' Hj'; destruct (Z.ltb_spec i' i), (Z.eqb_spec i' i), (Z.ltb_spec j' 0); cbn; auto; lia.
    + f_equal; apply otab_ext; intros i' j' Hi' Hj'; destruct (Z.ltb_spec i' i), (Z.eqb_spec i' i), (Z.ltb_spec j' N), (Z.ltb_spec i' (i + 1)); cbn; auto; lia.
    + intros j Hj. rewrite !mwr_otab by auto. cbn [bind].
      pose (T := fun k => gsum k (fun k => (A i k * B k j)%num) : Cops K).
      rewrite (for_closed _ (fun k => 
        (otab N (fun i' j' => if (i' =? i) && (j' =? j) then Some (cre K (T k)) else
           if (i' <? i) || ((i' =? i) && (j' <? j)) then Some (cre K (P i' j')) else a i' j'),
         otab N (fun i' j' => if (i' =? i) && (j' =? j) then Some (cim K (T k)) else
           if (i' <? i) || ((i' =? i) && (j' <? j)) then Some (cim K (P i' j')) else b i' j'))) _ _ _
        (otab N (fun i' j' => if (i' <? i) || ((i' =? i) && (j' <? j + 1)) then Some (cre K (P i' j')) else a i' j'),
         otab N (fun i' j' => if (i' <? i) || ((i' =? i) && (j' <? j + 1)) then Some (cim K (P i' j')) else b i' j'))); auto; try lia.
      * f_equal; apply otab_ext; intros i' j' Hi' Hj';
          destruct (Z.ltb_spec i' i), (Z.eqb_spec i' i), (Z.ltb_spec j' j), (Z.ltb_spec j' (j + 1)), (Z.eqb_spec j' j); cbn [andb orb]; subst; auto; lia.
      * intros k Hk.
        erewrite mrd_otab; [|auto|auto|rewrite !Z.eqb_refl; reflexivity]. cbn [bind].
        do 4 (erewrite mrd_otab; [|auto|auto|reflexivity]; cbn [bind]).
        rewrite mwr_otab by auto. cbn [bind].
        erewrite mrd_otab; [|auto|auto|rewrite !Z.eqb_refl; reflexivity]. cbn [bind].
        rewrite mwr_otab by auto. cbn [bind]. unfold T. rewrite gsum_S by lia.
        apply f_equal. apply f_equal2; apply otab_ext; intros i' j' Hi' Hj'; destruct ((i' =? i) && (j' =? j)); reflexivity.
Qed.

Section C118.
Context (F : fpu) (u eta top t : R) (ar : arithmetic u eta top t (rnd F) (dpi F) (lcos F) (lsin F)).

(** ** C118: messages *)
Theorem C118_add n (x y : Z -> CC) p : 0 <= n -> carray_of (K := Rops) n p -> (forall i, 0 <= i < n -> (modulus (x i + y i)%num <= top)%R) ->
  exists z, msg_add (K := Fops F) n (carray n x) (carray n y) p = Ok (carray (K := Rops) n z) /\
    forall i, 0 <= i < n -> (modulus (z i - (x i + y i))%num <= 3 / 2 * (u * modulus (x i + y i)%num + eta))%R.
Proof.
  intros Hn Hp Ht. eexists. split; [exact (C68_add (K := Fops F) n x y p Hn Hp)|]. intros i Hi. apply (fadd_err F u eta top t ar). auto.
Qed.
Theorem C118_sub n (x y : Z -> CC) p : 0 <= n -> carray_of (K := Rops) n p -> (forall i, 0 <= i < n -> (modulus (x i - y i)%num <= top)%R) ->
  exists z, msg_sub (K := Fops F) n (carray n x) (carray n y) p = Ok (carray (K := Rops) n z) /\
    forall i, 0 <= i < n -> (modulus (z i - (x i - y i))%num <= 3 / 2 * (u * modulus (x i - y i)%num + eta))%R.
Proof.
  intros Hn Hp Ht. eexists. split; [exact (C68_sub (K := Fops F) n x y p Hn Hp)|]. intros i Hi. apply (fsub_err F u eta top t ar). auto.
Qed.
Theorem C118_mul n (x y : Z -> CC) p : 0 <= n -> carray_of (K := Rops) n p -> (forall i, 0 <= i < n -> (2 * (modulus (x i) * modulus (y i)) + 1 <= top)%R) ->
  exists z, msg_mul (K := Fops F) n (carray n x) (carray n y) p = Ok (carray (K := Rops) n z) /\
    forall i, 0 <= i < n -> (modulus (z i - x i * y i)%num <= 9 / 2 * (u * (modulus (x i) * modulus (y i)) + eta))%R.
Proof.
  intros Hn Hp Ht. eexists. split; [exact (C68_mul (K := Fops F) n x y p Hn Hp)|]. intros i Hi. apply (fmul_err F u eta top t ar). auto.
Qed.

Lemma modulus_sq (z : CC) : (modulus z * modulus z = cre Rops z * cre Rops z + cim Rops z * cim Rops z)%R.
Proof.
  unfold modulus. apply sqrt_sqrt. pose proof (Rle_0_sqr (cre Rops z)). pose proof (Rle_0_sqr (cim Rops z)). unfold Rsqr in *. lra.
Qed.
Theorem C118_square_sum n (z : Z -> CC) : 0 <= n -> (IZR n * u <= / 1024)%R ->
  let S := gsum (K := Rops) n (fun i => modulus (z i) * modulus (z i))%R in (5 * S + IZR n + 1 <= top)%R ->
  exists s, square_sum (K := Fops F) n (carray n z) = Ok s /\ (Rabs (s - S) <= square_error u eta n S)%R.
Proof.
  intros Hn Hnu S Ht. assert (E : S = gsum (K := Rops) n (fun i => cre Rops (z i) * cre Rops (z i) + cim Rops (z i) * cim Rops (z i))%R) by (apply gsum_ext; intros i _; apply modulus_sq).
  rewrite E in *. destruct (square_err F u eta top t ar n z Hn Hnu Ht) as (s & A & B & _). exists s. auto.
Qed.
(** norm: the Euclidean length *)
Theorem C118_norm n (z : Z -> CC) : keeps_sign (rnd F) -> 0 < n -> (IZR n * u <= / 1024)%R ->
  let S := gsum (K := Rops) n (fun i => modulus (z i) * modulus (z i))%R in (5 * S + IZR n + 1 <= top)%R ->
  exists r, f_norm F n (carray n z) = Ok r /\ (Rabs (r - sqrt S) <= root_error u eta n (sqrt S))%R.
Proof.
  intros Hk Hn Hnu S Ht. assert (E : S = gsum (K := Rops) n (fun i => cre Rops (z i) * cre Rops (z i) + cim Rops (z i) * cim Rops (z i))%R) by (apply gsum_ext; intros i _; apply modulus_sq).
  pose proof (square_err F u eta top t ar n z ltac:(lia) Hnu) as Q. cbv zeta in Q. rewrite <- E in Q. destruct (Q Ht) as (s & A & B & C & D). clear Q E. unfold f_norm. rewrite A. cbn [bind].
  assert (1 <= IZR n)%R by (apply IZR_le; lia). pose proof (ar_top _ _ _ _ _ _ _ _ ar).
  assert (sqrt S <= (S + 1) / 2)%R. { pose proof (sqrt_sqrt S D) as Q. pose proof (Rle_0_sqr (sqrt S - 1)) as Q2. unfold Rsqr in Q2. lra. }
  exact (f_sqrt_err F u eta top t ar s S (IZR n) 6 5 (C Hk) D ltac:(assumption) Hnu ltac:(lra) ltac:(lra) B ltac:(lra) ltac:(lra)).
Qed.
(** sup_norm: the largest modulus *)
Theorem C118_sup_norm n (z : Z -> CC) M : keeps_sign (rnd F) -> 0 <= n -> largest n (fun j => modulus (z j)) M -> (5 * (M * M) + 2 <= top)%R ->
  exists m, f_sup_norm F n (carray n z) = Ok m /\ (Rabs (m - M) <= root_error u eta 1 M)%R.
Proof.
  intros Hk Hn HM Ht. pose proof (ar_top _ _ _ _ _ _ _ _ ar) as H8. pose proof (ar_u _ _ _ _ _ _ _ _ ar) as Hu. pose proof (ar_eta _ _ _ _ _ _ _ _ ar) as He. pose proof (ar_rnd _ _ _ _ _ _ _ _ ar) as Hr.
  assert (HM0 : (0 <= M)%R) by apply HM.
  assert (G : forall j, 0 <= j < n -> exists r, (f_sqrt F (rnd F (rnd F (cre Rops (z j) * cre Rops (z j)) + rnd F (cim Rops (z j) * cim Rops (z j)))) = Ok r /\ Rabs (r - modulus (z j)) <= root_error u eta 1 (modulus (z j)))%R).
  { intros j Hj. pose proof (modulus_sq (z j)) as E. assert (Hj1 : (0 <= modulus (z j) <= M)%R) by (split; [apply modulus_nonneg|apply HM; auto]).
    assert (Hsq : (modulus (z j) * modulus (z j) <= M * M)%R) by (apply Rmult_le_compat; lra).
    set (a := cre Rops (z j)) in *. set (b := cim Rops (z j)) in *. change (car Rops) with R in *.
    pose proof (Rle_0_sqr a) as Pa. pose proof (Rle_0_sqr b) as Pb. unfold Rsqr in Pa, Pb. set (S := (a * a + b * b)%R) in *.
    pose proof (cross_err u eta top (rnd F) Hu He Hr (a * a) (b * b) 1 S ltac:(auto) ltac:(unfold S; lra) ltac:(rewrite Rabs_right; unfold S; lra) ltac:(rewrite Rabs_right; unfold S; lra)) as A.
    rewrite !Rmult_1_l in A. specialize (A ltac:(fold S; rewrite Rabs_right; unfold S; lra) ltac:(lra)). fold S in A.
    assert (Es : modulus (z j) = sqrt S) by reflexivity. rewrite Es.
    assert (HuS : (0 <= u * S)%R) by (apply Rmult_le_pos; unfold S; lra).
    pose proof (f_sqrt_err F u eta top t ar (rnd F (rnd F (a * a) + rnd F (b * b))) S 1 6 5) as Q. rewrite <- Es in *. unfold root_error. apply Q; try lra.
    - apply Hk. pose proof (Hk _ Pa). pose proof (Hk _ Pb). lra.
    - unfold S. lra.
    - assert (modulus (z j) <= (S + 1) / 2)%R. { pose proof (Rle_0_sqr (modulus (z j) - 1)) as Q2. unfold Rsqr in Q2. lra. } lra. }
  assert (P : forall k, 0 <= k <= n -> exists m M', f_sup_norm F k (carray n z) = Ok m /\ largest k (fun j => modulus (z j)) M' /\ (Rabs (m - M') <= root_error u eta 1 M')%R).
  { intros k [Hk0 Hk1]. revert Hk1. pattern k. apply natlike_ind; auto.
    - intros _. exists 0%R, 0%R. split; [reflexivity|]. split; [apply largest_0|]. rewrite Rminus_0_r, Rabs_R0. unfold root_error. pose proof (sqrt_pos (1 * eta)). lra.
    - intros j Hj IH Hj1. destruct (IH ltac:(lia)) as (m & M' & E1 & E2 & E3). destruct (G j ltac:(lia)) as (r & G1 & G2).
      exists (if Rlt_dec m r then r else m), (if Rlt_dec M' (modulus (z j)) then modulus (z j) else M'). split; [|split].
      + unfold f_sup_norm in *. unfold Z.succ. rewrite for_split with (mid := j) by lia. rewrite E1. cbn [bind]. rewrite for_step by lia.
        rewrite carray_cvtab. unfold cvtab. cbn [fst snd]. rewrite !grd_gtab by lia. cbn [bind]. rewrite G1. cbn [bind]. apply for_nil. lia.
      + apply (largest_step j (fun j => modulus (z j))); auto.
      + apply abs_le in E3. apply abs_le in G2. unfold root_error in *. pose proof (modulus_nonneg (z j)) as P0. assert (0 <= M')%R by apply E2.
        set (w := modulus (z j)) in *. set (q := sqrt (1 * eta)) in *. assert (0 <= q)%R by apply sqrt_pos.
        destruct (Rlt_dec m r), (Rlt_dec M' w); apply Rabs_le; try lra.
        * assert (8 * 1 * u * w <= 8 * 1 * u * M')%R by (apply Rmult_le_compat_l; lra). lra.
        * assert (8 * 1 * u * M' <= 8 * 1 * u * w)%R by (apply Rmult_le_compat_l; lra). lra. }
  destruct (P n ltac:(lia)) as (m & M' & E1 & E2 & E3). exists m. split; [exact E1|]. rewrite (largest_unique _ _ _ _ HM E2). exact E3.
Qed.
(** print_max_error: the largest errors of the real and of the imaginary parts *)
Theorem C118_max_error n (z w : Z -> CC) Mr Mi : 0 <= n -> largest n (fun j => Rabs (cre Rops (z j) - cre Rops (w j))) Mr -> largest n (fun j => Rabs (cim Rops (z j) - cim Rops (w j))) Mi ->
  (Mr <= top)%R -> (Mi <= top)%R ->
  exists a b, f_max_error F n (carray n z) (carray n w) = Ok (a, b) /\ (Rabs (a - Mr) <= u * Mr + eta)%R /\ (Rabs (b - Mi) <= u * Mi + eta)%R.
Proof.
  intros Hn HMr HMi Htr Hti. pose proof (ar_u _ _ _ _ _ _ _ _ ar) as Hu. pose proof (ar_eta _ _ _ _ _ _ _ _ ar) as He. pose proof (ar_rnd _ _ _ _ _ _ _ _ ar) as Hr.
  assert (St : forall m M r w, (0 <= M -> 0 <= w -> Rabs (m - M) <= u * M + eta -> Rabs (r - w) <= u * w + eta ->
     Rabs ((if Rlt_dec m r then r else m) - (if Rlt_dec M w then w else M)) <= u * (if Rlt_dec M w then w else M) + eta)%R).
  { intros m M r v H1 H2 A B. apply abs_le in A. apply abs_le in B. destruct (Rlt_dec m r), (Rlt_dec M v); apply Rabs_le; try lra.
    - assert (u * v <= u * M)%R by (apply Rmult_le_compat_l; lra). lra.
    - assert (u * M <= u * v)%R by (apply Rmult_le_compat_l; lra). lra. }
  assert (Rd : forall a M, (Rabs a <= M -> M <= top -> Rabs (Rabs (rnd F a) - Rabs a) <= u * Rabs a + eta)%R).
  { intros a M H1 H2. eapply Rle_trans; [apply Rabs_triang_inv2|]. apply Hr. lra. }
  assert (P : forall k, 0 <= k <= n -> exists a b A B, f_max_error F k (carray n z) (carray n w) = Ok (a, b) /\
    largest k (fun j => Rabs (cre Rops (z j) - cre Rops (w j))) A /\ largest k (fun j => Rabs (cim Rops (z j) - cim Rops (w j))) B /\ (Rabs (a - A) <= u * A + eta /\ Rabs (b - B) <= u * B + eta)%R).
  { intros k [Hk0 Hk1]. revert Hk1. pattern k. apply natlike_ind; auto.
    - intros _. exists 0%R, 0%R, 0%R, 0%R. split; [reflexivity|]. do 2 (split; [apply largest_0|]). rewrite Rminus_0_r, Rabs_R0. lra.
    - intros j Hj IH Hj1. destruct (IH ltac:(lia)) as (a & b & A & B & E & EA & EB & Ea & Eb).
      do 4 eexists. split; [|split; [|split; [|split]]].
      + unfold f_max_error in *. unfold Z.succ. rewrite for_split with (mid := j) by lia. rewrite E. cbn [bind]. rewrite for_step by lia.
        rewrite !carray_cvtab. unfold cvtab. cbn [fst snd]. rewrite !grd_gtab by lia. cbn [bind]. apply for_nil. lia.
      + apply (largest_step j (fun j => Rabs (cre Rops (z j) - cre Rops (w j)))); eauto.
      + apply (largest_step j (fun j => Rabs (cim Rops (z j) - cim Rops (w j)))); eauto.
      + apply St; auto; [apply EA|apply Rabs_pos|]. apply (Rd _ Mr); auto. apply HMr. lia.
      + apply St; auto; [apply EB|apply Rabs_pos|]. apply (Rd _ Mi); auto. apply HMi. lia. }
  destruct (P n ltac:(lia)) as (a & b & A & B & E & EA & EB & Ea & Eb). exists a, b. split; [exact E|].
  rewrite (largest_unique _ _ _ _ HMr EA), (largest_unique _ _ _ _ HMi EB). auto.
Qed.

(** ** C119: products *)
Lemma fill_steps n (body : Z -> rarr * rarr -> res (rarr * rarr)) (w : Z -> CC) p : 0 <= n -> carray_of (K := Rops) n p ->
  (forall i a b, 0 <= i < n -> body i (tab n a, tab n b) = (r <- gwr (tab n a) i (cre Rops (w i)) ;; im <- gwr (tab n b) i (cim Rops (w i)) ;; Ok (r, im))) ->
  for_ 0 n body p = Ok (carray (K := Rops) n w).
Proof.
  intros Hn [Ha Hb] H. destruct p as [pa pb]; cbn [fst snd] in *. destruct (cells_tab n pa Ha) as [ga ->]. destruct (cells_tab n pb Hb) as [gb ->].
  rewrite carray_cvtab. exact (fill_cvtab (K := Rops) n body ga gb w Hn H).
Qed.
(** a sparse matrix and a message; diagonals flagged zero are left out *)
Theorem C119_mvp n S (x : Z -> CC) (vr vi : Z -> Z -> R) o oi zr zi p X : 0 < n <= 2 ^ 30 -> 0 <= S -> (IZR S * u <= / 1024)%R ->
  flags_right (K := Rops) n S vr vi o oi zr zi -> carray_of (K := Rops) n p ->
  (forall i, 0 <= i < n -> (gsum (K := Rops) S (fun s => modulus (mk Rops (vr s i) (vi s i)) * modulus (x ((i + o s) mod n))) <= X)%R) -> (5 * X + IZR S + 1 <= top)%R ->
  exists z, msg_mvp (K := Fops F) n S (carray n x) (diagonals n S vr o zr) (diagonals n S vi oi zi) p = Ok (carray (K := Rops) n z) /\
    forall i, 0 <= i < n -> (modulus (z i - apply n (cmat (matrix_of (K := Rops) n S vr o) (matrix_of (K := Rops) n S vi oi)) x i)%num <= dot_error u eta S X)%R.
Proof.
  intros Hn HS Hnu HF Hp HX Ht. apply flags_fits in HF.
  exists (fun i => steps (fun k c => if negb (zr k && zi k) then fstep F (mk Rops (vr k i) (vi k i)) (x ((i + o k) mod n)) c else c) S (0%num : RC)). split.
  - unfold msg_mvp. apply fill_steps; auto; [lia|]. intros i a b Hi. rewrite !diagonals_sdi, carray_cvtab.
    rewrite (for_steps S _ (fun k c => if negb (zr k && zi k) then fstep F (mk Rops (vr k i) (vi k i)) (x ((i + o k) mod n)) c else c)); auto.
    + cbn [bind]. cbv beta. destruct (steps _ S _) as [c d]. reflexivity.
    + intros k [c d] Hk. rewrite !get_zero_sdi by auto. cbn [bind].
      replace (if negb (zr k) then Ok true else Ok (negb (zi k))) with (Ok (negb (zr k && zi k)) : res bool) by (destruct (zr k); reflexivity). cbn [bind].
      destruct (zr k && zi k) eqn:Ez; cbn [negb]; [reflexivity|].
      destruct (fit_off _ _ _ _ _ _ _ _ HF k Hk Ez) as [E1 E2].
      rewrite !get_off_sdi by auto. cbn [bind]. rewrite E2. rewrite int_in by lia. cbn [bind].
      rewrite imod_ok by lia. cbn [bind]. rewrite Z.rem_mod_nonneg by lia.
      assert (0 <= (i + o k) mod n < n) by (apply Z.mod_pos_bound; lia).
      rewrite !get_vec_sdi by auto. cbn [bind fst snd cvtab]. rewrite !grd_gtab by auto. reflexivity.
  - intros i Hi.
    replace (apply n (cmat (matrix_of (K := Rops) n S vr o) (matrix_of (K := Rops) n S vi oi)) x i) with (gsum (K := RC) S (fun k => mk Rops (vr k i) (vi k i) * x ((i + o k) mod n))%num).
    + apply (dot_err F u eta top t ar S (fun k => negb (zr k && zi k)) (fun k => mk Rops (vr k i) (vi k i)) (fun k => x ((i + o k) mod n))); auto.
      intros k Hk Ek. apply negb_false_iff in Ek. destruct (fit_zero _ _ _ _ _ _ _ _ HF k i Hk Hi Ek) as [-> ->]. reflexivity.
    + unfold apply. symmetry. eapply eq_trans; [|exact (dense_apply HC n S (cvec (K := Rops) vr vi) o x i ltac:(lia) Hi)]. apply gsum_ext. intros j Hj. apply (f_equal (fun v : CC => (v * x j)%num)). symmetry. exact (fits_dense _ _ _ _ _ _ _ _ i j Hi HF).
Qed.
(** consecutive diagonals given as messages *)
Theorem C119_mvp_dense n Kd (x : Z -> CC) (A : Z -> Z -> CC) p X : 0 < n <= 2 ^ 30 -> 0 <= Kd <= 2 ^ 30 -> (IZR Kd * u <= / 1024)%R -> carray_of (K := Rops) n p ->
  (forall i, 0 <= i < n -> (gsum (K := Rops) Kd (fun k => modulus (A k i) * modulus (x ((i + k) mod n))) <= X)%R) -> (5 * X + IZR Kd + 1 <= top)%R ->
  exists z, msg_mvp_dense (K := Fops F) n Kd (carray n x) (map (fun k => carray n (A k)) (range Kd)) p = Ok (carray (K := Rops) n z) /\
    forall i, 0 <= i < n -> (modulus (z i - apply n (matrix_of n Kd A (fun k => k)) x i)%num <= dot_error u eta Kd X)%R.
Proof.
  intros Hn HS Hnu Hp HX Ht. exists (fun i => steps (fun k c => if true then fstep F (A k i) (x ((i + k) mod n)) c else c) Kd (0%num : RC)). split.
  - unfold msg_mvp_dense. apply fill_steps; auto; [lia|]. intros i a b Hi. rewrite map_range, (carray_cvtab n x).
    rewrite (for_steps Kd _ (fun k c => if true then fstep F (A k i) (x ((i + k) mod n)) c else c)); [|lia|].
    + cbn [bind]. cbv beta. destruct (steps _ Kd _) as [c d]. reflexivity.
    + intros k [c d] Hk. rewrite int_in by lia. cbn [bind]. rewrite imod_ok by lia. cbn [bind]. rewrite Z.rem_mod_nonneg by lia.
      assert (0 <= (i + k) mod n < n) by (apply Z.mod_pos_bound; lia).
      rewrite lget_tab by auto. cbn [bind]. rewrite (carray_cvtab n (A k)). cbn [fst snd cvtab]. unfold cvtab; cbn [fst snd]. rewrite !grd_gtab by auto. reflexivity.
  - intros i Hi. replace (apply n (matrix_of n Kd A (fun k => k)) x i) with (gsum (K := RC) Kd (fun k => A k i * x ((i + k) mod n))%num).
    + apply (dot_err F u eta top t ar Kd (fun _ => true) (fun k => A k i) (fun k => x ((i + k) mod n))); auto; [lia|discriminate].
    + unfold apply. rewrite <- (dense_apply HC n Kd A (fun k => k) x i) by (auto; lia). reflexivity.
Qed.
(** dense matrices *)
Lemma gsum_steps n (x y : Z -> CC) : 0 <= n -> gsum (K := Cops (Fops F)) n (fun k => omul (o := Cops (Fops F)) (x k) (y k)) = steps (fun k c => if true then fstep F (x k) (y k) c else c) n (0%num : RC).
Proof.
  intros Hn. refine (gsum_ind n (fun n => gsum (K := Cops (Fops F)) n (fun k => omul (o := Cops (Fops F)) (x k) (y k)) = steps (fun k c => if true then fstep F (x k) (y k) c else c) n (0%num : RC)) _ _ Hn).
  - rewrite gsum_0 by lia. reflexivity.
  - intros m Hm IH. rewrite gsum_S, steps_S by lia. rewrite IH. reflexivity.
Qed.
Theorem C119_matrix_product N (A B : Z -> Z -> CC) Cr Ci X : 0 <= N -> (IZR N * u <= / 1024)%R -> square (F := R) N Cr -> square (F := R) N Ci ->
  (forall i j, 0 <= i < N -> 0 <= j < N -> (gsum (K := Rops) N (fun k => modulus (A i k) * modulus (B k j)) <= X)%R) -> (5 * X + IZR N + 1 <= top)%R ->
  exists C : Z -> Z -> CC,
    matrix_product (K := Fops F) N (rows N (fun i j => cre Rops (A i j))) (rows N (fun i j => cim Rops (A i j)))
      (rows N (fun i j => cre Rops (B i j))) (rows N (fun i j => cim Rops (B i j))) Cr Ci = Ok (rows N (fun i j => cre Rops (C i j)), rows N (fun i j => cim Rops (C i j))) /\
    forall i j, 0 <= i < N -> 0 <= j < N -> (modulus (C i j - product N A B i j)%num <= dot_error u eta N X)%R.
Proof.
  intros HN Hnu Hr Hi HX Ht. exists (product (K := Cops (Fops F)) N A B). split; [exact (matrix_product_any (K := Fops F) N A B Cr Ci HN Hr Hi)|].
  intros i j Hi' Hj. unfold product at 1. rewrite gsum_steps by auto.
  apply (dot_err F u eta top t ar N (fun _ => true) (fun k => A i k) (fun k => B k j)); auto; discriminate.
Qed.
End C118.
