(** C120: the quadratic transforms in floating-point arithmetic, and that they agree with the fast ones. *)
From Coq Require Import ZArith List Bool Lia Reals Lra Ring.
From Verif Require Import Base BaseFacts GSum Matrix MatrixFacts MatMulFacts DFT DFTTheory DFTFacts FFTFacts SpecMat Properties_Mat Properties_Msg SpecDFT SpecEnc SlotFacts
  Properties_Plain SpecLin LinTrans LinSlots Properties_DFT SupFacts EncodeFacts.
From Verif Require Import Float SpecFloat FloatFacts FloatError Binary64 FloatNum Properties_Float.
From Verif Require Import FloatDot FloatMsg SpecFloatMsg FloatMsgFacts FloatDirect.
Import ListNotations.
Open Scope Z_scope.
Add Ring RCfdft : HR.

Lemma Ok_inj {A} (x y : A) : Ok x = Ok y -> x = y.
Proof. intros E. injection E. auto. Qed.

Lemma gsum_const_le k (f : Z -> R) B : 0 <= k -> (forall j, 0 <= j < k -> (f j <= B)%R) -> (gsum (K := Rops) k f <= IZR k * B)%R.
Proof.
  intros Hk Hf. revert Hk. refine (gsum_ind k (fun i => (gsum (K := Rops) i f <= IZR i * B)%R) _ _).
  - rewrite gsum_0 by lia. change (0 <= 0 * B)%R. lra.
  - intros j Hj IH. rewrite gsum_S, plus_IZR by lia. specialize (Hf j Hj). change (gsum (K := Rops) j f + f j <= (IZR j + 1) * B)%R. cbn in IH |- *. lra.
Qed.

Section C120.
Context (F : fpu) (u eta top t : R) (ar : arithmetic u eta top t (rnd F) (dpi F) (lcos F) (lsin F)).
Context (LOGN : Z) (HL : 2 <= LOGN <= 27).
Let n := 2 ^ (LOGN - 1).
Let N := 2 ^ LOGN.
Let L := Z.to_nat (LOGN - 1).
Context (Hsmall : (table_error u eta t N <= / 64)%R).
Let EN : N = 2 * n.
Proof. unfold N, n. exact (N2 LOGN HL). Qed.
Let Hn26 : 0 < n <= 2 ^ 26.
Proof. unfold n. split; [apply Z.pow_pos_nonneg; lia|apply Z.pow_le_mono_r; lia]. Qed.

Theorem C120_dft (m : Z -> R) X zr zi : cells n zr -> cells n zi -> (IZR N * u <= / 1024)%R ->
  (gsum (K := Rops) N (fun k => Rabs (m k)) <= X)%R -> (5 * X + IZR N + 1 <= top)%R ->
  exists z, f_dft F N (array N m) zr zi = Ok (carray (K := Rops) n z) /\ forall j, 0 <= j < n -> (modulus (z j - slot N m j)%num <= dft_error u eta t N X)%R.
Proof.
  intros Hr Hi Hu HX Ht. destruct (cells_tab _ _ Hr) as [a ->]. destruct (cells_tab _ _ Hi) as [b ->]. exists (dft_out F n m). split.
  - rewrite array_gtab, carray_cvtab, EN. apply f_dft_ok. exact Hn26.
  - intros j Hj. rewrite slot_eN by lia. rewrite EN in *. exact (dft_err F n Hn26 u eta top t ar Hsmall m X j Hj Hu HX Ht).
Qed.

Lemma idft_exact (z : Z -> CC) (m : Z -> R) i : (forall j, 0 <= j < n -> slot N m j = z j) -> 0 <= i < N ->
  m i = (unfold_c n (fun k => gsum (K := RC) n (fun j => (cconj Rops (eN N (5 ^ j * k)%Z) : RC) * z j)%num) i * 2 / IZR N)%R.
Proof.
  intros Hs Hi. destruct (C52_idft_dft LOGN HL m (gfresh R n) (gfresh R n) (gfresh R N)) as (w & E1 & E2); try (unfold cells, gfresh; apply repeat_length).
  rewrite C51_dft in E1 by (auto; unfold cells, gfresh; apply repeat_length). injection E1 as <-. fold N n in E2.
  assert (Ec : carray (K := Rops) n (slot N m) = carray n z) by (rewrite !carray_cvtab; apply cvtab_ext; auto).
  rewrite Ec, carray_cvtab in E2. unfold cvtab in E2. cbn [fst snd] in E2. unfold gfresh in E2.
  destruct (cells_tab (A := R) N (repeat None (Z.to_nat N)) (repeat_length _ _)) as [f Ef]. rewrite Ef in E2. rewrite EN in E2 at 1 2. rewrite (idft_ok n Hn26) in E2. rewrite array_gtab in E2. rewrite <- EN in E2. apply Ok_inj in E2.
  assert (Q : grd (gtab N m) i = grd (gtab N (fun i => (unfold_c n (fun k => gsum (K := RC) n (fun j => (cconj Rops (eN N (5 ^ j * k)%Z) : RC) * z j)%num) i * 2 / IZR N)%R)) i) by (f_equal; symmetry; exact E2).
  rewrite !grd_gtab in Q by auto. injection Q as Q. exact Q.
Qed.
Theorem C120_idft (z : Z -> CC) (m : Z -> R) X arr : cells N arr -> (IZR n * u <= / 1024)%R -> (forall j, 0 <= j < n -> slot N m j = z j) ->
  (gsum (K := Rops) n (fun j => modulus (z j)) <= X)%R -> (5 * X + IZR n + 1 <= top)%R ->
  exists m', f_idft F N (fst (carray n z)) (snd (carray n z)) arr = Ok (array N m') /\ forall i, 0 <= i < N -> (Rabs (m' i - m i) <= idft_error u eta t n X)%R.
Proof.
  intros Ha Hu Hs HX Ht. destruct (cells_tab _ _ Ha) as [f ->]. exists (unfold_c n (idft_out F n z)). split.
  - rewrite carray_cvtab. unfold cvtab. cbn [fst snd]. rewrite array_gtab, EN. apply (f_idft_ok F n Hn26).
  - intros i Hi. rewrite (idft_exact z m i Hs Hi). set (S := fun k => gsum (K := RC) n (fun j => (cconj Rops (eN N (5 ^ j * k)%Z) : RC) * z j)%num).
    assert (G : forall k, 0 <= k < n -> (Rabs (fst (idft_out F n z k) - 2 / IZR N * fst (S k)) <= idft_error u eta t n X /\ Rabs (snd (idft_out F n z k) - 2 / IZR N * snd (S k)) <= idft_error u eta t n X)%R).
    { intros k Hk. assert (Hsm : (table_error u eta t (2 * n) <= / 64)%R) by (rewrite <- EN; exact Hsmall).
      destruct (idft_sum_err F n Hn26 u eta top t ar Hsm z X k Hk Hu HX Ht) as [A B]. rewrite <- EN in A. fold (S k) in A.
      assert (M : (modulus (S k) <= X)%R). { eapply Rle_trans; [|exact HX]. unfold S. apply modulus_rsum; [lia|]. intros j Hj. rewrite modulus_mul, modulus_conj, modulus_eN. lra. }
      pose proof (modulus_cre (S k)) as M1. pose proof (modulus_cim (S k)) as M2. unfold idft_out. cbv zeta. set (s' := steps _ n _) in *.
      pose proof (modulus_cre ((s' : RC) - S k)%num) as A1. pose proof (modulus_cim ((s' : RC) - S k)%num) as A2. unfold cre, cim in *. rewrite <- EN.
      pose proof (idft_scale F n Hn26 u eta top t ar (fst (S k)) (fst s') X (idft_sum_error n u eta t X)) as Q1. pose proof (idft_scale F n Hn26 u eta top t ar (snd (S k)) (snd s') X (idft_sum_error n u eta t X)) as Q2.
      rewrite <- EN in Q1, Q2. split.
      - apply Q1; auto; [lra|]. eapply Rle_trans; [exact A1|exact A].
      - apply Q2; auto; [lra|]. eapply Rle_trans; [exact A2|exact A]. }
    unfold unfold_c. destruct (Z.ltb_spec i n) as [Hl|Hl].
    + destruct (G i ltac:(lia)) as [G1 _]. unfold cre. replace (fst (S i) * 2 / IZR N)%R with (2 / IZR N * fst (S i))%R by (unfold Rdiv; ring). exact G1.
    + destruct (G (i - n) ltac:(lia)) as [_ G2]. unfold cim. replace (snd (S (i - n)%Z) * 2 / IZR N)%R with (2 / IZR N * snd (S (i - n)%Z))%R by (unfold Rdiv; ring). exact G2.
Qed.

(** the transforms compute nearly the same (dft_test.cpp prints the results of idft and ifft) *)
Corollary C120_idft_ifft st (z : Z -> CC) B arr arr2 : f_ifft_static F LOGN st -> cells N arr -> cells N arr2 -> (IZR n * u <= / 1024)%R ->
  (0 <= B)%R -> (forall j, 0 <= j < n -> (modulus (z j) <= B)%R) -> (5 * (IZR n * B) + IZR n + 1 <= top)%R -> (4 * fft_size u eta t N L B + 1 <= top)%R ->
  exists m1 st' m2, f_idft F N (fst (carray n z)) (snd (carray n z)) arr = Ok (array N m1) /\ f_ifft F LOGN st (fst (carray n z)) (snd (carray n z)) arr2 = Ok (st', array N m2) /\
    forall i, 0 <= i < N -> (Rabs (m1 i - m2 i) <= idft_error u eta t n (IZR n * B) + ifft_error u eta t N L B)%R.
Proof.
  intros Hst Ha Ha2 Hu HB Hz Ht1 Ht2. destruct (C52_fft_ifft LOGN HL None z (gfresh R N)) as (st0 & m & _ & Hm); [constructor|unfold cells, gfresh; apply repeat_length|].
  destruct (C120_idft z m (IZR n * B) arr Ha Hu Hm) as (m1 & E1 & H1).
  - apply gsum_const_le; [lia|auto].
  - exact Ht1.
  - destruct (C82_ifft F u eta top t ar LOGN HL Hsmall st z m B arr2 Hst Ha2 HB Hz Hm Ht2) as (st' & m2 & E2 & _ & H2). exists m1, st', m2. split; [exact E1|]. split; [exact E2|].
    intros i Hi. specialize (H1 i Hi). specialize (H2 i Hi). replace (m1 i - m2 i)%R with ((m1 i - m i) - (m2 i - m i))%R by ring. fold N L in H2. apply abs_le in H1. apply abs_le in H2. apply Rabs_le. fold N L in H2. lra.
Qed.
Corollary C120_dft_fft st (m : Z -> R) X B zr zi zr2 zi2 : f_fft_static F LOGN st -> cells n zr -> cells n zi -> cells n zr2 -> cells n zi2 -> (IZR N * u <= / 1024)%R ->
  (gsum (K := Rops) N (fun k => Rabs (m k)) <= X)%R -> (5 * X + IZR N + 1 <= top)%R ->
  (0 <= B)%R -> (forall l, 0 <= l < n -> (modulus (mk Rops (m l) (m (l + n)%Z)) <= B)%R) -> (4 * fft_size u eta t N L B + 1 <= top)%R ->
  exists z1 st' z2, f_dft F N (array N m) zr zi = Ok (carray (K := Rops) n z1) /\ f_fft F LOGN st (array N m) zr2 zi2 = Ok (st', carray (K := Rops) n z2) /\
    forall j, 0 <= j < n -> (modulus (z1 j - z2 j)%num <= dft_error u eta t N X + fft_error u eta t N L B)%R.
Proof.
  intros Hst Hr Hi Hr2 Hi2 Hu HX Ht1 HB Hm Ht2. destruct (C120_dft m X zr zi Hr Hi Hu HX Ht1) as (z1 & E1 & H1).
  destruct (C81_fft F u eta top t ar LOGN HL Hsmall st m B zr2 zi2 Hst Hr2 Hi2 HB Hm Ht2) as (st' & z2 & E2 & _ & H2). exists z1, st', z2. split; [exact E1|]. split; [exact E2|].
  intros j Hj. specialize (H1 j Hj). specialize (H2 j Hj). replace (z1 j - z2 j)%num with ((z1 j - slot N m j) - (z2 j - slot N m j))%num by ring.
  eapply Rle_trans; [apply modulus_sub|]. fold n N L in H1, H2. lra.
Qed.
(** idft inverts dft *)
Corollary C120_roundtrip (m : Z -> R) X zr zi arr : cells n zr -> cells n zi -> cells N arr -> (IZR N * u <= / 1024)%R ->
  (gsum (K := Rops) N (fun k => Rabs (m k)) <= X)%R -> let e := dft_error u eta t N X in (5 * (IZR n * (X + e)) + IZR N + 1 <= top)%R ->
  exists z m', f_dft F N (array N m) zr zi = Ok z /\ f_idft F N (fst z) (snd z) arr = Ok (array N m') /\
    forall i, 0 <= i < N -> (Rabs (m' i - m i) <= e + idft_error u eta t n (IZR n * (X + e)))%R.
Proof.
  intros Hr Hi Ha Hu HX e Ht. assert (Hn1 : (1 <= IZR n)%R) by (apply IZR_le; lia). assert (ENR : IZR N = (2 * IZR n)%R) by (rewrite EN, mult_IZR; reflexivity).
  assert (HX0 : (0 <= X)%R) by (eapply Rle_trans; [|exact HX]; apply gsum_nonneg; intros; apply Rabs_pos).
  assert (He : (0 <= e)%R).
  { pose proof (ar_u _ _ _ _ _ _ _ _ ar). pose proof (ar_eta _ _ _ _ _ _ _ _ ar). pose proof (table_pos F u eta top t ar N ltac:(lia)). unfold e, dft_error. rewrite ENR.
    assert (0 <= u * X)%R by (apply Rmult_le_pos; lra). assert (0 <= table_error u eta t N * X)%R by (apply Rmult_le_pos; lra). assert (0 <= 2 * IZR n * (5 * u * X + 4 * eta))%R by (apply Rmult_le_pos; lra). lra. }
  assert (HXn : (X + e <= IZR n * (X + e))%R) by nra.
  destruct (C120_dft m X zr zi Hr Hi Hu HX ltac:(lra)) as (z & E1 & H1).
  destruct (C52_fft_ifft LOGN HL None z (gfresh R N)) as (st0 & c & _ & Hc); [constructor|unfold cells, gfresh; apply repeat_length|]. fold n N in Hc.
  assert (Hz : forall j, 0 <= j < n -> (modulus (z j) <= X + e)%R).
  { intros j Hj. pose proof (modulus_near (z j) (slot N m j)) as Q. specialize (H1 j Hj). fold e in H1.
    assert (modulus (slot N m j) <= X)%R; [|lra]. eapply Rle_trans; [|exact HX]. rewrite slot_eN by lia. apply modulus_rsum; [lia|]. intros k Hk. rewrite modulus_mul, modulus_eN, Rmult_1_r. change (mk Rops (m k) 0%R) with (real (m k)). rewrite modulus_real. lra. }
  destruct (C120_idft z c (IZR n * (X + e)) arr Ha ltac:(pose proof (ar_u _ _ _ _ _ _ _ _ ar); nra) Hc) as (m' & E2 & H2).
  - apply gsum_const_le; [lia|auto].
  - lra.
  - exists (carray n z), m'. split; [exact E1|]. split; [exact E2|]. intros i Hii. specialize (H2 i Hii).
    assert (Q : (Rabs (c i - m i) <= e)%R).
    { refine (coef_slots LOGN (fun i => c i - m i)%R e HL _ i Hii). intros j Hj. rewrite slot_sub. fold N. rewrite Hc by exact Hj. apply H1. exact Hj. }
    apply abs_le in Q. apply abs_le in H2. apply Rabs_le. lra.
Qed.
(** fft inverts ifft (dft_test.cpp:14-23) *)
Corollary C120_fft_ifft st st2 (z : Z -> CC) B arr zr zi : f_ifft_static F LOGN st -> f_fft_static F LOGN st2 -> cells N arr -> cells n zr -> cells n zi ->
  (0 <= B)%R -> (forall j, 0 <= j < n -> (modulus (z j) <= B)%R) -> (4 * fft_size u eta t N L B + 1 <= top)%R ->
  let e := ifft_error u eta t N L B in let B' := (3 / 2 * (B + e))%R in (4 * fft_size u eta t N L B' + 1 <= top)%R ->
  exists st' m st2' z', f_ifft F LOGN st (fst (carray n z)) (snd (carray n z)) arr = Ok (st', m) /\ f_fft F LOGN st2 m zr zi = Ok (st2', carray (K := Rops) n z') /\
    forall j, 0 <= j < n -> (modulus (z' j - z j)%num <= IZR N * e + fft_error u eta t N L B')%R.
Proof.
  intros Hst Hst2 Ha Hr Hi HB Hz Ht1 e B' Ht2. destruct (C52_fft_ifft LOGN HL None z (gfresh R N)) as (st0 & c & _ & Hc); [constructor|unfold cells, gfresh; apply repeat_length|]. fold n N in Hc.
  destruct (C82_ifft F u eta top t ar LOGN HL Hsmall st z c B arr Hst Ha HB Hz Hc Ht1) as (st' & m' & E1 & _ & H1). fold n N L e in H1.
  assert (Hcb : forall i, 0 <= i < N -> (Rabs (c i) <= B)%R) by (intros i Hii; refine (coef_slots LOGN c B HL _ i Hii); intros j Hj; fold N; rewrite Hc by exact Hj; apply Hz; exact Hj).
  assert (Hmb : forall i, 0 <= i < N -> (Rabs (m' i) <= B + e)%R).
  { intros i Hii. specialize (H1 i Hii). specialize (Hcb i Hii). replace (m' i) with (c i + (m' i - c i))%R by ring. pose proof (Rabs_triang (c i) (m' i - c i)). lra. }
  assert (He0 : (0 <= B + e)%R) by (pose proof (Hmb 0 ltac:(lia)); pose proof (Rabs_pos (m' 0)); lra).
  destruct (C81_fft F u eta top t ar LOGN HL Hsmall st2 m' B' zr zi Hst2 Hr Hi) as (st2' & z' & E2 & _ & H2).
  - unfold B'. lra.
  - intros l Hl. eapply Rle_trans; [apply (modulus_comp _ (B + e)%R)|unfold B'; lra]; [exact (Hmb l ltac:(fold n in Hl; lia))|exact (Hmb (l + n) ltac:(fold n in Hl; lia))].
  - exact Ht2.
  - exists st', (array N m'), st2', z'. split; [exact E1|]. split; [exact E2|]. intros j Hj. specialize (H2 j Hj). fold N in H2.
    replace (z' j - z j)%num with ((slot N m' j - z j) + (z' j - slot N m' j))%num by ring. eapply Rle_trans; [apply modulus_add|]. apply Rplus_le_compat; [|exact H2].
    rewrite <- Hc by exact Hj. rewrite <- slot_sub. apply modulus_slot; [lia|]. auto.
Qed.
End C120.
