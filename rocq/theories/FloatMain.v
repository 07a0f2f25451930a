(** The floating-point transforms against their specifications. *)
From Coq Require Import ZArith List Bool Lia Reals Lra Ring.
From Verif Require Import Base BaseFacts Util UtilFacts GSum Matrix MatrixFacts MatMulFacts DFT DFTTheory DFTFacts FFTFacts Encode EncodeFacts SpecMat Properties_Mat SpecDFT Properties_DFT SpecEnc SlotFacts LinSlots BootFacts PiBound.
From Verif Require Import Float SpecFloat FloatFacts FloatError FloatStage.
Import ListNotations.
Open Scope Z_scope.

Section Transforms.
Context (F : fpu) (LOGN : Z) (HL : 2 <= LOGN <= 27).
Let n := 2 ^ (LOGN - 1).
Let N := 2 ^ LOGN.
Let L := Z.to_nat (LOGN - 1).

Lemma f_fft_static_state st : f_fft_static F LOGN st -> f_fwd_state F LOGN st.
Proof.
  assert (Hx : forall st m zr zi st' out, f_fwd_state F LOGN st -> f_fftNR F LOGN st m zr zi = Ok (st', out) -> f_fwd_state F LOGN st').
  { intros st0 m zr zi st' out Hs E. unfold f_fftNR in E.
    assert (E0 : match st0 with Some t => Ok t | None => f_splitU0NR F LOGN (fst (new_tables LOGN)) (snd (new_tables LOGN)) end = Ok (f_fwd_tables F LOGN))
      by (destruct Hs as [->| ->]; [apply f_splitU0NR_ok; auto|reflexivity]).
    change (car (Fops F)) with R in *. rewrite E0 in E. cbn [bind] in E. destruct (f_fwd_tables F LOGN) as [Tr Ti] eqn:ET. cbn [bind] in E.
    destruct (for_ 0 _ _ (zr, zi)) as [[? ?]| | |]; try discriminate. cbn [bind] in E.
    destruct (for_down _ _ _ _) as [[[[? ?] ?] ?]| | |]; try discriminate. cbn [bind] in E. injection E as <- _.
    right. rewrite ET. reflexivity. }
  induction 1; [left; reflexivity| |eauto]. unfold f_fft in H0. destruct (for_ 0 _ _ _) as [?| | |]; try discriminate. cbn [bind] in H0. eauto.
Qed.
Lemma f_ifft_static_state st : f_ifft_static F LOGN st -> f_bwd_state F LOGN st.
Proof.
  assert (Hx : forall st m zr zi st' out, f_bwd_state F LOGN st -> f_ifftNR F LOGN st zr zi m = Ok (st', out) -> f_bwd_state F LOGN st').
  { intros st0 m zr zi st' out Hs E. unfold f_ifftNR in E.
    assert (E0 : match st0 with Some t => Ok t | None => f_inv_tables F LOGN end = Ok (f_bwd_tables F LOGN))
      by (destruct Hs as [->| ->]; [apply f_inv_tables_ok; auto|reflexivity]).
    change (car (Fops F)) with R in *. rewrite E0 in E. cbn [bind] in E. destruct (f_bwd_tables F LOGN) as [Tr Ti] eqn:ET. cbn [bind] in E.
    destruct (for_ 0 _ _ m) as [?| | |]; try discriminate. cbn [bind] in E.
    destruct (for_ 0 (LOGN - 1) _ _) as [[[? ?] ?]| | |]; try discriminate. cbn [bind] in E.
    destruct (for_ 0 _ _ _) as [?| | |]; try discriminate. cbn [bind] in E. injection E as <- _.
    right. rewrite ET. reflexivity. }
  induction 1; [left; reflexivity| |eauto]. unfold f_ifft in H0. destruct (f_ifftNR F LOGN st zr zi (gfresh R (2 ^ LOGN))) as [[t0 mNR]| | |] eqn:E; try discriminate. cbn [bind] in H0.
  destruct (for_ 0 _ _ _) as [?| | |]; try discriminate. cbn [bind] in H0. injection H0 as <- _. eauto.
Qed.

Context (u eta top t : R) (ar : arithmetic u eta top t (rnd F) (dpi F) (lcos F) (lsin F)).
Context (Hsmall : (table_error u eta t N <= / 64)%R).

Lemma fmN : N = 2 * n.
Proof. apply N_is. auto. Qed.
Lemma fmS : (table_error u eta t (2 * n) <= / 64)%R.
Proof. rewrite <- fmN. exact Hsmall. Qed.
Lemma fmR : (IZR n = 2 ^ L)%R.
Proof. unfold n, L. rewrite pow_IZR. f_equal. f_equal. lia. Qed.

Lemma size_bound B : (0 <= B)%R -> ((2 + lambda u eta t N) ^ L * B + ((2 + lambda u eta t N) ^ L - 1) * (32 * eta) <= fft_size u eta t N L B)%R.
Proof. intros HB. unfold fft_size. destruct ar. lra. Qed.

Lemma fft_bound st (m : Z -> R) B zr zi : f_fft_static F LOGN st -> cells n zr -> cells n zi -> (0 <= B)%R ->
  (forall l, 0 <= l < n -> (modulus (mk Rops (m l) (m (l + n)%Z)) <= B)%R) -> (4 * fft_size u eta t N L B + 1 <= top)%R ->
  exists st' z', f_fft F LOGN st (array N m) zr zi = Ok (st', carray (K := Rops) n z') /\ f_fft_static F LOGN st' /\
    forall j, 0 <= j < n -> (modulus (z' j - slot N m j)%num <= fft_error u eta t N L B)%R.
Proof.
  intros Hst Hr Hi HB Hm Htop. pose proof (n_pos LOGN HL) as Hn. fold n in Hn.
  pose proof (f_fft_ok F LOGN HL st m) as E. destruct (cells_tab _ _ Hr) as [a Ea]. destruct (cells_tab _ _ Hi) as [b Eb]. specialize (E a b (f_fft_static_state st Hst)).
  fold n in E. fold L in E. rewrite <- fmN in E. rewrite <- Ea, <- Eb in E.
  exists (Some (f_fwd_tables F LOGN)), (f_fwd F LOGN L (fun p => fold_c LOGN m (brv L p))). rewrite array_gtab, carray_cvtab. split; [exact E|]. split; [econstructor; eauto|].
  intros j Hj. pose proof (S_err u eta t LOGN B L) as SE. fold n in SE. rewrite <- fmN in SE. rewrite SE.
  pose proof (size_bound B HB) as SB.
  pose proof (fwd_err F u eta top t ar LOGN HL fmS B HB (fun p => fold_c LOGN m (brv L p))) as FE. fold n in FE. fold L in FE. rewrite <- fmN in FE.
  destruct (FE ltac:(lra) ltac:(intros q Hq; cbv beta; destruct (brv_n LOGN HL q Hq) as (_ & Hb & _); apply Hm; exact Hb) L ltac:(lia) j Hj) as [E1 _].
  assert (EL : 2 ^ Z.of_nat L = n) by (unfold L, n; f_equal; lia).
  pose proof (fwd_full Rlawful L (eN (2 * n)) (eN_0 _) (eN_add _) (e_N LOGN HL) (fold_c LOGN m) j ltac:(rewrite EL; auto)) as FF. rewrite EL in FF. rewrite <- fmN in FF.
  assert (FS : fwd L (eN N) L (fun p => fold_c LOGN m (brv L p)) j = slot N m j).
  { etransitivity; [exact FF|]. unfold N. rewrite (fold_slot LOGN HL m j ltac:(lia)). fold n. fold N. rewrite <- fmN. reflexivity. }
  rewrite <- FS. exact E1.
Qed.

Lemma f_scale_err x X : (Rabs x <= X)%R -> (4 * X + 1 <= top)%R -> (Rabs (f_scale F LOGN x - x / IZR n) <= 3 * u * X / IZR n + 2 * eta)%R.
Proof.
  intros Hx HX. pose proof (n_pos LOGN HL) as Hn. fold n in Hn. unfold f_scale. fold n. destruct ar as [ar_u0 ar_eta0 _ _ ar_rnd0 _ _ _ _].
  assert (HX0 : (0 <= X)%R) by (pose proof (Rabs_pos x); lra).
  assert (Hn2 : (2 <= IZR n)%R). { apply IZR_le. unfold n. assert (2 ^ 1 <= 2 ^ (LOGN - 1)) by (apply Z.pow_le_mono_r; lia). lia. }
  rewrite mult_IZR. set (v := (/ IZR n)%R). assert (Hv : (0 < v <= / 2)%R). { unfold v. split; [apply Rinv_0_lt_compat; lra|]. apply Rinv_le_contravar; lra. }
  apply abs_le in Hx. assert (B1 : (Rabs (x * 2) <= 2 * X)%R) by (apply Rabs_le; lra).
  pose proof (ar_rnd0 (x * 2)%R ltac:(lra)) as R1. assert (M1 : (u * Rabs (x * 2) <= u * (2 * X))%R) by (apply Rmult_le_compat_l; lra). apply abs_le in R1.
  set (r := rnd F (x * 2)) in *. unfold Rdiv. replace (/ (2 * IZR n))%R with (v / 2)%R by (unfold v; field; lra). fold v.
  pose proof (small_mul u X ar_u0 HX0) as S1. pose proof (small_mul u (u * X) ar_u0 ltac:(lra)) as S2. pose proof (small_mul u eta ar_u0 ltac:(lra)) as S3.
  assert (Br : (Rabs r <= 2 * X + 2 * (u * X) + eta)%R) by (apply Rabs_le; lra).
  assert (B2 : (Rabs (r * (v / 2)) <= v * (X + u * X + eta / 2))%R). { rewrite Rabs_mult, (Rabs_right (v / 2)) by lra. replace (v * (X + u * X + eta / 2))%R with ((2 * X + 2 * (u * X) + eta) * (v / 2))%R by lra. apply Rmult_le_compat_r; lra. }
  assert (B2' : (v * (X + u * X + eta / 2) <= X + u * X + eta / 2)%R). { rewrite <- (Rmult_1_l (X + u * X + eta / 2)) at 2. apply Rmult_le_compat_r; lra. }
  pose proof (ar_rnd0 (r * (v / 2))%R ltac:(lra)) as R2. assert (M2 : (u * Rabs (r * (v / 2)) <= u * (v * (X + u * X + eta / 2)))%R) by (apply Rmult_le_compat_l; lra). apply abs_le in R2.
  assert (D1 : (Rabs (r * (v / 2) - x * v) <= (2 * (u * X) + eta) * (v / 2))%R). { replace (r * (v / 2) - x * v)%R with ((r - x * 2) * (v / 2))%R by lra. rewrite Rabs_mult, (Rabs_right (v / 2)) by lra. apply Rmult_le_compat_r; [lra|]. apply Rabs_le. lra. }
  apply abs_le in D1.
  assert (Q : (u * (v * (X + u * X + eta / 2)) + (2 * (u * X) + eta) * (v / 2) <= 3 * u * X * v + eta)%R).
  { replace (u * (v * (X + u * X + eta / 2)) + (2 * (u * X) + eta) * (v / 2))%R with ((2 * (u * X) + u * (u * X)) * v + (eta + u * eta) * (v / 2))%R by lra.
    assert ((2 * (u * X) + u * (u * X)) * v <= 3 * (u * X) * v)%R by (apply Rmult_le_compat_r; lra).
    assert ((eta + u * eta) * (v / 2) <= (eta + u * eta) * / 2)%R by (apply Rmult_le_compat_l; lra). lra. }
  apply Rabs_le. lra.
Qed.

Lemma ifft_bound st (z : Z -> CC) (m : Z -> R) B arr : f_ifft_static F LOGN st -> cells N arr -> (0 <= B)%R ->
  (forall j, 0 <= j < n -> (modulus (z j) <= B)%R) -> (forall j, 0 <= j < n -> slot N m j = z j) -> (4 * fft_size u eta t N L B + 1 <= top)%R ->
  exists st' m', f_ifft F LOGN st (fst (carray n z)) (snd (carray n z)) arr = Ok (st', array N m') /\ f_ifft_static F LOGN st' /\
    forall i, 0 <= i < N -> (Rabs (m' i - m i) <= ifft_error u eta t N L B)%R.
Proof.
  intros Hst Ha HB Hz Hs Htop. pose proof (n_pos LOGN HL) as Hn. fold n in Hn.
  destruct (cells_tab _ _ Ha) as [f Ef].
  pose proof (f_ifft_ok F LOGN HL st z f (f_ifft_static_state st Hst)) as E. fold n in E. fold L in E. rewrite <- fmN in E. rewrite <- Ef in E.
  rewrite carray_cvtab. unfold cvtab. cbn [fst snd].
  eexists _, _. rewrite array_gtab. split; [exact E|]. split; [econstructor; eauto|].
  (* the exact transform *)
  pose proof (ifft_ok LOGN HL None z f (or_introl eq_refl)) as X1. fold n in X1. rewrite <- fmN, <- Ef in X1.
  assert (X2 : exists st', ifft LOGN None (gtab n (fun i => cre Rops (z i))) (gtab n (fun i => cim Rops (z i))) arr = Ok (st', gtab N m)).
  { destruct (C52_ifft_fft LOGN HL None m arr (ifft_first LOGN) Ha) as [st' E']. exists st'. fold n N in E'. rewrite array_gtab in E'.
    replace (carray n (slot N m)) with (carray (K := Rops) n z) in E' by (rewrite !carray_cvtab; symmetry; apply cvtab_ext; auto).
    rewrite carray_cvtab in E'. exact E'. }
  destruct X2 as [st2 X2]. rewrite X2 in X1. injection X1 as _ X1.
  intros i Hi. assert (Xi : m i = (unfold_c n (fun k => gsum (K := RC) n (fun j => (cconj Rops (eN N (5 ^ j * k)%Z) : RC) * z j)%num) i * 2 / IZR N)%R).
  { pose proof (grd_gtab N m i Hi) as G1. rewrite X1 in G1. rewrite grd_gtab in G1 by auto. injection G1 as G1. symmetry. exact G1. }
  clear X1 X2 st2 E Ef f. rewrite Xi. clear Xi.
  assert (EL : 2 ^ Z.of_nat L = n) by (unfold L, n; f_equal; lia).
  pose proof (size_bound B HB) as SB.
  assert (BE : forall k, 0 <= k < n -> (modulus (f_hb F LOGN L z (brv L k) - gsum (K := RC) n (fun j => (cconj Rops (eN N (5 ^ j * k)%Z) : RC) * z j))%num <= fft_error u eta t N L B)%R
      /\ (modulus (f_hb F LOGN L z (brv L k)) <= fft_size u eta t N L B)%R).
  { intros k Hk. destruct (brv_n LOGN HL k Hk) as (_ & Hb & _). fold n in Hb. fold L in Hb.
    pose proof (bwd_err F u eta top t ar LOGN HL fmS B HB z) as FE. fold n in FE. fold L in FE. rewrite <- fmN in FE.
    destruct (FE ltac:(lra) Hz L ltac:(lia) (brv L k) Hb) as [E1 E2].
    assert (EB : hb LOGN L z (brv L k) = gsum (K := RC) n (fun j => (cconj Rops (eN N (5 ^ j * k)%Z) : RC) * z j)%num).
    { pose proof (hb_bwd LOGN HL L z ltac:(unfold L; lia)) as HB2. fold L in HB2. rewrite Nat.sub_diag in HB2. cbn [bwd] in HB2. rewrite HB2.
      pose proof (bwd_full Rlawful L (eN (2 * n)) (eN_0 _) (eN_add _) (e_N LOGN HL) z k ltac:(rewrite EL; auto)) as BF. rewrite EL in BF. fold n. rewrite fmN. exact BF. }
    rewrite EB in E1, E2. split.
    - eapply Rle_trans; [exact E1|]. unfold fft_error. lra.
    - match goal with |- (modulus ?a <= _)%R => pose proof (modulus_near a (hb LOGN L z (brv L k))) as MN end. rewrite EB in MN. lra. }
  assert (G : forall x' x : R, (Rabs (x' - x) <= fft_error u eta t N L B)%R -> (Rabs x' <= fft_size u eta t N L B)%R ->
     (Rabs (f_scale F LOGN x' - x * 2 / IZR N) <= ifft_error u eta t N L B)%R).
  { intros x' x H1 H2. pose proof (f_scale_err x' _ H2 Htop) as S1. apply abs_le in S1.
    assert (Hn0 : (0 < IZR n)%R) by (apply IZR_lt; lia).
    assert (H3 : (Rabs (x' / IZR n - x / IZR n) <= fft_error u eta t N L B / IZR n)%R).
    { unfold Rdiv. rewrite <- Rmult_minus_distr_r, Rabs_mult, (Rabs_right (/ IZR n)) by (apply Rle_ge, Rlt_le, Rinv_0_lt_compat; auto). apply Rmult_le_compat_r; auto. apply Rlt_le, Rinv_0_lt_compat; auto. }
    apply abs_le in H3. unfold ifft_error. rewrite <- fmR. replace (x * 2 / IZR N)%R with (x / IZR n)%R by (rewrite fmN, mult_IZR; field; lra).
    replace ((fft_error u eta t N L B + 3 * u * fft_size u eta t N L B) / IZR n)%R with (fft_error u eta t N L B / IZR n + 3 * u * fft_size u eta t N L B / IZR n)%R by (field; lra).
    apply Rabs_le. lra. }
  unfold unfold_c. destruct (Z.ltb_spec i n) as [Hin|Hin].
  - destruct (BE i ltac:(lia)) as [B1 B2]. apply G; [eapply Rle_trans; [|exact B1]; apply (modulus_cre (_ - _)%num)|eapply Rle_trans; [|exact B2]; apply modulus_cre].
  - pose proof fmN as HN2. destruct (BE (i - n) ltac:(lia)) as [B1 B2]. apply G; [eapply Rle_trans; [|exact B1]; apply (modulus_cim (_ - _)%num)|eapply Rle_trans; [|exact B2]; apply modulus_cim].
Qed.
End Transforms.
