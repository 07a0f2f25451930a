(** Floating-point decoding against the slots of the polynomial. *)
From Coq Require Import ZArith List Bool Lia Reals Lra Ring.
From Verif Require Import Base BaseFacts Util UtilFacts ZQ ZQFacts ZQFacts2 RQ RQFacts SpecZQ SpecPoly SpecPolyFacts GSum Matrix MatrixFacts MatMulFacts DFT DFTTheory DFTFacts FFTFacts Encode EncodeFacts SpecMat Properties_Mat SpecDFT Properties_DFT SpecEnc SlotFacts LinSlots.
From Verif Require Import Float SpecFloat FloatFacts FloatError FloatStage FloatMain FloatEnc FloatDec.
Import ListNotations.
Open Scope Z_scope.

Section DecSlots.
Context (F : fpu) (LOGQ LOGN : Z) (HQ : 1 <= LOGQ) (HL : 2 <= LOGN <= 27).
Let n := 2 ^ (LOGN - 1).
Let N := 2 ^ LOGN.
Let L := Z.to_nat (LOGN - 1).
Context (u eta top t : R) (ar : arithmetic u eta top t (rnd F) (dpi F) (lcos F) (lsin F)).
Context (Hsmall : (table_error u eta t N <= / 64)%R).

Lemma modulus_le2 (x y A : R) : (Rabs x <= A)%R -> (Rabs y <= A)%R -> (modulus (mk Rops x y) <= 2 * A)%R.
Proof.
  intros Hx Hy. pose proof (Rabs_pos x). unfold modulus, cre, cim. cbn [mk fst snd].
  apply Rsqr_incr_0_var; [|lra]. rewrite Rsqr_sqrt.
  - apply abs_le in Hx, Hy. unfold Rsqr. cbn. assert (x * x <= A * A)%R by nra. assert (y * y <= A * A)%R by nra. nra.
  - cbn. nra.
Qed.
Lemma fs_N : 0 < N.
Proof. apply Z.pow_pos_nonneg; lia. Qed.

(** A loop that computes the coefficients M up to dc, followed by fft *)
Lemma decode_any (G : arr -> res R) (c : Z -> Z) (M : Z -> R) (A dc : R) st zr zi : f_fft_static F LOGN st -> cells n zr -> cells n zi ->
  (forall i, 0 <= i < N -> exists x, G (rep LOGQ (c i)) = Ok x /\ (Rabs (x - M i) <= dc)%R) -> (forall i, 0 <= i < N -> (Rabs (M i) <= A)%R) ->
  (4 * fft_size u eta t N L (2 * (A + dc)) + 1 <= top)%R ->
  exists st' z', (m <- for_ 0 N (fun i m => p <- lget (repP LOGQ N c) i ;; x <- G p ;; gwr m i x) (gfresh R N) ;; f_fft F LOGN st m zr zi) = Ok (st', carray (K := Rops) n z') /\
    f_fft_static F LOGN st' /\ forall j, 0 <= j < n -> (modulus (z' j - slot N M j)%num <= IZR N * dc + fft_error u eta t N L (2 * (A + dc)))%R.
Proof.
  intros Hst Hr Hi HG HA Ht. pose proof fs_N as HN.
  set (f := fun v => match G (rep LOGQ v) with Ok x => x | _ => 0%R end).
  assert (Hf : forall i, 0 <= i < N -> G (rep LOGQ (c i)) = Ok (f (c i)) /\ (Rabs (f (c i) - M i) <= dc)%R).
  { intros i Hi'. destruct (HG i Hi') as (x & E & Hx). unfold f. rewrite E. auto. }
  unfold N. rewrite (decode_loop LOGQ LOGN HL G c f) by (intros i Hi'; apply Hf; exact Hi'). fold N. cbn [bind].
  assert (Hdc : (0 <= dc)%R). { destruct (Hf 0 ltac:(lia)) as [_ H]. pose proof (Rabs_pos (f (c 0) - M 0)). lra. }
  assert (HA0 : (0 <= A)%R). { pose proof (HA 0 ltac:(lia)) as H. pose proof (Rabs_pos (M 0)). lra. }
  assert (Hx : forall i, 0 <= i < N -> (Rabs (f (c i)) <= A + dc)%R).
  { intros i Hi'. destruct (Hf i Hi') as [_ H]. specialize (HA i Hi'). apply abs_le in H, HA. apply Rabs_le. lra. }
  assert (HNn : N = 2 * n) by (apply N_is; auto).
  destruct (fft_bound F LOGN HL u eta top t ar Hsmall st (fun i => f (c i)) (2 * (A + dc)) zr zi Hst Hr Hi) as (st' & z' & E & Hst' & Hz'); auto.
  - lra.
  - intros l Hl. fold n in Hl |- *. apply modulus_le2; apply Hx; lia.
  - exists st', z'. rewrite array_gtab in E. split; [exact E|]. split; [exact Hst'|]. intros j Hj. specialize (Hz' j Hj). fold N L in Hz'.
    replace (z' j - slot N M j)%num with ((z' j - slot N (fun i => f (c i)) j) + slot N (fun i => f (c i) - M i)%R j)%num.
    + eapply Rle_trans; [apply modulus_add|]. rewrite Rplus_comm. apply Rplus_le_compat; [|exact Hz']. apply modulus_slot; auto. intros k Hk. apply Hf. auto.
    + rewrite slot_sub. destruct (z' j), (slot N (fun i => f (c i)) j), (slot N M j). apply RC_eq; cbn; ring.
Qed.

Context (Hbig : (IZR (2 ^ 66) <= top)%R).
Lemma coeff_error_mono K a A : 0 <= K -> (a <= A)%R -> (coeff_error u eta K a <= coeff_error u eta K A)%R.
Proof.
  intros HK H. unfold coeff_error. apply Rplus_le_compat_r. apply Rmult_le_compat_l; auto. destruct ar. assert (0 <= IZR K)%R by (apply IZR_le; auto).
  assert (0 <= IZR K * u)%R by (apply Rmult_le_pos; lra). lra.
Qed.
Lemma coeff_log_error_mono a A : (a <= A)%R -> (coeff_log_error u eta a <= coeff_log_error u eta A)%R.
Proof. intros H. unfold coeff_log_error. apply Rplus_le_compat_r. apply Rmult_le_compat_l; auto. destruct ar. lra. Qed.

Lemma decode_bound Delta st pt c A zr zi : (IZR (len LOGQ) * (u + eta) <= / 8)%R -> 0 < Delta < 2 ^ 64 -> f_fft_static F LOGN st -> cells n zr -> cells n zi ->
  signedP LOGQ N pt c -> (forall i, 0 <= i < N -> (Rabs (IZR (c i) / IZR Delta) <= A)%R) -> (8 * (A * IZR Delta) + 1 <= top)%R ->
  let dc := coeff_error u eta (len LOGQ) A in (4 * fft_size u eta t N L (2 * (A + dc)) + 1 <= top)%R ->
  exists st' z', f_decode F LOGQ LOGN st pt Delta zr zi = Ok (st', carray (K := Rops) n z') /\ f_fft_static F LOGN st' /\
    forall j, 0 <= j < n -> (modulus (z' j - slots N (IZR Delta) c j)%num <= IZR N * dc + fft_error u eta t N L (2 * (A + dc)))%R.
Proof.
  intros Hlen HD Hst Hr Hi [Hp Hc] HA HT dc Ht. pose proof fs_N as HN. apply holdsP_rep in Hp; try lia. subst pt.
  assert (HD' : (0 < IZR Delta)%R) by (apply IZR_lt; lia). pose proof (len_bounds LOGQ HQ) as Hl.
  unfold f_decode. fold N. unfold slots. apply decode_any with (A := A) (dc := dc); auto.
  intros i Hi'. assert (EA : (Rabs (IZR (c i)) <= A * IZR Delta)%R).
  { specialize (HA i Hi'). unfold Rdiv in HA. rewrite Rabs_mult, (Rabs_right (/ IZR Delta)) in HA by (apply Rle_ge, Rlt_le, Rinv_0_lt_compat; auto).
    apply Rmult_le_reg_r with (/ IZR Delta)%R; [apply Rinv_0_lt_compat; auto|]. rewrite Rmult_assoc, Rinv_r, Rmult_1_r; lra. }
  destruct (f_decode_coeff_ok F LOGQ HQ u eta top t ar Hbig Hlen (c i) Delta HD) as (x & E & Hx); [rewrite cent_small by auto; lra|].
  rewrite cent_small in Hx by auto. exists x. split; [exact E|]. eapply Rle_trans; [exact Hx|]. apply coeff_error_mono; [lia|]. apply HA. auto.
Qed.

Lemma decode_log_bound LD st pt c A zr zi : LOGQ <= 2 ^ 30 -> - 2 ^ 30 <= LD <= 2 ^ 30 -> f_fft_static F LOGN st -> cells n zr -> cells n zi ->
  signedP LOGQ N pt c -> (forall i, 0 <= i < N -> (Rabs (IZR (c i) / powerRZ 2 LD) <= A)%R) ->
  let dc := coeff_log_error u eta A in (4 * fft_size u eta t N L (2 * (A + dc)) + 1 <= top)%R ->
  exists st' z', f_decode_log F LOGQ LOGN st pt LD zr zi = Ok (st', carray (K := Rops) n z') /\ f_fft_static F LOGN st' /\
    forall j, 0 <= j < n -> (modulus (z' j - slots N (powerRZ 2 LD) c j)%num <= IZR N * dc + fft_error u eta t N L (2 * (A + dc)))%R.
Proof.
  intros HQ' HLD Hst Hr Hi [Hp Hc] HA dc Ht. pose proof fs_N as HN. apply holdsP_rep in Hp; try lia. subst pt.
  unfold f_decode_log. fold N. unfold slots. apply decode_any with (A := A) (dc := dc); auto.
  intros i Hi'. specialize (HA i Hi'). assert (Hp : (IZR (c i) / powerRZ 2 LD = IZR (c i) * powerRZ 2 (- LD))%R) by (unfold Rdiv; rewrite powerRZ_neg'; reflexivity).
  rewrite Hp in HA |- *.
  assert (HS : (A <= fft_size u eta t N L (2 * (A + dc)))%R).
  { pose proof (Rabs_pos (IZR (c i) * powerRZ 2 (- LD))). unfold fft_size. destruct ar.
    assert (0 <= dc)%R. { unfold dc, coeff_log_error. assert (0 <= (10 * u + 5 * eta) * A)%R by (apply Rmult_le_pos; lra). lra. }
    assert (HT : (0 <= table_error u eta t N)%R). { unfold table_error. assert (0 <= IZR N)%R by (apply IZR_le; lia). assert (0 <= IZR N * eta)%R by (apply Rmult_le_pos; lra). lra. }
    assert (1 <= (2 + lambda u eta t N) ^ L)%R by (apply pow_R1_Rle; unfold lambda; lra).
    rewrite <- (Rmult_1_l A). apply Rmult_le_compat; lra. }
  destruct (f_decode_log_coeff_ok F LOGQ HQ u eta top t ar Hbig (c i) LD HQ' HLD) as (x & E & Hx); [rewrite cent_small by auto; pose proof (Rabs_pos (IZR (c i) * powerRZ 2 (- LD))); lra|].
  rewrite cent_small in Hx by auto. exists x. split; [exact E|]. eapply Rle_trans; [exact Hx|]. apply coeff_log_error_mono. auto.
Qed.
End DecSlots.
