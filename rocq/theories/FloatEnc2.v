(** Floating-point encoding when the coefficients have a smaller bound than the slots: only the coefficients have to fit a word. *)
From Coq Require Import ZArith List Bool Lia Reals Lra Ring.
From Verif Require Import Base BaseFacts Util UtilFacts ZQ ZQFacts ZQFacts2 RQ RQFacts SpecZQ SpecPoly SpecPolyFacts GSum Matrix MatrixFacts MatMulFacts DFT DFTTheory DFTFacts FFTFacts Encode EncodeFacts SpecMat Properties_Mat SpecDFT Properties_DFT SpecEnc SlotFacts LinSlots.
From Verif Require Import Float SpecFloat FloatFacts FloatError FloatStage FloatMain FloatEnc FloatNum Binary64 Properties_Float.
Import ListNotations.
Open Scope Z_scope.

Section Enc.
Context (F : fpu) (LOGQ LOGN : Z) (HQ : 1 <= LOGQ) (HL : 2 <= LOGN <= 27).
Let n := 2 ^ (LOGN - 1).
Let N := 2 ^ LOGN.
Let L := Z.to_nat (LOGN - 1).
Context (u eta top t : R) (ar : arithmetic u eta top t (rnd F) (dpi F) (lcos F) (lsin F)).
Context (Hsmall : (table_error u eta t N <= / 64)%R) (Hbig : (IZR (2 ^ 66) <= top)%R).

Lemma encode_bound_mean Delta st (z : Z -> CC) (m : Z -> R) B M pt : 0 < Delta < 2 ^ 64 -> f_ifft_static F LOGN st -> objectP LOGQ N pt -> (0 <= B)%R ->
  (forall j, 0 <= j < n -> (modulus (z j) <= B)%R) -> (forall j, 0 <= j < n -> slot N m j = z j) -> (forall i, 0 <= i < N -> (Rabs (m i) <= M)%R) -> (M <= B)%R -> (4 * fft_size u eta t N L B + 1 <= top)%R ->
  let e := encode_error u eta (ifft_error u eta t N L B) B Delta in
  (M * IZR Delta + e + 1 < IZR (2 ^ 64))%R -> (M * IZR Delta + e + 1 < IZR (2 ^ LOGQ))%R ->
  exists st' pt' c m', f_encode F LOGQ LOGN st (fst (carray n z)) (snd (carray n z)) Delta pt = Ok (st', pt') /\ f_ifft_static F LOGN st' /\
    f_ifft F LOGN st (fst (carray n z)) (snd (carray n z)) (gfresh R N) = Ok (st', array N m') /\
    holdsP LOGQ N pt' c /\ (forall i, 0 <= i < N -> (Rabs (IZR (c i) - m i * IZR Delta) <= / 2 + e)%R) /\
    forall i, 0 <= i < N -> c i = let w := rround (rnd F (Rabs (m' i) * rnd F (IZR Delta))) in if Rlt_dec (m' i) 0 then - w else w.
Proof.
  intros HD Hst Hpt HB Hz Hs HmB HMB Htop e Hw Hq. assert (HN : 0 < N) by (apply Z.pow_pos_nonneg; lia).
  destruct (ifft_bound F LOGN HL u eta top t ar Hsmall st z m B (gfresh R N) Hst (repeat_length None (Z.to_nat N)) HB Hz Hs Htop) as (st' & m' & E & Hst' & Hm').
  fold n in E. fold N in E. fold N L in Hm'.
  apply objectP_obj in Hpt; try lia. assert (HDR : (1 <= IZR Delta)%R) by (apply IZR_le; lia).
  assert (HM0 : (0 <= M)%R) by (pose proof (HmB 0 ltac:(lia)); pose proof (Rabs_pos (m 0)); lra).
  set (EE := ifft_error u eta t N L B) in *. assert (HE : (0 <= EE)%R) by (pose proof (Hm' 0 ltac:(lia)); pose proof (Rabs_pos (m' 0%Z - m 0%Z)); lra).
  assert (He : (e = IZR Delta * (2 * EE + 3 * (u + eta) * B) + eta)%R) by reflexivity.
  assert (Hue : (0 <= u + eta)%R) by (destruct ar; lra). assert (Het : (0 <= eta <= / 1024)%R) by (destruct ar; auto).
  assert (HED : (0 <= EE * IZR Delta)%R) by (apply Rmult_le_pos; lra). assert (HvB : (0 <= IZR Delta * ((u + eta) * B))%R) by (apply Rmult_le_pos; [lra|apply Rmult_le_pos; lra]).
  assert (H66 : (IZR (2 ^ 66) = 4 * IZR (2 ^ 64))%R) by (rewrite <- mult_IZR; reflexivity).
  assert (HDW : (IZR Delta <= IZR (2 ^ 64))%R) by (apply IZR_le; lia).
  assert (HvM : (IZR Delta * ((u + eta) * M) <= IZR Delta * ((u + eta) * B))%R) by (apply Rmult_le_compat_l; [lra|apply Rmult_le_compat_l; lra]).
  assert (S : forall i, 0 <= i < N -> (Rabs (rnd F (Rabs (m' i) * rnd F (IZR Delta)) - Rabs (m' i) * IZR Delta) <= e - EE * IZR Delta)%R).
  { intros i Hi. eapply Rle_trans; [apply (scaled_err F u eta top t ar Hbig (m' i) (m i) EE M (IZR Delta)); auto; lra|]. lra. }
  assert (G : forall i, 0 <= i < N -> let w := rround (rnd F (Rabs (m' i) * rnd F (IZR Delta))) in (0 <= w < W /\ w < 2 ^ LOGQ) /\ (Rabs (IZR w - Rabs (m' i) * IZR Delta) <= / 2 + (e - EE * IZR Delta))%R).
  { intros i Hi w. pose proof (S i Hi) as S1. apply abs_le in S1. pose proof (rround_near (rnd F (Rabs (m' i) * rnd F (IZR Delta)))) as RN. fold w in RN. unfold nearest in RN. apply abs_le in RN.
    assert (Ha : (0 <= Rabs (m' i) * IZR Delta <= M * IZR Delta + EE * IZR Delta)%R).
    { split; [apply Rmult_le_pos; [apply Rabs_pos|lra]|]. rewrite <- Rmult_plus_distr_r. apply Rmult_le_compat_r; [lra|]. replace (m' i) with (m i + (m' i - m i))%R by ring. eapply Rle_trans; [apply Rabs_triang|]. pose proof (HmB i Hi). pose proof (Hm' i Hi). lra. }
    split; [|apply Rabs_le; lra].
    assert (Hup : (IZR w <= M * IZR Delta + e + / 2)%R) by lra.
    split; [split|].
    - assert (- (1) < w); [|lia]. apply lt_IZR. rewrite opp_IZR.
      (* the product is at least -eta *)
      assert (Hlow : (- / 1024 <= rnd F (Rabs (m' i) * rnd F (IZR Delta)))%R).
      { destruct ar as [ar_u0 ar_eta0 _ _ ar_rnd0 _ _ _ _]. pose proof (ar_rnd0 (IZR Delta) ltac:(rewrite Rabs_right; lra)) as R1. rewrite (Rabs_right (IZR Delta)) in R1 by lra. apply abs_le in R1.
        pose proof (small_mul u (IZR Delta) ar_u0 ltac:(lra)) as SM.
        assert (HD1 : (0 <= rnd F (IZR Delta) <= 2 * IZR Delta)%R) by lra.
        assert (Hp : (0 <= Rabs (m' i) * rnd F (IZR Delta) <= 2 * (Rabs (m' i) * IZR Delta))%R).
        { split; [apply Rmult_le_pos; [apply Rabs_pos|lra]|]. replace (2 * (Rabs (m' i) * IZR Delta))%R with (Rabs (m' i) * (2 * IZR Delta))%R by ring. apply Rmult_le_compat_l; [apply Rabs_pos|lra]. }
        pose proof (ar_rnd0 (Rabs (m' i) * rnd F (IZR Delta))%R ltac:(rewrite Rabs_right; lra)) as R2. rewrite (Rabs_right (Rabs (m' i) * rnd F (IZR Delta))) in R2 by lra. apply abs_le in R2.
        pose proof (small_mul u (Rabs (m' i) * rnd F (IZR Delta)) ar_u0 ltac:(lra)) as SM2. lra. }
      lra.
    - apply lt_IZR. change W with (2 ^ 64). lra.
    - apply lt_IZR. lra. }
  exists st', (repP LOGQ N (fun i => let w := rround (rnd F (Rabs (m' i) * rnd F (IZR Delta))) in if Rlt_dec (m' i) 0 then - w else w)),
    (fun i => let w := rround (rnd F (Rabs (m' i) * rnd F (IZR Delta))) in if Rlt_dec (m' i) 0 then - w else w), m'. split; [|split; [|split; [|split; [|split]]]].
  - unfold f_encode. fold N. rewrite E. cbn [bind]. rewrite array_gtab. unfold N at 1 2 3.
    rewrite (f_encode_loop LOGQ LOGN HQ HL (fun x => rnd F (Rabs x * rnd F (IZR Delta))) m' pt Hpt).
    + cbn [bind]. reflexivity.
    + intros i Hi. apply G. auto.
  - auto.
  - exact E.
  - apply repP_holds; lia.
  - intros i Hi. cbv beta zeta. destruct (G i Hi) as [_ G2]. apply abs_le in G2. set (w := rround (rnd F (Rabs (m' i) * rnd F (IZR Delta)))) in *. clearbody w. pose proof (Hm' i Hi) as HH. 
    assert (HD2 : (Rabs (m' i * IZR Delta - m i * IZR Delta) <= EE * IZR Delta)%R) by (rewrite <- Rmult_minus_distr_r, Rabs_mult, (Rabs_right (IZR Delta)) by lra; apply Rmult_le_compat_r; lra).
    apply abs_le in HD2. destruct (Rlt_dec (m' i) 0) as [Hneg|Hpos].
    + rewrite (Rabs_left (m' i)) in G2 by auto. rewrite opp_IZR. apply Rabs_le. lra.
    + rewrite (Rabs_right (m' i)) in G2 by lra. apply Rabs_le. lra.
  - reflexivity.
Qed.
End Enc.

(** Slots up to B, coefficients up to M: the rounding error depends on B, what has to fit a word on M. *)
Theorem C83_encode_mean_double F (HF : double F) LOGQ LOGN (HQ : 1 <= LOGQ <= 2048) (HL : 2 <= LOGN <= 17) Delta st (z : Z -> CC) (m : Z -> R) B M pt : 0 < Delta < 2 ^ 64 -> f_ifft_static F LOGN st -> objectP LOGQ (2 ^ LOGN) pt -> (0 <= B <= powerRZ 2 900)%R ->
  (forall j, 0 <= j < 2 ^ (LOGN - 1) -> (modulus (z j) <= B)%R) -> (forall j, 0 <= j < 2 ^ (LOGN - 1) -> slot (2 ^ LOGN) m j = z j) -> (forall i, 0 <= i < 2 ^ LOGN -> (Rabs (m i) <= M)%R) -> (M <= B)%R ->
  (M * IZR Delta + powerRZ 2 (-41) * (B * IZR Delta) + 2 < IZR (2 ^ 64))%R -> (M * IZR Delta + powerRZ 2 (-41) * (B * IZR Delta) + 2 < IZR (2 ^ LOGQ))%R ->
  exists st' pt' c, f_encode F LOGQ LOGN st (fst (carray (2 ^ (LOGN - 1)) z)) (snd (carray (2 ^ (LOGN - 1)) z)) Delta pt = Ok (st', pt') /\ f_ifft_static F LOGN st' /\
    holdsP LOGQ (2 ^ LOGN) pt' c /\ forall i, 0 <= i < 2 ^ LOGN -> (Rabs (IZR (c i) - m i * IZR Delta) <= / 2 + powerRZ 2 (-41) * (B * IZR Delta) + powerRZ 2 (-900))%R.
Proof.
  intros HD Hst Hpt HB Hz Hs HM HMB Hw Hq. assert (HDR : (1 <= IZR Delta)%R) by (apply IZR_le; lia).
  pose proof (num_encode_error LOGN HL B Delta ltac:(lra) HD) as NE. pose proof (num_uB B ltac:(lra)) as HuB. assert (Hx : (0 <= u64 * B * IZR Delta)%R) by (apply Rmult_le_pos; lra).
  rewrite (p41 0) in *. assert (T1 : (powerRZ 2 (-900) <= 1)%R) by (apply (p2_le (-900) 0); lia).
  assert (HB1000 : (B <= powerRZ 2 1000)%R). { apply Rle_trans with (powerRZ 2 900); [lra|]. apply p2_le. lia. }
  destruct (encode_bound_mean F LOGQ LOGN ltac:(lia) ltac:(lia) u64 eta64 top64 t64 HF (num_small LOGN HL) (top64_big 66 ltac:(lia)) Delta st z m B M pt HD Hst Hpt ltac:(lra) Hz Hs HM HMB) as (st' & pt' & c & m' & E & Hst' & _ & Hc & Hm & _).
  - apply (num_size_top LOGN HL); lra.
  - lra.
  - lra.
  - exists st', pt', c. split; [exact E|]. split; [auto|]. split; [auto|]. intros i Hi. eapply Rle_trans; [apply Hm; auto|]. lra.
Qed.
