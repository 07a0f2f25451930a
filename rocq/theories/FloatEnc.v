(** Floating-point encoding and decoding. *)
From Coq Require Import ZArith List Bool Lia Reals Lra Ring.
From Verif Require Import Base BaseFacts Util UtilFacts ZQ ZQFacts ZQFacts2 RQ RQFacts SpecZQ SpecPoly SpecPolyFacts GSum Matrix MatrixFacts MatMulFacts DFT DFTTheory DFTFacts FFTFacts Encode EncodeFacts SpecMat Properties_Mat SpecDFT Properties_DFT SpecEnc SlotFacts LinSlots.
From Verif Require Import Float SpecFloat FloatFacts FloatError FloatStage FloatMain.
Import ListNotations.
Open Scope Z_scope.

Section Words.
Context (LOGQ LOGN : Z) (HQ : 1 <= LOGQ) (HL : 2 <= LOGN <= 27).
Let N := 2 ^ LOGN.

Lemma f_encode_loop (cv : R -> R) (m : Z -> R) pt : objP LOGQ N pt ->
  (forall i, 0 <= i < N -> 0 <= rround (cv (m i)) < W /\ rround (cv (m i)) < 2 ^ LOGQ) ->
  for_ 0 N (fun i pt =>
      pt <- pupd pt i (zq_setzero LOGQ) ;;
      x <- grd (gtab N m) i ;;
      w <- to_u64 (rround (cv x)) ;;
      pt <- pupd pt i (fun A => wr A 0 w) ;;
      x <- grd (gtab N m) i ;;
      if Rlt_dec x 0 then pupd pt i (zq_negate LOGQ) else Ok pt) pt
  = Ok (repP LOGQ N (fun i => if Rlt_dec (m i) 0 then - rround (cv (m i)) else rround (cv (m i)))).
Proof.
  intros (d & -> & Hd) Hw. assert (HN : 0 < N) by (apply Z.pow_pos_nonneg; lia). unfold repP.
  set (enc := fun i => rep LOGQ (if Rlt_dec (m i) 0 then - rround (cv (m i)) else rround (cv (m i)))).
  rewrite (for_closed _ (fun i => tab N (fun k => if k <? i then enc k else d k)) _ _ _ (tab N enc)); auto; try lia.
  - apply tab_ext. intros k Hk. destruct (Z.ltb_spec k 0); auto; lia.
  - apply tab_ext. intros k Hk. destruct (Z.ltb_spec k N); auto; lia.
  - intros i Hi. rewrite (pupd_tab N _ i _ (raw (len LOGQ) 0)); auto.
    2:{ destruct (Z.ltb_spec i i); [lia|]. apply zq_setzero_ok; auto. }
    cbn [bind]. rewrite grd_gtab by auto. cbn [bind]. unfold to_u64.
    destruct (Hw i Hi) as [[Hp H1] H2]. set (w := rround (cv (m i))) in *.
    destruct (Z.leb_spec 0 w); [|lia]. destruct (Z.ltb_spec w W); [|lia]. cbn [andb bind].
    rewrite (pupd_tab N _ i _ (raw (len LOGQ) w)); auto.
    2:{ rewrite Z.eqb_refl. apply (first_word LOGQ LOGN HQ HL). split; auto. }
    cbn [bind]. destruct (Rlt_dec (m i) 0) as [Hs|Hs].
    + rewrite (pupd_tab N _ i _ (rep LOGQ (- w))); auto.
      2:{ rewrite Z.eqb_refl. apply (zq_negate_raw' LOGQ HQ). }
      f_equal. apply tab_ext. intros k Hk. destruct (Z.eqb_spec k i), (Z.ltb_spec k i), (Z.ltb_spec k (i + 1)); try lia; auto.
      subst k. unfold enc. fold w. destruct (Rlt_dec (m i) 0); [auto|lra].
    + f_equal. apply tab_ext. intros k Hk. destruct (Z.eqb_spec k i), (Z.ltb_spec k i), (Z.ltb_spec k (i + 1)); try lia; auto.
      subst k. unfold enc. fold w. destruct (Rlt_dec (m i) 0); [lra|]. apply (raw_rep LOGQ). lia.
Qed.
End Words.

Section Enc.
Context (F : fpu) (LOGQ LOGN : Z) (HQ : 1 <= LOGQ) (HL : 2 <= LOGN <= 27).
Let n := 2 ^ (LOGN - 1).
Let N := 2 ^ LOGN.
Let L := Z.to_nat (LOGN - 1).
Context (u eta top t : R) (ar : arithmetic u eta top t (rnd F) (dpi F) (lcos F) (lsin F)).
Context (Hsmall : (table_error u eta t N <= / 64)%R) (Hbig : (IZR (2 ^ 66) <= top)%R).

Lemma scaled_err (x m E A D : R) : (1 <= D)%R -> (0 <= E)%R -> (Rabs m <= A)%R -> (Rabs (x - m) <= E)%R -> (2 * ((A + E) * D) + 1 <= top)%R -> (2 * D <= top)%R ->
  (Rabs (rnd F (Rabs x * rnd F D) - Rabs x * D) <= D * (E + 3 * (u + eta) * A) + eta)%R.
Proof.
  intros HD HE Hm Hx Ht1 Ht2. destruct ar as [ar_u0 ar_eta0 _ _ ar_rnd0 _ _ _ _]. set (v := (u + eta)%R). assert (Hv : (0 <= v <= / 512)%R) by (unfold v; lra).
  assert (HA : (0 <= A)%R) by (pose proof (Rabs_pos m); lra).
  assert (Hax : (0 <= Rabs x <= A + E)%R). { split; [apply Rabs_pos|]. replace x with (m + (x - m))%R by ring. eapply Rle_trans; [apply Rabs_triang|]. lra. }
  pose proof (ar_rnd0 D ltac:(rewrite Rabs_right; lra)) as R1. rewrite (Rabs_right D) in R1 by lra.
  assert (R1' : (Rabs (rnd F D - D) <= v * D)%R) by (unfold v; nra). clear R1. apply abs_le in R1'. set (D' := rnd F D) in *.
  set (a := Rabs x) in *. assert (HaD : (0 <= a * D <= (A + E) * D)%R) by (split; [apply Rmult_le_pos; lra|apply Rmult_le_compat_r; lra]).
  assert (D1 : (Rabs (a * D' - a * D) <= v * (a * D))%R). { rewrite <- Rmult_minus_distr_l, Rabs_mult, (Rabs_right a) by lra. replace (v * (a * D))%R with (a * (v * D))%R by ring. apply Rmult_le_compat_l; [lra|]. apply Rabs_le. lra. }
  apply abs_le in D1. set (q := (a * D)%R) in *.
  assert (Hvq : (0 <= v * q <= q / 512)%R) by (split; [apply Rmult_le_pos; lra|unfold Rdiv; rewrite (Rmult_comm q); apply Rmult_le_compat_r; lra]).
  assert (B2 : (Rabs (a * D') <= q + v * q)%R) by (apply Rabs_le; lra).
  pose proof (ar_rnd0 (a * D')%R ltac:(lra)) as R2. apply abs_le in R2.
  assert (M2 : (u * Rabs (a * D') <= v * (q + v * q))%R). { apply Rmult_le_compat; try lra; try apply Rabs_pos. unfold v; lra. }
  assert (M3 : (v * (v * q) <= v * q / 512)%R). { unfold Rdiv. rewrite (Rmult_comm (v * q)). apply Rmult_le_compat_r; lra. }
  assert (M4 : (v * q <= v * ((A + E) * D))%R) by (apply Rmult_le_compat_l; lra).
  assert (M5 : (v * (E * D) <= E * D / 512)%R). { unfold Rdiv. rewrite (Rmult_comm (E * D)). apply Rmult_le_compat_r; [apply Rmult_le_pos|]; lra. }
  assert (M6 : (0 <= v * (A * D))%R) by (apply Rmult_le_pos; [lra|apply Rmult_le_pos; lra]).
  assert (M7 : (0 <= E * D)%R) by (apply Rmult_le_pos; lra).
  apply Rabs_le. lra.
Qed.

Lemma encode_bound_words Delta st (z : Z -> CC) (m : Z -> R) B pt : 0 < Delta < 2 ^ 64 -> f_ifft_static F LOGN st -> objectP LOGQ N pt -> (0 <= B)%R ->
  (forall j, 0 <= j < n -> (modulus (z j) <= B)%R) -> (forall j, 0 <= j < n -> slot N m j = z j) -> (4 * fft_size u eta t N L B + 1 <= top)%R ->
  let e := encode_error u eta (ifft_error u eta t N L B) B Delta in
  (B * IZR Delta + e + 1 < IZR (2 ^ 64))%R -> (B * IZR Delta + e + 1 < IZR (2 ^ LOGQ))%R ->
  exists st' pt' c m', f_encode F LOGQ LOGN st (fst (carray n z)) (snd (carray n z)) Delta pt = Ok (st', pt') /\ f_ifft_static F LOGN st' /\
    f_ifft F LOGN st (fst (carray n z)) (snd (carray n z)) (gfresh R N) = Ok (st', array N m') /\
    holdsP LOGQ N pt' c /\ (forall i, 0 <= i < N -> (Rabs (IZR (c i) - m i * IZR Delta) <= / 2 + e)%R) /\
    forall i, 0 <= i < N -> c i = let w := rround (rnd F (Rabs (m' i) * rnd F (IZR Delta))) in if Rlt_dec (m' i) 0 then - w else w.
Proof.
  intros HD Hst Hpt HB Hz Hs Htop e Hw Hq. assert (HN : 0 < N) by (apply Z.pow_pos_nonneg; lia).
  destruct (ifft_bound F LOGN HL u eta top t ar Hsmall st z m B (gfresh R N) Hst (repeat_length None (Z.to_nat N)) HB Hz Hs Htop) as (st' & m' & E & Hst' & Hm').
  fold n in E. fold N in E. fold N L in Hm'.
  apply objectP_obj in Hpt; try lia. assert (HDR : (1 <= IZR Delta)%R) by (apply IZR_le; lia).
  assert (HmB : forall i, 0 <= i < N -> (Rabs (m i) <= B)%R). { apply (coef_slots LOGN m B HL). intros j Hj. fold N. rewrite Hs by auto. auto. }
  set (EE := ifft_error u eta t N L B) in *. assert (HE : (0 <= EE)%R) by (pose proof (Hm' 0 ltac:(lia)); pose proof (Rabs_pos (m' 0%Z - m 0%Z)); lra).
  assert (He : (e = IZR Delta * (2 * EE + 3 * (u + eta) * B) + eta)%R) by reflexivity.
  assert (Hue : (0 <= u + eta)%R) by (destruct ar; lra). assert (Het : (0 <= eta <= / 1024)%R) by (destruct ar; auto).
  assert (HED : (0 <= EE * IZR Delta)%R) by (apply Rmult_le_pos; lra). assert (HvB : (0 <= IZR Delta * ((u + eta) * B))%R) by (apply Rmult_le_pos; [lra|apply Rmult_le_pos; lra]).
  assert (H66 : (IZR (2 ^ 66) = 4 * IZR (2 ^ 64))%R) by (rewrite <- mult_IZR; reflexivity).
  assert (HDW : (IZR Delta <= IZR (2 ^ 64))%R) by (apply IZR_le; lia).
  assert (S : forall i, 0 <= i < N -> (Rabs (rnd F (Rabs (m' i) * rnd F (IZR Delta)) - Rabs (m' i) * IZR Delta) <= e - EE * IZR Delta)%R).
  { intros i Hi. eapply Rle_trans; [apply (scaled_err (m' i) (m i) EE B (IZR Delta)); auto; lra|]. lra. }
  assert (G : forall i, 0 <= i < N -> let w := rround (rnd F (Rabs (m' i) * rnd F (IZR Delta))) in (0 <= w < W /\ w < 2 ^ LOGQ) /\ (Rabs (IZR w - Rabs (m' i) * IZR Delta) <= / 2 + (e - EE * IZR Delta))%R).
  { intros i Hi w. pose proof (S i Hi) as S1. apply abs_le in S1. pose proof (rround_near (rnd F (Rabs (m' i) * rnd F (IZR Delta)))) as RN. fold w in RN. unfold nearest in RN. apply abs_le in RN.
    assert (Ha : (0 <= Rabs (m' i) * IZR Delta <= B * IZR Delta + EE * IZR Delta)%R).
    { split; [apply Rmult_le_pos; [apply Rabs_pos|lra]|]. rewrite <- Rmult_plus_distr_r. apply Rmult_le_compat_r; [lra|]. replace (m' i) with (m i + (m' i - m i))%R by ring. eapply Rle_trans; [apply Rabs_triang|]. pose proof (HmB i Hi). pose proof (Hm' i Hi). lra. }
    split; [|apply Rabs_le; lra].
    assert (Hup : (IZR w <= B * IZR Delta + e + / 2)%R) by lra.
    split; [split|].
    - assert (- (1) < w); [|lia]. apply lt_IZR. rewrite opp_IZR.
      (* the product is at least -eta *)
      assert (Hlow : (- / 1024 <= rnd F (Rabs (m' i) * rnd F (IZR Delta)))%R).
      { destruct ar as [ar_u0 ar_eta0 _ _ ar_rnd0 _ _ _ _]. pose proof (ar_rnd0 (IZR Delta) ltac:(rewrite Rabs_right; lra)) as R1. rewrite (Rabs_right (IZR Delta)) in R1 by lra. apply abs_le in R1.
        pose proof (small_mul u (IZR Delta) ar_u0 ltac:(lra)) as SM.
        assert (HD1 : (0 <= rnd F (IZR Delta) <= 2 * IZR Delta)%R) by lra.
        assert (Hp : (0 <= Rabs (m' i) * rnd F (IZR Delta) <= 2 * (Rabs (m' i) * IZR Delta))%R).
        { split; [apply Rmult_le_pos; [apply Rabs_pos|lra]|]. replace (2 * (Rabs (m' i) * IZR Delta))%R with (Rabs (m' i) * (2 * IZR Delta))%R by ring. apply Rmult_le_compat_l; [apply Rabs_pos|lra]. }
        pose proof (ar_rnd0 (Rabs (m' i) * rnd F (IZR Delta))%R ltac:(rewrite Rabs_right; lra)) as R2. rewrite (Rabs_right (Rabs (m' i) * rnd F (IZR Delta))) in R2 by lra. apply abs_le in R2.
        pose proof (small_mul u (Rabs (m' i) * rnd F (IZR Delta)) ar_u0 ltac:(lra)) as SM2. lra. }
      lra.
    - apply lt_IZR. change W with (2 ^ 64). lra.
    - apply lt_IZR. lra. }
  exists st', (repP LOGQ N (fun i => let w := rround (rnd F (Rabs (m' i) * rnd F (IZR Delta))) in if Rlt_dec (m' i) 0 then - w else w)),
    (fun i => let w := rround (rnd F (Rabs (m' i) * rnd F (IZR Delta))) in if Rlt_dec (m' i) 0 then - w else w), m'. split; [|split; [|split; [|split; [|split]]]].
  - unfold f_encode. fold N. rewrite E. cbn [bind]. rewrite array_gtab. unfold N at 1 2 3.
    rewrite (f_encode_loop LOGQ LOGN HQ HL (fun x => rnd F (Rabs x * rnd F (IZR Delta))) m' pt Hpt).
    + cbn [bind]. reflexivity.
    + intros i Hi. apply G. auto.
  - auto.
  - exact E.
  - apply repP_holds; lia.
  - intros i Hi. cbv beta zeta. destruct (G i Hi) as [_ G2]. apply abs_le in G2. set (w := rround (rnd F (Rabs (m' i) * rnd F (IZR Delta)))) in *. clearbody w. pose proof (Hm' i Hi) as HH. 
    assert (HD2 : (Rabs (m' i * IZR Delta - m i * IZR Delta) <= EE * IZR Delta)%R) by (rewrite <- Rmult_minus_distr_r, Rabs_mult, (Rabs_right (IZR Delta)) by lra; apply Rmult_le_compat_r; lra).
    apply abs_le in HD2. destruct (Rlt_dec (m' i) 0) as [Hneg|Hpos].
    + rewrite (Rabs_left (m' i)) in G2 by auto. rewrite opp_IZR. apply Rabs_le. lra.
    + rewrite (Rabs_right (m' i)) in G2 by lra. apply Rabs_le. lra.
  - reflexivity.
Qed.
Lemma encode_bound Delta st (z : Z -> CC) (m : Z -> R) B pt : 0 < Delta < 2 ^ 64 -> f_ifft_static F LOGN st -> objectP LOGQ N pt -> (0 <= B)%R ->
  (forall j, 0 <= j < n -> (modulus (z j) <= B)%R) -> (forall j, 0 <= j < n -> slot N m j = z j) -> (4 * fft_size u eta t N L B + 1 <= top)%R ->
  let e := encode_error u eta (ifft_error u eta t N L B) B Delta in
  (B * IZR Delta + e + 1 < IZR (2 ^ 64))%R -> (B * IZR Delta + e + 1 < IZR (2 ^ LOGQ))%R ->
  exists st' pt' c, f_encode F LOGQ LOGN st (fst (carray n z)) (snd (carray n z)) Delta pt = Ok (st', pt') /\ f_ifft_static F LOGN st' /\
    holdsP LOGQ N pt' c /\ forall i, 0 <= i < N -> (Rabs (IZR (c i) - m i * IZR Delta) <= / 2 + e)%R.
Proof.
  intros HD Hst Hpt HB Hz Hs Htop e Hw Hq. destruct (encode_bound_words Delta st z m B pt HD Hst Hpt HB Hz Hs Htop Hw Hq) as (st' & pt' & c & m' & E1 & E2 & _ & E3 & E4 & _).
  exists st', pt', c. auto.
Qed.
End Enc.
