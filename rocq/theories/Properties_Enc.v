(** C54-C56: encoding and decoding in exact arithmetic. *)
From Coq Require Import ZArith List Bool Lia Reals Lra Ring.
From Verif Require Import Base BaseFacts Sums ZQ ZQFacts ZQFacts2 ZQFacts3 RQ RQFacts Conv Rot Util UtilFacts GSum Matrix MatrixFacts MatMulFacts
  DFT DFTTheory DFTFacts FFTFacts SpecZQ SpecZQFacts SpecPoly SpecPolyFacts SpecMat Properties_Mat SpecDFT Properties_DFT SpecEnc SlotFacts
  Encode EncodeFacts Properties_Conv Properties_Rot.
Import ListNotations.
Open Scope Z_scope.

Section Enc.
Context (LOGQ LOGN : Z) (HQ : 1 <= LOGQ) (HL : 2 <= LOGN <= 27).
Let N := 2 ^ LOGN.
Let n := 2 ^ (LOGN - 1).

Lemma Npos : 0 < N.
Proof. apply Z.pow_pos_nonneg; lia. Qed.
Lemma carray_ext (z z' : Z -> CC) : (forall j, 0 <= j < n -> z j = z' j) -> carray (K := Rops) n z = carray n z'.
Proof. intros H. rewrite !carray_cvtab. apply cvtab_ext. auto. Qed.

(** ifft of the slots of m is m *)
Lemma ifft_slots st (z : Z -> CC) m arr : ifft_static LOGN st -> cells N arr -> (forall j, 0 <= j < n -> slot N m j = z j) ->
  exists st', ifft LOGN st (fst (carray n z)) (snd (carray n z)) arr = Ok (st', gtab N m).
Proof.
  intros Hst Ha Hz. destruct (C52_ifft_fft LOGN HL st m arr Hst Ha) as [st' E]. exists st'.
  rewrite <- (carray_ext (slot N m) z Hz). fold n N in E. rewrite array_gtab in E. exact E.
Qed.
Lemma scaled_abs m Delta : 0 < Delta -> rround (Rabs m * IZR Delta) = Z.abs (rround (m * IZR Delta)).
Proof.
  intros HD. rewrite <- (Rabs_right (IZR Delta)) at 1 by (apply Rle_ge, IZR_le; lia). rewrite <- Rabs_mult. apply rround_abs.
Qed.
Lemma scaled_bound m Delta B : 0 < Delta -> (Rabs m * IZR Delta < IZR B - / 2)%R -> rround (Rabs m * IZR Delta) < B.
Proof.
  intros HD H. pose proof (rround_near (Rabs m * IZR Delta)) as Hn. apply lt_IZR.
  assert (Hx := Rle_abs (IZR (rround (Rabs m * IZR Delta)) - Rabs m * IZR Delta)). lra.
Qed.

(** ** C54 *)
(** Encoding the slots of m gives the rounded coefficients of m * Delta, halves away from zero. *)
Theorem C54_encode Delta st z m pt : 0 < Delta < 2 ^ 64 -> ifft_static LOGN st -> objectP LOGQ N pt ->
  (forall j, 0 <= j < n -> slot N m j = z j) ->
  (forall i, 0 <= i < N -> (Rabs (m i) * IZR Delta < IZR (2 ^ 64) - / 2)%R /\ (Rabs (m i) * IZR Delta < IZR (2 ^ LOGQ) - / 2)%R) ->
  exists st' pt' c, encode LOGQ LOGN st (fst (carray n z)) (snd (carray n z)) Delta pt = Ok (st', pt') /\
    holdsP LOGQ N pt' c /\ forall i, 0 <= i < N -> nearest (m i * IZR Delta) (c i) /\ c i = rround (m i * IZR Delta).
Proof.
  intros HD Hst Hpt Hz Hb. pose proof Npos as HN. apply objectP_obj in Hpt; try lia.
  destruct (ifft_slots st z m (gfresh R N) Hst (repeat_length None (Z.to_nat N)) Hz) as [st' E].
  assert (Hw : forall i, 0 <= i < N -> rround (Rabs (m i) * IZR Delta) < W) by (intros i Hi; apply scaled_bound; [lia|]; apply Hb; auto).
  exists st', (repP LOGQ N (fun i => rround (m i * IZR Delta))), (fun i => rround (m i * IZR Delta)). split; [|split].
  - unfold encode. fold N. rewrite E. cbn [bind]. unfold N.
    rewrite (encode_loop LOGQ LOGN HQ HL m Delta pt Hpt ltac:(lia) Hw). fold N.
    cbn [bind]. do 2 f_equal. unfold repP. apply tab_ext. intros i Hi. apply (enc_words_small LOGQ LOGN HQ HL); [lia|].
    apply scaled_bound; [lia|]. apply Hb; auto.
  - apply repP_holds; lia.
  - intros i Hi. split; [apply rround_near|reflexivity].
Qed.

Theorem C55_decode Delta st pt c zr zi : 0 < Delta < 2 ^ 64 -> fft_static LOGN st -> cells n zr -> cells n zi -> signedP LOGQ N pt c ->
  exists st', decode LOGQ LOGN st pt Delta zr zi = Ok (st', carray (K := Rops) n (slots N (IZR Delta) c)).
Proof.
  intros HD Hst Hr Hi [Hp Hc]. pose proof Npos. apply holdsP_rep in Hp; try lia. subst pt. unfold decode. unfold N.
  rewrite (decode_loop LOGQ LOGN HL _ c (fun v => IZR (cent LOGQ v) / IZR Delta)%R).
  2:{ intros i Hi'. apply (decode_coeff_ok LOGQ LOGN HQ HL); auto; lia. }
  cbn [bind]. destruct (C51_fft LOGN HL st (fun i => IZR (cent LOGQ (c i)) / IZR Delta)%R zr zi Hst Hr Hi) as [st' E]. exists st'.
  rewrite array_gtab in E. fold N n in E |- *. rewrite E. apply f_equal. apply f_equal2; [reflexivity|].
  apply carray_ext. intros j Hj. apply slot_ext. intros i Hi'. rewrite cent_small by auto. reflexivity.
Qed.

(** Round trip: every slot comes back within N/(2 Delta). *)
Theorem C54_roundtrip Delta st st2 z m pt zr zi : 0 < Delta < 2 ^ 64 -> ifft_static LOGN st -> fft_static LOGN st2 -> objectP LOGQ N pt ->
  cells n zr -> cells n zi -> (forall j, 0 <= j < n -> slot N m j = z j) ->
  (forall i, 0 <= i < N -> (Rabs (m i) * IZR Delta < IZR (2 ^ 64) - / 2)%R /\ (Rabs (m i) * IZR Delta < IZR (2 ^ (LOGQ - 1)) - / 2)%R) ->
  exists st' pt' st2' z', encode LOGQ LOGN st (fst (carray n z)) (snd (carray n z)) Delta pt = Ok (st', pt') /\
    decode LOGQ LOGN st2 pt' Delta zr zi = Ok (st2', carray (K := Rops) n z') /\
    forall j, 0 <= j < n -> (modulus (z' j - z j)%num <= IZR N / (2 * IZR Delta))%R.
Proof.
  intros HD Hst Hst2 Hpt Hr Hi Hz Hb. pose proof Npos as HN. pose proof (pow2_half LOGQ HQ) as Hh. pose proof (pow2_pos (LOGQ - 1) ltac:(lia)) as Hp.
  assert (Hp' : (0 < IZR (2 ^ (LOGQ - 1)))%R) by (apply IZR_lt; lia).
  destruct (C54_encode Delta st z m pt HD Hst Hpt Hz) as (st' & pt' & c & E & Hc & Hn).
  { intros i Hi'. destruct (Hb i Hi') as [H1 H2]. split; auto. rewrite Hh, mult_IZR. lra. }
  assert (Hs : signedP LOGQ N pt' c).
  { split; auto. intros i Hi'. destruct (Hb i Hi') as [_ H2]. destruct (Hn i Hi') as [_ ->].
    apply scaled_bound in H2; [|lia]. rewrite scaled_abs in H2 by lia. lia. }
  destruct (C55_decode Delta st2 pt' c zr zi HD Hst2 Hr Hi Hs) as [st2' E2].
  exists st', pt', st2', (slots N (IZR Delta) c). split; [exact E|]. split; [exact E2|].
  intros j Hj. rewrite <- Hz by auto. unfold slots. rewrite <- slot_sub.
  assert (HD' : (0 < IZR Delta)%R) by (apply IZR_lt; lia).
  replace (IZR N / (2 * IZR Delta))%R with (IZR N * (/ 2 / IZR Delta))%R by (field; lra).
  apply modulus_slot; auto. intros k Hk. destruct (Hn k Hk) as [H1 _]. unfold nearest in H1.
  replace (IZR (c k) / IZR Delta - m k)%R with ((IZR (c k) - m k * IZR Delta) / IZR Delta)%R by (field; lra).
  unfold Rdiv. rewrite Rabs_mult, (Rabs_right (/ IZR Delta)) by (apply Rle_ge, Rlt_le, Rinv_0_lt_compat; auto).
  apply Rmult_le_compat_r; auto. apply Rlt_le, Rinv_0_lt_compat; auto.
Qed.

(** A scaled coefficient that rounds to 2^64 or more makes the conversion to uint64_t undefined. *)
Theorem C54_encode_undefined Delta st z m pt k : 0 < Delta < 2 ^ 64 -> ifft_static LOGN st -> objectP LOGQ N pt ->
  (forall j, 0 <= j < n -> slot N m j = z j) -> 0 <= k < N -> (IZR (2 ^ 64) - / 2 <= Rabs (m k) * IZR Delta)%R ->
  encode LOGQ LOGN st (fst (carray n z)) (snd (carray n z)) Delta pt = Undef.
Proof.
  intros HD Hst Hpt Hz Hk Hb. pose proof Npos as HN. apply objectP_obj in Hpt; try lia.
  destruct (ifft_slots st z m (gfresh R N) Hst (repeat_length None (Z.to_nat N)) Hz) as [st' E].
  unfold encode. fold N. rewrite E. cbn [bind]. unfold N. rewrite (encode_loop_undef LOGQ LOGN HQ HL m Delta pt k); auto; try lia.
  rewrite rround_pos by (apply Rle_trans with (IZR (2 ^ 64) - / 2)%R; [|exact Hb]; assert (IZR 1 <= IZR (2 ^ 64))%R by (apply IZR_le; lia); lra).
  pose proof (Int_part_spec (Rabs (m k) * IZR Delta + / 2)) as Hs. assert (A : (IZR W < IZR (Int_part (Rabs (m k) * IZR Delta + / 2) + 1))%R).
  { rewrite plus_IZR. change W with (2 ^ 64). lra. }
  apply lt_IZR in A. lia.
Qed.
(** With a modulus below 2^64, a nonnegative coefficient that rounds to 2^LOGQ or more is stored as it is: the
    object is not in canonical form, hence holds no residue class. *)
Theorem C54_encode_clutter Delta st z m pt k : LOGQ <= 63 -> 0 < Delta < 2 ^ 64 -> ifft_static LOGN st -> objectP LOGQ N pt ->
  (forall j, 0 <= j < n -> slot N m j = z j) -> (forall i, 0 <= i < N -> (Rabs (m i) * IZR Delta < IZR (2 ^ 64) - / 2)%R) ->
  0 <= k < N -> (0 <= m k)%R -> (IZR (2 ^ LOGQ) <= m k * IZR Delta)%R ->
  exists st' pt', encode LOGQ LOGN st (fst (carray n z)) (snd (carray n z)) Delta pt = Ok (st', pt') /\ forall c, ~ holdsP LOGQ N pt' c.
Proof.
  intros HQ' HD Hst Hpt Hz Hb Hk Hm Hbig. pose proof Npos as HN. apply objectP_obj in Hpt; try lia.
  destruct (ifft_slots st z m (gfresh R N) Hst (repeat_length None (Z.to_nat N)) Hz) as [st' E].
  assert (Hw : forall i, 0 <= i < N -> rround (Rabs (m i) * IZR Delta) < W) by (intros i Hi; apply scaled_bound; [lia|]; apply Hb; auto).
  exists st', (tab N (fun i => enc_words LOGQ (m i) Delta)). split.
  - unfold encode. fold N. rewrite E. cbn [bind]. unfold N.
    rewrite (encode_loop LOGQ LOGN HQ HL m Delta pt Hpt ltac:(lia) Hw). fold N. reflexivity.
  - intros c Hc. apply holdsP_rep in Hc; try lia. unfold repP in Hc. apply (fun H => tab_inj _ _ _ H k Hk) in Hc.
    assert (Hr : 2 ^ LOGQ <= rround (Rabs (m k) * IZR Delta)).
    { rewrite Rabs_right by lra. pose proof (rround_near (m k * IZR Delta)) as Hn.
      assert (A : (IZR (2 ^ LOGQ) < IZR (rround (m k * IZR Delta) + 1))%R).
      { rewrite plus_IZR. unfold Rabs in Hn. destruct (Rcase_abs _) in Hn; lra. }
      apply lt_IZR in A. lia. }
    specialize (Hw k Hk).
    unfold enc_words in Hc. destruct (Rlt_dec (m k) 0); [lra|]. unfold rep in Hc.
    pose proof (pow2_pos LOGQ ltac:(lia)). assert (Hl : len LOGQ = 1) by (pose proof (len_div LOGQ ltac:(lia)); assert ((LOGQ + 63) / 64 = 1) by (symmetry; apply Z.div_unique with (LOGQ - 1); lia); lia).
    assert (2 ^ LOGQ <= 2 ^ 63) by (apply Z.pow_le_mono_r; lia).
    rewrite Hl in Hc. apply raw_inj in Hc; [|lia]. change (Wp 1) with W in Hc.
    pose proof (Z.mod_pos_bound (c k) (2 ^ LOGQ) ltac:(lia)). unfold W in *. set (x := c k mod 2 ^ LOGQ) in *. clearbody x. rewrite !Z.mod_small in Hc by lia. lia.
Qed.

(** ** C55 *)
Lemma real_sub g a b : substituted N g a b -> rsubstituted N g (fun i => IZR (a i)) (fun i => IZR (b i)).
Proof.
  intros H i Hi. specialize (H i Hi). cbv zeta in *. rewrite H. destruct (_ <? _); [reflexivity|]. apply opp_IZR.
Qed.
Lemma real_negconv a b i : IZR (negconv N a b i) = rnegconv N (fun i => IZR (a i)) (fun i => IZR (b i)) i.
Proof.
  unfold negconv, rnegconv, gsum, zsum, Sums.gsum. induction (Z.to_nat N) as [|k IH]; [reflexivity|]. cbn [sumn nsum].
  rewrite plus_IZR, IH, mult_IZR. cbn. destruct (_ <=? _); [reflexivity|]. rewrite opp_IZR. reflexivity.
Qed.
Lemma div_sub g a b D : rsubstituted N g a b -> rsubstituted N g (fun i => a i / D)%R (fun i => b i / D)%R.
Proof. intros H i Hi. specialize (H i Hi). cbv zeta in *. rewrite H. destruct (_ <? _); unfold Rdiv; ring. Qed.

Theorem C55_add Delta st A B a b zr zi : 0 < Delta < 2 ^ 64 -> fft_static LOGN st -> cells n zr -> cells n zi ->
  signedP LOGQ N A a -> signedP LOGQ N B b -> (forall i, 0 <= i < N -> - 2 ^ (LOGQ - 1) <= a i + b i < 2 ^ (LOGQ - 1)) ->
  exists S st', rq_add LOGQ N A B = Ok S /\
    decode LOGQ LOGN st S Delta zr zi = Ok (st', carray (K := Rops) n (fun j => slots N (IZR Delta) a j + slots N (IZR Delta) b j)%num).
Proof.
  intros HD Hst Hr Hi [HA Ha] [HB Hb] Hs. pose proof Npos. apply holdsP_rep in HA, HB; try lia. subst A B.
  exists (repP LOGQ N (fun i => a i + b i)). destruct (C55_decode Delta st (repP LOGQ N (fun i => a i + b i)) (fun i => a i + b i) zr zi) as [st' E]; auto.
  { split; auto. apply repP_holds; lia. }
  exists st'. split; [apply rq_add_rep; lia|]. rewrite E. apply f_equal. apply f_equal2; [reflexivity|]. apply carray_ext. intros j Hj.
  unfold slots. rewrite <- slot_add. apply slot_ext. intros i Hi'. rewrite plus_IZR. unfold Rdiv. ring.
Qed.

Theorem C55_mul D1 D2 st A B C a b zr zi : LOGN <= 17 -> widths LOGQ -> 0 < D1 -> 0 < D2 -> D1 * D2 < 2 ^ 64 -> fft_static LOGN st -> cells n zr -> cells n zi ->
  signedP LOGQ N A a -> signedP LOGQ N B b -> objectP LOGQ N C ->
  (forall i, 0 <= i < N -> - 2 ^ (LOGQ - 1) <= negconv N a b i < 2 ^ (LOGQ - 1)) ->
  exists P st', conv_poly LOGQ N A B C = Ok P /\
    decode LOGQ LOGN st P (D1 * D2) zr zi = Ok (st', carray (K := Rops) n (fun j => slots N (IZR D1) a j * slots N (IZR D2) b j)%num).
Proof.
  intros HL' HW H1 H2 HD Hst Hr Hi [HA Ha] [HB Hb] HC Hs. pose proof Npos as HN.
  destruct (C27_conv LOGN LOGQ A B C a b ltac:(lia) HW HA HB HC) as (P & EP & HP). exists P.
  destruct (C55_decode (D1 * D2) st P (negconv N a b) zr zi) as [st' E]; auto; try nia.
  { split; auto. }
  exists st'. split; [exact EP|]. rewrite E. apply f_equal. apply f_equal2; [reflexivity|]. apply carray_ext. intros j Hj.
  unfold slots. rewrite <- slot_negconv by lia. apply slot_ext. intros i Hi'. rewrite real_negconv, mult_IZR. unfold rnegconv.
  assert (R1 : IZR D1 <> 0%R) by (apply IZR_neq; lia). assert (R2 : IZR D2 <> 0%R) by (apply IZR_neq; lia).
  unfold Rdiv. rewrite Rmult_comm.
  pose proof (gsum_scale Rlawful N (/ (IZR D1 * IZR D2))%R (fun k => (IZR (a k) * (if (k <=? i)%Z then IZR (b (i - k)%Z) else - IZR (b (N + i - k)%Z)))%R)) as G.
  cbn [omul Rops] in G. rewrite <- G. apply (gsum_ext (K := Rops)). intros k Hk.
  match goal with |- @eq _ ?x ?y => change (@eq R x y) end. destruct (_ <=? _); field; auto.
Qed.

Theorem C55_rot Delta st A D a r zr zi : 0 <= r -> 0 < Delta < 2 ^ 64 -> fft_static LOGN st -> cells n zr -> cells n zi ->
  holdsP LOGQ N A a -> (forall i, 0 <= i < N -> - 2 ^ (LOGQ - 1) < a i < 2 ^ (LOGQ - 1)) -> objectP LOGQ N D ->
  exists A' st', rot_poly LOGQ N A D r = Ok A' /\
    decode LOGQ LOGN st A' Delta zr zi = Ok (st', carray (K := Rops) n (fun j => slots N (IZR Delta) a ((j + r) mod n))).
Proof.
  intros Hr0 HD Hst Hr Hi HA Ha HDo. pose proof Npos as HN.
  destruct (C40_rot LOGN LOGQ A a D r ltac:(lia) HQ Hr0 HA HDo) as (A' & b & E1 & Hb & Hsub). fold N in Hsub.
  exists A'. destruct (C55_decode Delta st A' b zr zi) as [st' E]; auto.
  { split; auto. intros i Hi'. destruct (inv5 LOGN HL r Hr0) as (u & v & Eu).
    assert (Hx : b i = a ((u * i) mod N) \/ b i = - a ((u * i) mod N)).
    { set (k := (u * i) mod N). assert (Hk : 0 <= k < N) by (apply Z.mod_pos_bound; lia).
      pose proof (Hsub k Hk) as Hs. cbv zeta in Hs. set (j := (5 ^ r * k) mod (2 * N)) in *.
      assert (Hj : 0 <= j < 2 * N) by (apply Z.mod_pos_bound; lia).
      assert (Ej : j mod N = i).
      { unfold j. rewrite (Z.mul_comm 2 N), Z.rem_mul_r by lia. rewrite (Z.mul_comm N), Z.mod_add, Z.mod_mod by lia.
        unfold k. rewrite Zmult_mod_idemp_r. replace (5 ^ r * (u * i)) with (i + (- (2 * v * i)) * N).
        - rewrite Z.mod_add by lia. apply Z.mod_small. lia.
        - transitivity (i * (u * 5 ^ r + v * (2 * N)) - 2 * v * i * N); [fold N in Eu; rewrite Eu|]; ring. }
      destruct (Z.ltb_spec j N).
      - rewrite Z.mod_small in Ej by lia. left. rewrite Ej in Hs. unfold k in Hs |- *. lia.
      - right. assert (H0 : j - N = i) by (rewrite <- Ej, <- (Z.mod_add j (-1) N) by lia; rewrite Z.mod_small; lia). rewrite H0 in Hs. unfold k in Hs |- *. lia. }
    pose proof (Ha ((u * i) mod N) ltac:(apply Z.mod_pos_bound; lia)). lia. }
  exists st'. split; [exact E1|]. rewrite E. apply f_equal. apply f_equal2; [reflexivity|]. apply carray_ext. intros j Hj.
  unfold slots. apply (slot_rot LOGN HL _ _ j r); try lia. apply div_sub. apply real_sub. exact Hsub.
Qed.

Theorem C55_conj Delta st A D a zr zi : 0 < Delta < 2 ^ 64 -> fft_static LOGN st -> cells n zr -> cells n zi ->
  holdsP LOGQ N A a -> (forall i, 0 <= i < N -> - 2 ^ (LOGQ - 1) < a i < 2 ^ (LOGQ - 1)) -> objectP LOGQ N D ->
  exists A' st', conj_poly LOGQ N A D = Ok A' /\
    decode LOGQ LOGN st A' Delta zr zi = Ok (st', carray (K := Rops) n (fun j => conjugate (slots N (IZR Delta) a j))).
Proof.
  intros HD Hst Hr Hi HA Ha HDo. pose proof Npos as HN.
  destruct (C41_conj N LOGQ A a D ltac:(lia) HQ HA HDo) as (A' & b & E1 & Hb & Hsub & _).
  exists A'. destruct (C55_decode Delta st A' b zr zi) as [st' E]; auto.
  { split; auto. intros i Hi'. destruct (Z.eq_dec i 0) as [->|Hne].
    - pose proof (Hsub 0 ltac:(lia)) as Hs. cbv zeta in Hs. change (-1 * 0) with 0 in Hs. rewrite Z.mod_0_l in Hs by lia.
      destruct (Z.ltb_spec 0 N); [|lia]. rewrite <- Hs. pose proof (Ha 0 ltac:(lia)). lia.
    - pose proof (Hsub (N - i) ltac:(lia)) as Hs. cbv zeta in Hs.
      replace ((-1 * (N - i)) mod (2 * N)) with (N + i) in Hs by (rewrite <- (Z.mod_add _ 1) by lia; rewrite Z.mod_small; lia).
      destruct (Z.ltb_spec (N + i) N); [lia|]. replace (N + i - N) with i in Hs by lia. pose proof (Ha (N - i) ltac:(lia)). lia. }
  exists st'. split; [exact E1|]. rewrite E. apply f_equal. apply f_equal2; [reflexivity|]. apply carray_ext. intros j Hj.
  unfold slots. apply (slot_conj LOGN HL); [lia|]. apply div_sub. apply real_sub. exact Hsub.
Qed.

(** ** C56 *)
Theorem C56_decode_log LD st pt c zr zi : LOGQ <= 2 ^ 30 -> - 2 ^ 30 <= LD <= 2 ^ 30 -> fft_static LOGN st -> cells n zr -> cells n zi -> signedP LOGQ N pt c ->
  exists st', decode_log LOGQ LOGN st pt LD zr zi = Ok (st', carray (K := Rops) n (slots N (powerRZ 2 LD) c)).
Proof.
  intros HQ' HLD Hst Hr Hi [Hp Hc]. pose proof Npos. apply holdsP_rep in Hp; try lia. subst pt. unfold decode_log. unfold N.
  rewrite (decode_loop LOGQ LOGN HL _ c (fun v => IZR (cent LOGQ v) * powerRZ 2 (- LD))%R).
  2:{ intros i Hi'. apply (decode_log_coeff_ok LOGQ LOGN HQ HL); auto. }
  cbn [bind]. destruct (C51_fft LOGN HL st (fun i => IZR (cent LOGQ (c i)) * powerRZ 2 (- LD))%R zr zi Hst Hr Hi) as [st' E]. exists st'.
  rewrite array_gtab in E. fold N n in E |- *. rewrite E. apply f_equal. apply f_equal2; [reflexivity|].
  apply carray_ext. intros j Hj. apply slot_ext. intros i Hi'. rewrite cent_small by auto. unfold Rdiv. f_equal.
  apply powerRZ_neg'.
Qed.
Theorem C56_decode_log_decode LD st pt c zr zi : LOGQ <= 2 ^ 30 -> 0 <= LD < 64 -> fft_static LOGN st -> cells n zr -> cells n zi -> signedP LOGQ N pt c ->
  decode_log LOGQ LOGN st pt LD zr zi = decode LOGQ LOGN st pt (2 ^ LD) zr zi.
Proof.
  intros HQ' HLD Hst Hr Hi [Hp Hc]. pose proof Npos. apply holdsP_rep in Hp; try lia. subst pt. unfold decode_log, decode. unfold N.
  rewrite (decode_loop LOGQ LOGN HL _ c (fun v => IZR (cent LOGQ v) * powerRZ 2 (- LD))%R).
  2:{ intros i Hi'. apply (decode_log_coeff_ok LOGQ LOGN HQ HL); auto. lia. }
  rewrite (decode_loop LOGQ LOGN HL _ c (fun v => IZR (cent LOGQ v) / IZR (2 ^ LD))%R).
  2:{ intros i Hi'. apply (decode_coeff_ok LOGQ LOGN HQ HL); auto. apply Z.pow_pos_nonneg; lia. }
  cbn [bind]. replace (fun i : Z => (IZR (cent LOGQ (c i)) * powerRZ 2 (- LD))%R) with (fun i : Z => (IZR (cent LOGQ (c i)) / IZR (2 ^ LD))%R); [reflexivity|].
  rewrite powerRZ_neg', (powerRZ_2 LD) by lia. reflexivity.
Qed.
End Enc.

(** N = 4, q = 2^8, Delta = 10: the polynomial 3/4 - X/4 becomes 8 - 3X. *)
Definition mm (i : Z) : R := if i =? 0 then (3 / 4)%R else if i =? 1 then (- / 4)%R else 0%R.
Lemma rround_half_up : rround (3 / 4 * 10) = 8.
Proof. rewrite rround_pos by lra. apply Int_part_unique. lra. Qed.
Lemma rround_half_down : rround (- / 4 * 10) = -3.
Proof. unfold rround. destruct (Rlt_dec (- / 4 * 10) 0); [|lra]. rewrite (Int_part_unique _ 3) by lra. reflexivity. Qed.
Example C54_example : exists st' pt' c,
  encode 8 2 None (fst (carray 2 (slot 4 mm))) (snd (carray 2 (slot 4 mm))) 10 (repeat [None] 4) = Ok (st', pt') /\
  holdsP 8 4 pt' c /\ c 0 = 8 /\ c 1 = -3.
Proof.
  destruct (C54_encode 8 2 ltac:(lia) ltac:(lia) 10 None (slot 4 mm) mm (repeat [None] 4)) as (st' & pt' & c & E & H & Hc).
  - lia.
  - constructor.
  - split; [reflexivity|repeat constructor].
  - reflexivity.
  - intros i Hi. unfold mm. assert (H : (10 < IZR (2 ^ 8) - / 2)%R) by (change (2 ^ 8) with 256; lra).
    assert (H' : (10 < IZR (2 ^ 64) - / 2)%R) by (change (2 ^ 64) with 18446744073709551616; lra).
    destruct (i =? 0); [rewrite Rabs_right by lra; lra|]. destruct (i =? 1); [rewrite Rabs_left by lra; lra|]. rewrite Rabs_R0. lra.
  - exists st', pt', c. split; [exact E|]. split; [exact H|]. split.
    + destruct (Hc 0 ltac:(cbn; lia)) as [_ ->]. apply rround_half_up.
    + destruct (Hc 1 ltac:(cbn; lia)) as [_ ->]. apply rround_half_down.
Qed.
Example C54_example_undefined : encode 8 2 None (fst (carray 2 (slot 4 mm))) (snd (carray 2 (slot 4 mm))) (2 ^ 63) (repeat [None] 4) <> Undef /\
  encode 8 2 None (fst (carray 2 (slot 4 (fun i => 4 * mm i)%R))) (snd (carray 2 (slot 4 (fun i => 4 * mm i)%R))) (2 ^ 63) (repeat [None] 4) = Undef.
Proof.
  split.
  - destruct (C54_encode_clutter 8 2 ltac:(lia) ltac:(lia) (2 ^ 63) None (slot 4 mm) mm (repeat [None] 4) 0) as (st' & pt' & E & _).
    + lia.
    + lia.
    + constructor.
    + split; [reflexivity|repeat constructor].
    + reflexivity.
    + intros i Hi. unfold mm. change (2 ^ 63) with 9223372036854775808. change (2 ^ 64) with 18446744073709551616.
      destruct (i =? 0); [rewrite Rabs_right by lra; lra|]. destruct (i =? 1); [rewrite Rabs_left by lra; lra|]. rewrite Rabs_R0. lra.
    + lia.
    + cbn. lra.
    + cbn -[Z.pow]. change (2 ^ 63) with 9223372036854775808. change (2 ^ 8) with 256. lra.
    + change (2 ^ (2 - 1)) with 2 in E. change (2 ^ 2) with 4 in E. rewrite E. discriminate.
  - apply (C54_encode_undefined 8 2 ltac:(lia) ltac:(lia) (2 ^ 63) None _ (fun i => 4 * mm i)%R _ 0).
    + lia.
    + constructor.
    + split; [reflexivity|repeat constructor].
    + reflexivity.
    + lia.
    + cbn -[Z.pow]. change (2 ^ 63) with 9223372036854775808. change (2 ^ 64) with 18446744073709551616.
      rewrite Rabs_right by lra. lra.
Qed.
(** 8 - 3X held modulo 2^8 *)
Definition pp : list arr := [[Some 8]; [Some 253]; [Some 0]; [Some 0]].
Definition cc (i : Z) : Z := coef [8; -3; 0; 0] i.
Lemma pp_signed : signedP 8 (2 ^ 2) pp cc.
Proof.
  assert (H4 : forall i, 0 <= i < 2 ^ 2 -> i = 0 \/ i = 1 \/ i = 2 \/ i = 3) by (change (2 ^ 2) with 4; lia).
  split; [split; [reflexivity|]|].
  - intros i A Hi E. destruct (H4 i Hi) as [-> | [-> | [-> | ->]]]; injection E as <-; vm_compute; auto.
  - intros i Hi. destruct (H4 i Hi) as [-> | [-> | [-> | ->]]]; vm_compute; intuition discriminate.
Qed.
Example C55_example : exists st', decode 8 2 None pp 10 (gfresh R 2) (gfresh R 2) = Ok (st', carray (K := Rops) 2 (slots 4 10 cc)).
Proof. apply (C55_decode 8 2 ltac:(lia) ltac:(lia) 10 None pp cc); try lia; try reflexivity; [constructor|apply pp_signed]. Qed.
Example C55_example_mul : exists P st', conv_poly 8 4 pp pp (repeat [None] 4) = Ok P /\
  decode 8 2 None P 100 (gfresh R 2) (gfresh R 2) = Ok (st', carray (K := Rops) 2 (fun j => slots 4 10 cc j * slots 4 10 cc j)%num).
Proof.
  apply (C55_mul 8 2 ltac:(lia) ltac:(lia) 10 10 None pp pp (repeat [None] 4) cc cc); try lia; try reflexivity; try apply pp_signed.
  - unfold widths. lia.
  - constructor.
  - split; [reflexivity|repeat constructor].
  - intros i Hi. change (2 ^ 2) with 4 in Hi. assert (H4 : i = 0 \/ i = 1 \/ i = 2 \/ i = 3) by lia.
    destruct H4 as [-> | [-> | [-> | ->]]]; vm_compute; intuition discriminate.
Qed.
Example C55_example_rot : exists A' st', rot_poly 8 4 pp (repeat [None] 4) 1 = Ok A' /\
  decode 8 2 None A' 10 (gfresh R 2) (gfresh R 2) = Ok (st', carray (K := Rops) 2 (fun j => slots 4 10 cc ((j + 1) mod 2))).
Proof.
  apply (C55_rot 8 2 ltac:(lia) ltac:(lia) 10 None pp (repeat [None] 4) cc 1); try lia; try reflexivity; try apply pp_signed.
  - constructor.
  - intros i Hi. change (2 ^ 2) with 4 in Hi. assert (H4 : i = 0 \/ i = 1 \/ i = 2 \/ i = 3) by lia.
    destruct H4 as [-> | [-> | [-> | ->]]]; vm_compute; intuition discriminate.
  - split; [reflexivity|repeat constructor].
Qed.
Example C56_example : exists st', decode_log 8 2 None pp 3 (gfresh R 2) (gfresh R 2) = Ok (st', carray (K := Rops) 2 (slots 4 (powerRZ 2 3) cc)).
Proof. apply (C56_decode_log 8 2 ltac:(lia) ltac:(lia) 3 None pp cc); try lia; try reflexivity; [constructor|apply pp_signed]. Qed.
