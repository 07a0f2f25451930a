(** C57, C58: SimplePlaintext, and products of matrices with encoded vectors. *)
From Coq Require Import ZArith List Bool Lia Reals Lra Ring Znumtheory.
From Verif Require Import Base BaseFacts Sums ZQ ZQFacts ZQFacts2 ZQFacts3 RQ RQFacts Conv ConvFacts Rot RotFacts Util UtilFacts GSum Matrix MatrixFacts MatMulFacts
  DFT DFTTheory DFTFacts FFTFacts PolyRing SpecZQ SpecPoly SpecPolyFacts SpecMat Properties_Mat Properties_Msg SpecDFT Properties_DFT SpecEnc SlotFacts
  Encode EncodeFacts Plain PlainFacts Properties_Conv Properties_Rot Properties_Enc.
Import ListNotations.
Open Scope Z_scope.
Add Ring RCp : HR.

(** ** C57 *)
(** The same integers as the R_Q operations (those modulo 2^LOGQ). *)
Theorem C57_conv : forall k LOGQ A B C a b D, 1 <= k <= 17 -> widths LOGQ ->
  holdsP LOGQ (2 ^ k) A a -> holdsP LOGQ (2 ^ k) B b -> objectP LOGQ (2 ^ k) C -> cells (2 ^ k) D ->
  exists P c, conv_poly LOGQ (2 ^ k) A B C = Ok P /\ holdsP LOGQ (2 ^ k) P c /\
    simple_conv (2 ^ k) (array (2 ^ k) (fun i => IZR (a i))) (array (2 ^ k) (fun i => IZR (b i))) D = Ok (array (2 ^ k) (fun i => IZR (c i))).
Proof.
  intros k LOGQ A B C a b D Hk HW HA HB HC HD. destruct (C27_conv k LOGQ A B C a b Hk HW HA HB HC) as (P & E & HP).
  exists P, (negconv (2 ^ k) a b). split; [exact E|]. split; [exact HP|]. rewrite !array_gtab. rewrite simple_conv_ok by (auto; apply Z.pow_nonneg; lia).
  f_equal. apply gtab_ext. intros i Hi. symmetry. apply (real_negconv k).
Qed.
Theorem C57_add : forall N LOGQ A B a b D, 0 <= N -> 1 <= LOGQ -> holdsP LOGQ N A a -> holdsP LOGQ N B b -> cells N D ->
  exists P c, rq_add LOGQ N A B = Ok P /\ holdsP LOGQ N P c /\
    simple_add N (array N (fun i => IZR (a i))) (array N (fun i => IZR (b i))) D = Ok (array N (fun i => IZR (c i))).
Proof.
  intros N LOGQ A B a b D HN HQ HA HB HD. apply holdsP_rep in HA, HB; auto. subst A B.
  exists (repP LOGQ N (fun i => a i + b i)), (fun i => a i + b i). split; [apply rq_add_rep; lia|]. split; [apply repP_holds; auto|].
  rewrite !array_gtab, simple_add_ok by auto. f_equal. apply gtab_ext. intros i Hi. symmetry. apply plus_IZR.
Qed.
Theorem C57_sub : forall N LOGQ A B a b D, 0 <= N -> 1 <= LOGQ -> holdsP LOGQ N A a -> holdsP LOGQ N B b -> cells N D ->
  exists P c, rq_sub LOGQ N A B = Ok P /\ holdsP LOGQ N P c /\
    simple_sub N (array N (fun i => IZR (a i))) (array N (fun i => IZR (b i))) D = Ok (array N (fun i => IZR (c i))).
Proof.
  intros N LOGQ A B a b D HN HQ HA HB HD. apply holdsP_rep in HA, HB; auto. subst A B.
  exists (repP LOGQ N (fun i => a i - b i)), (fun i => a i - b i). split; [apply rq_sub_rep; lia|]. split; [apply repP_holds; auto|].
  rewrite !array_gtab, simple_sub_ok by auto. f_equal. apply gtab_ext. intros i Hi. symmetry. apply minus_IZR.
Qed.
(** all step counts, negative ones included (which do nothing in both) *)
Theorem C57_rotate : forall k LOGQ A a C D r, 0 <= k <= 27 -> 1 <= LOGQ ->
  holdsP LOGQ (2 ^ k) A a -> objectP LOGQ (2 ^ k) C -> cells (2 ^ k) D ->
  exists P c, rot_poly LOGQ (2 ^ k) A C r = Ok P /\ holdsP LOGQ (2 ^ k) P c /\
    simple_rotate (2 ^ k) (array (2 ^ k) (fun i => IZR (a i))) D r = Ok (array (2 ^ k) (fun i => IZR (c i))).
Proof.
  intros k LOGQ A a C D r Hk HQ HA HC HD. destruct (pow2_27 k Hk) as [HN Hb]. rewrite array_gtab.
  destruct (Z_le_gt_dec 0 r) as [Hr|Hr].
  - destruct (C40_rot k LOGQ A a C r Hk HQ Hr HA HC) as (P & c & E & HP & Hs). exists P, c. split; [exact E|]. split; [exact HP|].
    destruct (unit5 k 1 ltac:(lia)) as (u & v & Eu). rewrite Z.max_r in Eu by lia. change (5 ^ 1) with 5 in Eu.
    assert (E1 : exists u v, u * 5 + v * (2 * 2 ^ k) = 1).
    { exists u, (v - u * (5 / (2 * 2 ^ k))). pose proof (Z.div_mod 5 (2 * 2 ^ k) ltac:(lia)). nia. }
    destruct E1 as (u' & v' & E1).
    destruct (rotate_ok (2 ^ k) u' v' (fun i => IZR (a i)) D r HN Hb E1 HD Hr) as (b & Eb & Hsub). rewrite Eb. f_equal. rewrite array_gtab.
    apply gtab_ext. destruct (unit5 k r ltac:(lia)) as (u2 & v2 & E2). rewrite Z.max_r in E2 by lia.
    assert (E3 : exists u v, u * 5 ^ r + v * (2 * 2 ^ k) = 1).
    { exists u2, (v2 - u2 * (5 ^ r / (2 * 2 ^ k))). pose proof (Z.div_mod (5 ^ r) (2 * 2 ^ k) ltac:(lia)). nia. }
    destruct E3 as (u3 & v3 & E3).
    intros i Hi. apply (rsub_unique (2 ^ k) HN (5 ^ r) u3 v3 (fun i => IZR (a i)) b (fun i => IZR (c i))); auto. apply (real_sub k). exact Hs.
  - exists A, a. split; [apply (C40_rot_negative k LOGQ A a C r); auto; lia|]. split; auto. rewrite array_gtab.
    rewrite rotate_neg by (auto; lia). reflexivity.
Qed.

Section Slots.
Context (LOGN : Z) (HL : 2 <= LOGN <= 27).
Let N := 2 ^ LOGN.
Let n := 2 ^ (LOGN - 1).

Theorem C57_encode LOGQ Delta st z m pt D : 1 <= LOGQ -> 0 < Delta < 2 ^ 64 -> ifft_static LOGN st -> objectP LOGQ N pt -> cells N D ->
  (forall j, 0 <= j < n -> slot N m j = z j) ->
  (forall i, 0 <= i < N -> (Rabs (m i) * IZR Delta < IZR (2 ^ 64) - / 2)%R /\ (Rabs (m i) * IZR Delta < IZR (2 ^ LOGQ) - / 2)%R) ->
  exists st' P c, encode LOGQ LOGN st (fst (carray n z)) (snd (carray n z)) Delta pt = Ok (st', P) /\ holdsP LOGQ N P c /\
    simple_encode LOGN st (fst (carray n z)) (snd (carray n z)) Delta D = Ok (st', array N (fun i => IZR (c i))).
Proof.
  intros HQ HD Hst Hpt HD' Hz Hb. assert (HN : 0 < N) by (apply Z.pow_pos_nonneg; lia).
  destruct (C54_encode LOGQ LOGN HQ HL Delta st z m pt HD Hst Hpt Hz Hb) as (st' & P & c & E & HP & Hc). exists st', P, c.
  split; [exact E|]. split; [exact HP|].
  destruct (ifft_slots LOGN HL st z m (gfresh R N) Hst (repeat_length None (Z.to_nat N)) Hz) as [st2 E2]. fold N n in E2.
  unfold encode in E. unfold simple_encode. fold N n in E |- *. rewrite E2 in E |- *. cbn [bind] in E |- *.
  match type of E with bind ?x _ = _ => destruct x as [q| | |]; try discriminate E end. cbn [bind] in E. injection E as -> _.
  destruct (cells_tab _ _ HD') as [d ->]. rewrite (fill_gtab N _ d (fun i => IZR (c i))); auto; try lia.
  - rewrite array_gtab. reflexivity.
  - intros i g Hi. rewrite grd_gtab by auto. cbn [bind]. destruct (Hc i Hi) as [_ ->]. reflexivity.
Qed.

Lemma simple_decode_ok st (a : Z -> R) Delta zr zi : fft_static LOGN st -> cells n zr -> cells n zi ->
  exists st', simple_decode LOGN st (gtab N a) Delta zr zi = Ok (st', carray (K := Rops) n (slot N (fun i => a i / IZR Delta)%R)).
Proof.
  intros Hst Hr Hi. assert (HN : 0 < N) by (apply Z.pow_pos_nonneg; lia). unfold simple_decode. fold N. rewrite gfresh_tab.
  rewrite (fill_gtab N _ _ (fun i => a i / IZR Delta)%R) by (try lia; intros i g Hi'; rewrite grd_gtab by auto; reflexivity). cbn [bind].
  destruct (C51_fft LOGN HL st (fun i => a i / IZR Delta)%R zr zi Hst Hr Hi) as [st' E]. exists st'. rewrite array_gtab in E. exact E.
Qed.
Theorem C57_decode LOGQ Delta st pt c zr zi : 1 <= LOGQ -> 0 < Delta < 2 ^ 64 -> fft_static LOGN st -> cells n zr -> cells n zi -> signedP LOGQ N pt c ->
  simple_decode LOGN st (array N (fun i => IZR (c i))) Delta zr zi = decode LOGQ LOGN st pt Delta zr zi /\
  decode LOGQ LOGN st pt Delta zr zi <> Undef.
Proof.
  intros HQ HD Hst Hr Hi [Hp Hc]. assert (HN : 0 < N) by (apply Z.pow_pos_nonneg; lia).
  destruct (C55_decode LOGQ LOGN HQ HL Delta st pt c zr zi HD Hst Hr Hi (conj Hp Hc)) as [st' E]. split; [|rewrite E; discriminate].
  apply holdsP_rep in Hp; try lia. subst pt. rewrite array_gtab. unfold simple_decode, decode.
  rewrite (decode_loop LOGQ LOGN HL _ c (fun v => IZR (cent LOGQ v) / IZR Delta)%R).
  2:{ intros i Hi'. apply (decode_coeff_ok LOGQ LOGN HQ HL); auto; lia. }
  fold N. rewrite gfresh_tab.
  rewrite (fill_gtab N _ _ (fun i => IZR (cent LOGQ (c i)) / IZR Delta)%R); [reflexivity|lia|].
  intros i g Hi'. rewrite grd_gtab by auto. rewrite cent_small by auto. reflexivity.
Qed.

(** Without rounding nothing is lost: decoding sums, differences, products and rotations of raw encodings gives the
    slotwise results. *)
Lemma encode_raw_ok Delta st (z : Z -> CC) m D : ifft_static LOGN st -> cells N D -> (forall j, 0 <= j < n -> slot N m j = z j) ->
  exists st', simple_encode_raw LOGN st (fst (carray n z)) (snd (carray n z)) Delta D = Ok (st', gtab N (fun i => m i * IZR Delta)%R).
Proof.
  intros Hst HD Hz. assert (HN : 0 < N) by (apply Z.pow_pos_nonneg; lia).
  destruct (ifft_slots LOGN HL st z m (gfresh R N) Hst (repeat_length None (Z.to_nat N)) Hz) as [st2 E2]. fold N n in E2.
  exists st2. unfold simple_encode_raw. fold N n. rewrite E2. cbn [bind]. destruct (cells_tab _ _ HD) as [d ->].
  rewrite (fill_gtab N _ d (fun i => m i * IZR Delta)%R); [reflexivity|lia|]. intros i g Hi. rewrite grd_gtab by auto. reflexivity.
Qed.
Lemma some_m (z : Z -> CC) : exists m, forall j, 0 <= j < n -> slot N m j = z j.
Proof.
  destruct (C52_fft_ifft LOGN HL None z (gfresh R N) (ifft_first LOGN) (repeat_length None (Z.to_nat N))) as (st' & c & _ & H). exists c. exact H.
Qed.
Theorem C57_raw_roundtrip Delta st st2 (z : Z -> CC) D zr zi : 0 < Delta -> ifft_static LOGN st -> fft_static LOGN st2 -> cells N D -> cells n zr -> cells n zi ->
  exists st' p st2', simple_encode_raw LOGN st (fst (carray n z)) (snd (carray n z)) Delta D = Ok (st', p) /\
    simple_decode LOGN st2 p Delta zr zi = Ok (st2', carray n z).
Proof.
  intros HD Hst Hst2 HDc Hr Hi. destruct (some_m z) as [m Hm]. destruct (encode_raw_ok Delta st z m D Hst HDc Hm) as [st' E].
  destruct (simple_decode_ok st2 (fun i => m i * IZR Delta)%R Delta zr zi Hst2 Hr Hi) as [st2' E2]. do 3 eexists. split; [exact E|].
  rewrite E2. apply f_equal. apply f_equal2; [reflexivity|]. apply (carray_ext LOGN). intros j Hj. fold N. rewrite <- Hm by auto. apply slot_ext.
  intros i Hi'. field. apply IZR_neq. lia.
Qed.
Theorem C57_raw_mul D1 D2 st st2 st3 (z w : Z -> CC) A B C zr zi : 0 < D1 -> 0 < D2 -> ifft_static LOGN st -> ifft_static LOGN st2 -> fft_static LOGN st3 ->
  cells N A -> cells N B -> cells N C -> cells n zr -> cells n zi ->
  exists st' st2' st3' p q r, simple_encode_raw LOGN st (fst (carray n z)) (snd (carray n z)) D1 A = Ok (st', p) /\
    simple_encode_raw LOGN st2 (fst (carray n w)) (snd (carray n w)) D2 B = Ok (st2', q) /\
    simple_conv N p q C = Ok r /\ simple_decode LOGN st3 r (D1 * D2) zr zi = Ok (st3', carray n (fun j => z j * w j)%num).
Proof.
  intros H1 H2 Hst Hst2 Hst3 HA HB HC' Hr Hi. assert (HN : 0 < N) by (apply Z.pow_pos_nonneg; lia).
  destruct (some_m z) as [m Hm]. destruct (some_m w) as [v Hv].
  destruct (encode_raw_ok D1 st z m A Hst HA Hm) as [st' E1]. destruct (encode_raw_ok D2 st2 w v B Hst2 HB Hv) as [st2' E2].
  pose proof (simple_conv_ok N (fun i => m i * IZR D1)%R (fun i => v i * IZR D2)%R C ltac:(lia) HC') as E3.
  destruct (simple_decode_ok st3 (rnegconv N (fun i => m i * IZR D1)%R (fun i => v i * IZR D2)%R) (D1 * D2) zr zi Hst3 Hr Hi) as [st3' E4].
  do 6 eexists. split; [exact E1|]. split; [exact E2|]. split; [exact E3|]. rewrite E4. apply f_equal. apply f_equal2; [reflexivity|].
  apply (carray_ext LOGN). intros j Hj. fold N. rewrite <- Hm, <- Hv by auto. rewrite <- slot_negconv by lia. apply slot_ext. intros i Hi'.
  rewrite mult_IZR. assert (R1 : IZR D1 <> 0%R) by (apply IZR_neq; lia). assert (R2 : IZR D2 <> 0%R) by (apply IZR_neq; lia).
  unfold Rdiv. rewrite Rmult_comm. unfold rnegconv.
  match goal with |- (?x * gsum N ?f)%R = _ => pose proof (gsum_scale Rlawful N x f) as G end.
  cbn [omul Rops] in G. rewrite <- G. apply (gsum_ext (K := Rops)). intros k Hk.
  match goal with |- @eq _ ?x ?y => change (@eq R x y) end. destruct (_ <=? _); field; auto.
Qed.
Theorem C57_raw_rotate Delta st st2 (z : Z -> CC) D C r zr zi : 0 <= r -> 0 < Delta -> ifft_static LOGN st -> fft_static LOGN st2 -> cells N D -> cells N C -> cells n zr -> cells n zi ->
  exists st' p q st2', simple_encode_raw LOGN st (fst (carray n z)) (snd (carray n z)) Delta D = Ok (st', p) /\
    simple_rotate N p C r = Ok q /\ simple_decode LOGN st2 q Delta zr zi = Ok (st2', carray n (fun j => z ((j + r) mod n))).
Proof.
  intros Hr0 HD Hst Hst2 HDc HCc Hr Hi. destruct (pow2_27 LOGN ltac:(lia)) as [HN Hb]. fold N in HN, Hb.
  destruct (some_m z) as [m Hm]. destruct (encode_raw_ok Delta st z m D Hst HDc Hm) as [st' E].
  destruct (inv5 LOGN HL 1 ltac:(lia)) as (u & v & Eu). change (5 ^ 1) with 5 in Eu.
  destruct (rotate_ok N u v (fun i => m i * IZR Delta)%R C r HN Hb Eu HCc Hr0) as (b & Eb & Hb').
  destruct (simple_decode_ok st2 b Delta zr zi Hst2 Hr Hi) as [st2' E2]. do 4 eexists. split; [exact E|]. split; [exact Eb|].
  rewrite E2. apply f_equal. apply f_equal2; [reflexivity|]. apply (carray_ext LOGN). intros j Hj. fold N.
  assert (Hn : 0 < n) by (apply Z.pow_pos_nonneg; lia).
  rewrite <- Hm by (apply Z.mod_pos_bound; auto). apply (slot_rot LOGN HL m (fun i => b i / IZR Delta)%R j r); try lia.
  intros i Hi'. specialize (Hb' i Hi'). cbv zeta in *. assert (R1 : IZR Delta <> 0%R) by (apply IZR_neq; lia).
  replace (m i) with (m i * IZR Delta / IZR Delta)%R by (field; auto). rewrite Hb'. fold N. destruct (_ <? _); unfold Rdiv; ring.
Qed.

(** Parseval: the square sum of the slots is N/2 times that of the coefficients. *)
Theorem C57_norm (m : Z -> R) : exists s t, square_sum n (carray n (slot N m)) = Ok s /\ simple_square_sum N (array N m) = Ok t /\ s = (IZR n * t)%R.
Proof.
  pose proof (n_pos LOGN HL) as Hn. fold n in Hn. assert (E2 : N = 2 * n) by (apply N2; auto).
  destruct (C68_square_sum Rlawful n (slot N m) ltac:(lia)) as [E1 E1'].
  eexists _, _. split; [exact E1|]. rewrite array_gtab. rewrite simple_square_sum_ok by lia. split; [reflexivity|].
  set (x := fold_c LOGN m). set (e := eN (2 * n)).
  assert (Hs : forall j, 0 <= j -> slot N m j = gsum (K := RC) n (fun l => (x l * e (5 ^ j * l)%Z)%num)) by (intros j Hj; apply fold_slot; auto).
  assert (P : gsum (K := RC) n (fun j => ((slot N m j : RC) * (cconj Rops (slot N m j) : RC))%num)
    = gsum (K := RC) n (fun l => ((x l : RC) * (cconj Rops (mk Rops (IZR n * fst (x l)) (IZR n * snd (x l)))%R : RC))%num)).
  { transitivity (gsum (K := RC) n (fun j => gsum (K := RC) n (fun l => (x l * (cconj Rops ((cconj Rops (e (5 ^ j * l)%Z) : RC) * slot N m j)%num : RC))%num))).
    - apply gsum_ext. intros j Hj. rewrite (Hs j) at 1 by lia. rewrite <- (gsum_scale_r HC). apply gsum_ext. intros l Hl.
      rewrite (cconj_mul Rlawful), (cconj_conj Rlawful). ring.
    - rewrite (gsum_swap HC). apply gsum_ext. intros l Hl. rewrite (gsum_scale HC). f_equal.
      rewrite <- (cconj_sum Rlawful). apply (f_equal (cconj Rops)). etransitivity; [|exact (inv1 LOGN HL x l Hl)]. apply (gsum_ext (K := RC)). intros j Hj. rewrite Hs by lia. reflexivity. }
  assert (G : forall f : Z -> RC, cre Rops (gsum (K := RC) n f) = gsum (K := Rops) n (fun i => cre Rops (f i))).
  { intros f. unfold gsum. induction (Z.to_nat n) as [|k IH]; [reflexivity|]. cbn [sumn]. rewrite <- IH. reflexivity. }
  rewrite <- G, P, G. rewrite E2. replace (2 * n) with (n + n) by lia. rewrite (gsum_split Rlawful) by lia.
  rewrite <- (gsum_add Rlawful).
  pose proof (gsum_scale Rlawful n (IZR n) (fun i => (m i * m i + m (n + i)%Z * m (n + i)%Z)%R)) as S. cbn [omul Rops] in S.
  etransitivity; [|exact S]. apply (gsum_ext (K := Rops)). intros i Hi. unfold x, fold_c, cre. fold n. replace (i + n) with (n + i) by lia. cbn.
  match goal with |- @eq _ ?x ?y => change (@eq R x y) end. ring.
Qed.
Theorem C57_norm_root (m : Z -> R) : exists s t, square_sum n (carray n (slot N m)) = Ok s /\ simple_norm N (array N m) = Ok t /\ sqrt s = (sqrt (IZR n) * t)%R.
Proof.
  destruct (C57_norm m) as (s & t & E1 & E2 & ->). exists (IZR n * t)%R, (sqrt t). split; [exact E1|]. unfold simple_norm. rewrite E2. split; [reflexivity|].
  apply sqrt_mult_alt. apply IZR_le. apply Z.pow_nonneg. lia.
Qed.
End Slots.

(** ** C58 *)
Lemma negconv_bound N a b M B : 0 <= N -> 0 <= M -> (forall i, 0 <= i < N -> Z.abs (a i) <= M) -> (forall i, 0 <= i < N -> Z.abs (b i) <= B) ->
  forall i, 0 <= i < N -> Z.abs (negconv N a b i) <= N * (M * B).
Proof.
  intros HN HM Ha Hb i Hi. unfold negconv. apply zsum_bound; auto. intros k Hk. rewrite Z.abs_mul. apply Z.mul_le_mono_nonneg; auto using Z.abs_nonneg.
  destruct (Z.leb_spec k i); [apply Hb; lia|]. rewrite Z.abs_opp. apply Hb. lia.
Qed.
Lemma modulus_rsum n (f : Z -> CC) (g : Z -> R) : 0 <= n -> (forall k, 0 <= k < n -> (modulus (f k) <= g k)%R) -> (modulus (gsum n f) <= gsum (K := Rops) n g)%R.
Proof.
  intros Hn H. apply (GSum.gsum_ind n (fun n => (modulus (gsum n f) <= gsum (K := Rops) n g)%R)); auto.
  - rewrite !gsum_0 by lia. unfold modulus, cre, cim. cbn. rewrite Rmult_0_l, Rplus_0_l, sqrt_0. lra.
  - intros m Hm IH. rewrite !gsum_S by lia. pose proof (modulus_add (gsum m f) (f m)). specialize (H m Hm). cbn [oadd Rops] in *. lra.
Qed.

Section Mvp.
Context (LOGQ LOGN : Z) (HQ : widths LOGQ) (HL : 2 <= LOGN <= 17).
Let N := 2 ^ LOGN.
Let n := 2 ^ (LOGN - 1).
Context (S Delta B M : Z) (HD : 0 < Delta < 2 ^ 64) (HS : 0 <= S) (HB : 1 <= B) (HM : 1 <= M <= 2 ^ 64).
Context (A : Z -> Z -> CC) (m : Z -> Z -> R) (o : Z -> Z) (a : Z -> Z).
Context (Ho : forall s, 0 <= s < S -> 0 <= o s).
Context (Hm : forall s j, 0 <= s < S -> 0 <= j < n -> slot N (m s) j = A s j).
Context (Hb : forall s i, 0 <= s < S -> 0 <= i < N -> (Rabs (m s i) * IZR Delta < IZR M - / 2)%R).
Context (Ha : forall i, 0 <= i < N -> Z.abs (a i) <= B).
Context (Hsize : S * (N * (M * B)) < 2 ^ (LOGQ - 1)).

Definition rounded (s i : Z) : Z := rround (m s i * IZR Delta).
Definition zs (f : Z -> Z) (i : Z) : R := IZR (f i).

Lemma mvp_loop st pt_Az : ifft_static LOGN st -> objectP LOGQ N pt_Az ->
  exists st' r, ('(st, _, _, _, pt_Az) <- for_ 0 S (fun k '(st, pt_v, pt_rot, pt_conv, pt_Az) =>
      '(st, pt_v) <- encode LOGQ LOGN st (fst (carray n (A k))) (snd (carray n (A k))) Delta pt_v ;;
      pt_rot <- rot_poly LOGQ N (repP LOGQ N a) pt_rot (o k) ;;
      pt_conv <- conv_poly LOGQ N pt_v pt_rot pt_conv ;;
      pt_Az <- rq_add LOGQ N pt_Az pt_conv ;;
      Ok (st, pt_v, pt_rot, pt_conv, pt_Az)) (st, rq_new LOGQ N, rq_new LOGQ N, rq_new LOGQ N, repP LOGQ N (fun _ => 0)) ;;
    Ok (st, pt_Az)) = Ok (st', repP LOGQ N r) /\ ifft_static LOGN st' /\
  (forall i, 0 <= i < N -> Z.abs (r i) <= S * (N * (M * B))) /\
  (forall j, 0 <= j < n -> slot N (zs r) j = gsum S (fun k => (slot N (zs (rounded k)) j * slot N (zs a) ((j + o k) mod n))%num)).
Proof.
  intros Hst HA. assert (HQ1 : 1 <= LOGQ) by (unfold widths in HQ; lia). pose proof (Npos LOGN ltac:(lia)) as HN. fold N in HN.
  assert (Hn : 0 < n) by (apply Z.pow_pos_nonneg; lia).
  assert (HL' : 2 <= LOGN <= 27) by lia.
  pose proof (pow2_half LOGQ HQ1) as Hh.
  match goal with |- context [for_ 0 S ?body ?s0] =>
    destruct (for_inv body (fun k (w : tables * poly * poly * poly * poly) => let '(st, v, ro, cv, az) := w in
       ifft_static LOGN st /\ objP LOGQ N v /\ objP LOGQ N ro /\ objP LOGQ N cv /\ exists r, az = repP LOGQ N r /\
       (forall i, 0 <= i < N -> Z.abs (r i) <= k * (N * (M * B))) /\
       (forall j, 0 <= j < n -> slot N (zs r) j = gsum k (fun k => (slot N (zs (rounded k)) j * slot N (zs a) ((j + o k) mod n))%num)))
       0 S s0 HS) as (w & E & H)
  end.
  - split; [exact Hst|]. split; [apply objP_new|]. split; [apply objP_new|]. split; [apply objP_new|].
    exists (fun _ => 0). split; [reflexivity|]. split; [intros; lia|]. intros j Hj. rewrite gsum_0 by lia. rewrite slot_at by auto. unfold at_.
    apply (gsum_zero HC). intros k Hk. unfold zs. apply RC_eq; cbn; ring.
  - intros k [[[[st1 v] ro] cv] az] Hk (H1 & Hv & Hro & Hcv & r & -> & Hr & Hs).
    assert (Hv' : objectP LOGQ N v) by (apply objP_object; auto; lia).
    destruct (C54_encode LOGQ LOGN HQ1 HL' Delta st1 (A k) (m k) v HD H1 Hv') as (st2 & v2 & c & E1 & Hc & Hc2).
    { intros j Hj. apply Hm; auto. }
    { intros i Hi. pose proof (Hb k i Hk Hi). assert (M <= 2 ^ LOGQ).
      { assert (M <= M * B) by nia. assert (M * B <= N * (M * B)) by nia. assert (N * (M * B) <= S * (N * (M * B))) by nia. lia. }
      assert (IZR M <= IZR (2 ^ 64))%R by (apply IZR_le; lia). assert (IZR M <= IZR (2 ^ LOGQ))%R by (apply IZR_le; auto). lra. }
    fold N n in E1, Hc, Hc2. rewrite E1. cbn [bind].
    assert (H2 : ifft_static LOGN st2).
    { unfold encode in E1. destruct (ifft LOGN st1 _ _ _) as [[st3 m3]| | |] eqn:Ei; try discriminate E1. cbn [bind] in E1.
      match type of E1 with bind ?x _ = _ => destruct x as [q| | |]; try discriminate E1 end. cbn [bind] in E1. injection E1 as -> _.
      eapply ifft_next; eauto. }
    destruct (rot_poly_rep LOGN LOGQ (o k) ltac:(lia) HQ1 (Ho k Hk) a) as (b & Hab & E2). fold N in Hab, E2.
    rewrite E2 by auto. cbn [bind]. apply holdsP_rep in Hc; try lia. subst v2.
    assert (E3 : conv_poly LOGQ N (repP LOGQ N c) (repP LOGQ N b) cv = Ok (repP LOGQ N (negconv N c b))).
    { destruct (C27_conv LOGN LOGQ (repP LOGQ N c) (repP LOGQ N b) cv c b ltac:(lia) HQ) as (P & EP & HP).
      - apply repP_holds; fold N; lia.
      - apply repP_holds; fold N; lia.
      - apply objP_object; auto; fold N; lia.
      - fold N in EP. rewrite EP. f_equal. apply holdsP_rep in HP; auto. fold N; lia. }
    rewrite E3. cbn [bind]. rewrite rq_add_rep by lia. cbn [bind]. eexists. split; [reflexivity|].
    assert (Hcm : forall i, 0 <= i < N -> Z.abs (c i) <= M).
    { intros i Hi. destruct (Hc2 i Hi) as [_ ->]. pose proof (Hb k i Hk Hi) as Hx. apply (scaled_bound (m k i) Delta M) in Hx; [|lia].
      rewrite (scaled_abs LOGQ (m k i) Delta) in Hx by lia. lia. }
    assert (Hg : gcd1 N (5 ^ o k)) by (apply (gcd1_pow5 LOGN (o k)); [lia|apply Ho; auto]).
    assert (Hbb : forall i, 0 <= i < N -> Z.abs (b i) <= B) by (apply (auto_bound N ltac:(lia) (5 ^ o k) a b B Hg Hab Ha)).
    split; [exact H2|]. split; [eexists; split; [reflexivity|intros; apply rep_length]|]. split; [eexists; split; [reflexivity|intros; apply rep_length]|].
    split; [eexists; split; [reflexivity|intros; apply rep_length]|].
    exists (fun i => r i + negconv N c b i). split; [reflexivity|]. split.
    + intros i Hi. specialize (Hr i Hi). pose proof (negconv_bound N c b M B ltac:(lia) ltac:(lia) Hcm Hbb i Hi). lia.
    + intros j Hj. rewrite gsum_S by lia. rewrite <- Hs by auto.
      rewrite (slot_ext N (zs (fun i => r i + negconv N c b i)) (fun i => zs r i + rnegconv N (zs c) (zs b) i)%R).
      2:{ intros i Hi. unfold zs. rewrite plus_IZR. f_equal. apply (real_negconv LOGN). }
      rewrite slot_add, slot_negconv by lia. f_equal. f_equal.
      * apply slot_ext. intros i Hi. unfold zs, rounded. f_equal. apply Hc2. auto.
      * apply (slot_rot LOGN HL' (zs a) (zs b) j (o k)); [lia|apply Ho; auto|]. apply (real_sub LOGN). apply substituted_auto; [lia|exact Hab].
  - rewrite E. destruct w as [[[[st1 v] ro] cv] az]. destruct H as (H1 & _ & _ & _ & r & -> & Hr & Hs). cbn [bind]. exists st1, r. auto.
Qed.

Lemma rounded_error k j : 0 <= k < S -> 0 <= j < n ->
  (modulus (slot N (fun i => zs (rounded k) i / IZR Delta)%R j - A k j)%num <= IZR N / (2 * IZR Delta))%R.
Proof.
  intros Hk Hj. pose proof (Npos LOGN ltac:(lia)) as HN. fold N in HN. rewrite <- Hm by auto. rewrite <- slot_sub.
  assert (HD' : (0 < IZR Delta)%R) by (apply IZR_lt; lia).
  replace (IZR N / (2 * IZR Delta))%R with (IZR N * (/ 2 / IZR Delta))%R by (field; lra).
  apply modulus_slot; auto. intros i Hi. pose proof (rround_near (m k i * IZR Delta)) as H1. unfold zs, rounded.
  replace (IZR (rround (m k i * IZR Delta)) / IZR Delta - m k i)%R with ((IZR (rround (m k i * IZR Delta)) - m k i * IZR Delta) / IZR Delta)%R by (field; lra).
  unfold Rdiv. rewrite Rabs_mult, (Rabs_right (/ IZR Delta)) by (apply Rle_ge, Rlt_le, Rinv_0_lt_compat; auto).
  apply Rmult_le_compat_r; auto. apply Rlt_le, Rinv_0_lt_compat; auto.
Qed.
Lemma slots_zs (c : Z -> Z) D j : D <> 0%R -> slot N (fun i => zs c i / D)%R j = (real (/ D) * slot N (zs c) j)%num.
Proof. intros HD'. rewrite <- slot_scale. apply slot_ext. intros i Hi. unfold Rdiv. ring. Qed.
Lemma mvp_error (r : Z -> Z) D0 j : 0 < D0 -> 0 <= j < n ->
  (forall j, 0 <= j < n -> slot N (zs r) j = gsum S (fun k => (slot N (zs (rounded k)) j * slot N (zs a) ((j + o k) mod n))%num)) ->
  (modulus (slots N (IZR (Delta * D0)) r j - gsum S (fun k => A k j * slots N (IZR D0) a ((j + o k) mod n)))%num
    <= gsum (K := Rops) S (fun k => IZR N / (2 * IZR Delta) * modulus (slots N (IZR D0) a ((j + o k) mod n)))%R)%R.
Proof.
  intros HD0 Hj Hr. assert (R1 : IZR Delta <> 0%R) by (apply IZR_neq; lia). assert (R2 : IZR D0 <> 0%R) by (apply IZR_neq; lia).
  unfold slots. change (fun i => (IZR (r i) / IZR (Delta * D0))%R) with (fun i => (zs r i / IZR (Delta * D0))%R).
  rewrite slots_zs by (apply IZR_neq; lia). rewrite Hr by auto. rewrite <- (gsum_scale HC), <- (gsum_sub HC).
  apply modulus_rsum; auto. intros k Hk.
  match goal with |- (modulus ?x <= _)%R => replace x with
    ((slot N (fun i => zs (rounded k) i / IZR Delta)%R j - A k j) * slot N (fun i => IZR (a i) / IZR D0)%R ((j + o k) mod n))%num end.
  - rewrite modulus_mul. apply Rmult_le_compat_r; [apply modulus_nonneg|]. apply rounded_error; auto.
  - rewrite (slots_zs (rounded k)) by auto. change (fun i => (IZR (a i) / IZR D0)%R) with (fun i => (zs a i / IZR D0)%R).
    rewrite (slots_zs a) by auto. rewrite mult_IZR, Rinv_mult.
    assert (E : real (/ IZR Delta * / IZR D0)%R = (real (/ IZR Delta) * real (/ IZR D0))%num) by (apply RC_eq; cbn; ring).
    rewrite E. ring.
Qed.
Lemma apply_offsets (z : Z -> CC) j : 0 <= j < n -> apply n (matrix_of n S (fun s j => A s j) o) z j = gsum S (fun k => (A k j * z ((j + o k) mod n))%num).
Proof.
  intros Hj. assert (Hn : 0 < n) by (apply Z.pow_pos_nonneg; lia). unfold apply. rewrite <- (dense_apply HC n S A o z j Hn Hj).
  apply gsum_ext. intros k Hk. f_equal.
Qed.
End Mvp.

Section MvpSpec.
Context (LOGQ LOGN : Z) (HQ : widths LOGQ) (HL : 2 <= LOGN <= 17).
Let N := 2 ^ LOGN.
Let n := 2 ^ (LOGN - 1).

Lemma mvp_finish S Delta B M D0 A m o a st2 r zr zi : 0 < Delta -> 0 < D0 -> Delta * D0 < 2 ^ 64 -> 0 <= S -> 1 <= B -> 1 <= M ->
  (forall s j, 0 <= s < S -> 0 <= j < n -> slot N (m s) j = A s j) -> S * (N * (M * B)) < 2 ^ (LOGQ - 1) ->
  fft_static LOGN st2 -> cells n zr -> cells n zi ->
  (forall i, 0 <= i < N -> Z.abs (r i) <= S * (N * (M * B))) ->
  (forall j, 0 <= j < n -> slot N (zs r) j = gsum S (fun k => (slot N (zs (rounded Delta m k)) j * slot N (zs a) ((j + o k) mod n))%num)) ->
  exists st2' z', decode LOGQ LOGN st2 (repP LOGQ N r) (Delta * D0) zr zi = Ok (st2', carray (K := Rops) n z') /\
    forall j, 0 <= j < n ->
     (modulus (z' j - apply n (matrix_of n S A o) (slots N (IZR D0) a) j)%num
      <= gsum (K := Rops) S (fun s => IZR N / (2 * IZR Delta) * modulus (slots N (IZR D0) a ((j + o s) mod n)))%R)%R.
Proof.
  intros HD HD0 HDD HS HB HM Hm Hsz Hst Hzr Hzi Hr Hs. assert (HQ1 : 1 <= LOGQ) by (unfold widths in HQ; lia).
  assert (HN : 0 < N) by (apply Z.pow_pos_nonneg; lia).
  destruct (C55_decode LOGQ LOGN HQ1 ltac:(lia) (Delta * D0) st2 (repP LOGQ N r) r zr zi ltac:(nia) Hst Hzr Hzi) as [st2' E].
  { split; [apply repP_holds; fold N; lia|]. intros i Hi. specialize (Hr i Hi). lia. }
  exists st2', (slots N (IZR (Delta * D0)) r). split; [exact E|]. intros j Hj.
  rewrite (apply_offsets LOGQ LOGN HL S A o _ j Hj).
  apply (mvp_error LOGQ LOGN HL S Delta ltac:(nia) HS A m o a Hm r D0 j HD0 Hj Hs).
Qed.

(** K diagonals: diagonal k holds the entries (i, i+k mod N/2) of the matrix.  Every slot of the product, decoded with
    the product of the scales, is within sum over k of N/(2 Delta) |z (j+k)| of the exact A z. *)
Theorem C58_mvp K Delta B M D0 (A : Z -> Z -> CC) m P a st st2 pt_Az zr zi :
  0 < Delta -> 0 < D0 -> Delta * D0 < 2 ^ 64 -> 0 <= K -> 1 <= B -> 1 <= M <= 2 ^ 64 -> K * (N * (M * B)) < 2 ^ (LOGQ - 1) ->
  (forall s j, 0 <= s < K -> 0 <= j < n -> slot N (m s) j = A s j) ->
  (forall s i, 0 <= s < K -> 0 <= i < N -> (Rabs (m s i) * IZR Delta < IZR M - / 2)%R) ->
  holdsP LOGQ N P a -> (forall i, 0 <= i < N -> Z.abs (a i) <= B) -> objectP LOGQ N pt_Az ->
  ifft_static LOGN st -> fft_static LOGN st2 -> cells n zr -> cells n zi ->
  exists st' Q st2' z', pt_mvp LOGQ LOGN K st P (map (fun k => carray n (A k)) (range K)) Delta pt_Az = Ok (st', Q) /\
    decode LOGQ LOGN st2 Q (Delta * D0) zr zi = Ok (st2', carray (K := Rops) n z') /\
    forall j, 0 <= j < n ->
     (modulus (z' j - apply n (matrix_of n K A (fun k => k)) (slots N (IZR D0) a) j)%num
      <= gsum (K := Rops) K (fun s => IZR N / (2 * IZR Delta) * modulus (slots N (IZR D0) a ((j + s) mod n)))%R)%R.
Proof.
  intros HD HD0 HDD HK HB HM Hsz Hm Hb HP Ha Haz Hst Hst2 Hzr Hzi. assert (HQ1 : 1 <= LOGQ) by (unfold widths in HQ; lia).
  assert (HN : 0 < N) by (apply Z.pow_pos_nonneg; lia).
  apply holdsP_rep in HP; try lia. subst P.
  destruct (mvp_loop LOGQ LOGN HQ HL K Delta B M ltac:(nia) HK HB HM A m (fun k => k) a ltac:(lia) Hm Hb Ha Hsz st pt_Az Hst Haz)
    as (st' & r & E & _ & Hr & Hs). fold N n in E, Hr, Hs.
  destruct (mvp_finish K Delta B M D0 A m (fun k => k) a st2 r zr zi) as (st2' & z' & E2 & H); auto; try lia.
  exists st', (repP LOGQ N r), st2', z'. split; [|split; [exact E2|exact H]].
  unfold pt_mvp. fold N. rewrite rq_setzero_ok by (try lia; apply objectP_obj; auto; lia). cbn [bind].
  rewrite <- E. apply f_equal2; [|reflexivity]. apply for_ext. intros k [[[[st1 v] ro] cv] az] Hk.
  rewrite map_range, lget_tab by auto. reflexivity.
Qed.

Theorem C58_mvp3 Delta B M D0 (A : Z -> Z -> CC) o f g m P a st st2 pt_Az zr zi :
  0 < Delta -> 0 < D0 -> Delta * D0 < 2 ^ 64 -> 1 <= B -> 1 <= M <= 2 ^ 64 -> 3 * (N * (M * B)) < 2 ^ (LOGQ - 1) ->
  (forall s, 0 <= s < 3 -> 0 <= o s) ->
  (forall s j, 0 <= s < 3 -> 0 <= j < n -> slot N (m s) j = A s j) ->
  (forall s i, 0 <= s < 3 -> 0 <= i < N -> (Rabs (m s i) * IZR Delta < IZR M - / 2)%R) ->
  holdsP LOGQ N P a -> (forall i, 0 <= i < N -> Z.abs (a i) <= B) -> objectP LOGQ N pt_Az ->
  ifft_static LOGN st -> fft_static LOGN st2 -> cells n zr -> cells n zi ->
  exists st' Q st2' z',
    pt_mvp3 LOGQ LOGN st P (diagonals n 3 (fun s j => cre Rops (A s j)) o f) (diagonals n 3 (fun s j => cim Rops (A s j)) o g) Delta pt_Az = Ok (st', Q) /\
    decode LOGQ LOGN st2 Q (Delta * D0) zr zi = Ok (st2', carray (K := Rops) n z') /\
    forall j, 0 <= j < n ->
     (modulus (z' j - apply n (matrix_of n 3 A o) (slots N (IZR D0) a) j)%num
      <= gsum (K := Rops) 3 (fun s => IZR N / (2 * IZR Delta) * modulus (slots N (IZR D0) a ((j + o s) mod n)))%R)%R.
Proof.
  intros HD HD0 HDD HB HM Hsz Ho Hm Hb HP Ha Haz Hst Hst2 Hzr Hzi. assert (HQ1 : 1 <= LOGQ) by (unfold widths in HQ; lia).
  assert (HN : 0 < N) by (apply Z.pow_pos_nonneg; lia).
  apply holdsP_rep in HP; try lia. subst P.
  destruct (mvp_loop LOGQ LOGN HQ HL 3 Delta B M ltac:(nia) ltac:(lia) HB HM A m o a Ho Hm Hb Ha Hsz st pt_Az Hst Haz)
    as (st' & r & E & _ & Hr & Hs). fold N n in E, Hr, Hs.
  destruct (mvp_finish 3 Delta B M D0 A m o a st2 r zr zi) as (st2' & z' & E2 & H); auto; try lia.
  exists st', (repP LOGQ N r), st2', z'. split; [|split; [exact E2|exact H]].
  unfold pt_mvp3. fold N. rewrite rq_setzero_ok by (try lia; apply objectP_obj; auto; lia). cbn [bind].
  rewrite <- E. apply f_equal2; [|reflexivity]. apply for_ext. intros k [[[[st1 v] ro] cv] az] Hk.
  rewrite !diagonals_sdi, !get_off_sdi by auto. cbn [bind]. rewrite Z.eqb_refl. cbn [assert_ bind].
  unfold sdi, carray; cbn [vec fst snd]. rewrite !lget_tab by auto. cbn [bind]. rewrite !array_gtab. reflexivity.
Qed.
(** real and imaginary parts with different offsets are refused: the assert fires *)
Theorem C58_mvp3_mismatch Delta (vr vi : Z -> Z -> R) o p f g P st pt_Az : objectP LOGQ N pt_Az ->
  (o 0 <> p 0 -> pt_mvp3 LOGQ LOGN st P (diagonals n 3 vr o f) (diagonals n 3 vi p g) Delta pt_Az = Abort) /\
  (forall st' Q, pt_mvp3 LOGQ LOGN st P (diagonals n 3 vr o f) (diagonals n 3 vi p g) Delta pt_Az = Ok (st', Q) -> forall s, 0 <= s < 3 -> o s = p s).
Proof.
  intros Haz. assert (HQ1 : 1 <= LOGQ) by (unfold widths in HQ; lia). assert (HN : 0 < N) by (apply Z.pow_pos_nonneg; lia).
  unfold pt_mvp3. fold N. rewrite rq_setzero_ok by (try lia; apply objectP_obj; auto; lia). cbn [bind]. split.
  - intros Hne. rewrite for_step by lia. rewrite !diagonals_sdi, !get_off_sdi by lia. cbn [bind].
    rewrite (proj2 (Z.eqb_neq _ _) Hne). reflexivity.
  - intros st' Q E. match type of E with bind ?x _ = _ => destruct x as [w| | |] eqn:Ef; try discriminate E end.
    refine (for_inv_partial _ (fun k _ => forall s, 0 <= s < k -> o s = p s) 0 3 _ _ _ _ _ Ef); [lia|intros; lia|].
    intros k w1 w2 Hk IH E2. destruct w1 as [[[[st1 v] ro] cv] az]. rewrite !diagonals_sdi, !get_off_sdi in E2 by auto. cbn [bind] in E2.
    destruct (Z.eqb_spec (o k) (p k)) as [He|He]; [|discriminate E2]. intros s Hs. destruct (Z.eq_dec s k) as [->|]; auto. apply IH; lia.
Qed.
End MvpSpec.

(** ** Concrete cases *)
Lemma pp_holds : holdsP 8 4 pp cc.
Proof. apply pp_signed. Qed.
Example C57_example_conv : exists P c, conv_poly 8 4 pp pp (repeat [None] 4) = Ok P /\ holdsP 8 4 P c /\
  simple_conv 4 (array 4 (fun i => IZR (cc i))) (array 4 (fun i => IZR (cc i))) (gfresh R 4) = Ok (array 4 (fun i => IZR (c i))).
Proof.
  apply (C57_conv 2 8 pp pp (repeat [None] 4) cc cc (gfresh R 4)); try lia; try apply pp_holds; try reflexivity.
  - unfold widths; lia.
  - split; [reflexivity|repeat constructor].
Qed.
Example C57_example_rotate : exists P c, rot_poly 8 4 pp (repeat [None] 4) 1 = Ok P /\ holdsP 8 4 P c /\
  simple_rotate 4 (array 4 (fun i => IZR (cc i))) (gfresh R 4) 1 = Ok (array 4 (fun i => IZR (c i))).
Proof.
  apply (C57_rotate 2 8 pp cc (repeat [None] 4) (gfresh R 4) 1); try lia; try apply pp_holds; try reflexivity.
  split; [reflexivity|repeat constructor].
Qed.
Example C57_example_raw : exists st' p st2', simple_encode_raw 2 None (fst (carray 2 (slot 4 mm))) (snd (carray 2 (slot 4 mm))) 3 (gfresh R 4) = Ok (st', p) /\
    simple_decode 2 None p 3 (gfresh R 2) (gfresh R 2) = Ok (st2', carray 2 (slot 4 mm)).
Proof. apply (C57_raw_roundtrip 2 ltac:(lia) 3 None None); try lia; try reflexivity; constructor. Qed.
(** two diagonals, both the slots of mm, applied to the vector encoded in pp *)
Lemma cc_small i : 0 <= i < 4 -> Z.abs (cc i) <= 8.
Proof. intros Hi. assert (H4 : i = 0 \/ i = 1 \/ i = 2 \/ i = 3) by lia. destruct H4 as [-> | [-> | [-> | ->]]]; vm_compute; discriminate. Qed.
Example C58_example : exists st' Q st2' z',
    pt_mvp 40 2 2 None (repP 40 4 cc) (map (fun k => carray 2 (slot 4 mm)) (range 2)) 10 (repeat [None] 4) = Ok (st', Q) /\
    decode 40 2 None Q (10 * 10) (gfresh R 2) (gfresh R 2) = Ok (st2', carray (K := Rops) 2 z') /\
    forall j, 0 <= j < 2 ->
     (modulus (z' j - apply 2 (matrix_of 2 2 (fun _ => slot 4 mm) (fun k => k)) (slots 4 10 cc) j)%num
      <= gsum (K := Rops) 2 (fun s => 4 / (2 * 10) * modulus (slots 4 10 cc ((j + s) mod 2)))%R)%R.
Proof.
  apply (C58_mvp 40 2 ltac:(unfold widths; lia) ltac:(lia) 2 10 8 12 10 (fun _ => slot 4 mm) (fun _ => mm) (repP 40 4 cc) cc None None (repeat [None] 4)); try lia; try reflexivity.
  - intros s i Hs Hi. unfold mm. destruct (i =? 0); [rewrite Rabs_right by lra; lra|]. destruct (i =? 1); [rewrite Rabs_left by lra; lra|]. rewrite Rabs_R0. lra.
  - apply repP_holds; lia.
  - apply cc_small.
  - split; [reflexivity|repeat constructor].
  - constructor.
  - constructor.
Qed.
