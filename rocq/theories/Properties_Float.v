(** C81-C87: the transforms, encoding and decoding in floating-point arithmetic. *)
From Coq Require Import ZArith List Bool Lia Reals Lra Ring.
From Verif Require Import Base BaseFacts Util UtilFacts ZQ ZQFacts ZQFacts2 RQ RQFacts SpecZQ SpecPoly SpecPolyFacts GSum Matrix MatrixFacts MatMulFacts DFT DFTTheory DFTFacts FFTFacts Encode EncodeFacts SpecMat Properties_Mat SpecDFT Properties_DFT SpecEnc SlotFacts LinSlots Properties_Enc.
From Verif Require Import Float SpecFloat FloatFacts FloatError FloatStage FloatMain FloatEnc FloatDec FloatSlots Binary64 FloatNum.
Import ListNotations.
Open Scope Z_scope.

Section Any.
(** any arithmetic *)
Context (F : fpu) (u eta top t : R) (ar : arithmetic u eta top t (rnd F) (dpi F) (lcos F) (lsin F)).
Context (LOGQ LOGN : Z) (HQ : 1 <= LOGQ) (HL : 2 <= LOGN <= 27).
Let n := 2 ^ (LOGN - 1).
Let N := 2 ^ LOGN.
Let L := Z.to_nat (LOGN - 1).
Context (Hsmall : (table_error u eta t N <= / 64)%R).

(** ** C81 *)
Theorem C81_fft st (m : Z -> R) B zr zi : f_fft_static F LOGN st -> cells n zr -> cells n zi -> (0 <= B)%R ->
  (forall l, 0 <= l < n -> (modulus (mk Rops (m l) (m (l + n)%Z)) <= B)%R) -> (4 * fft_size u eta t N L B + 1 <= top)%R ->
  exists st' z', f_fft F LOGN st (array N m) zr zi = Ok (st', carray (K := Rops) n z') /\ f_fft_static F LOGN st' /\
    forall j, 0 <= j < n -> (modulus (z' j - slot N m j)%num <= fft_error u eta t N L B)%R.
Proof. exact (fft_bound F LOGN HL u eta top t ar Hsmall st m B zr zi). Qed.

(** ** C82 *)
Theorem C82_ifft st (z : Z -> CC) (m : Z -> R) B arr : f_ifft_static F LOGN st -> cells N arr -> (0 <= B)%R ->
  (forall j, 0 <= j < n -> (modulus (z j) <= B)%R) -> (forall j, 0 <= j < n -> slot N m j = z j) -> (4 * fft_size u eta t N L B + 1 <= top)%R ->
  exists st' m', f_ifft F LOGN st (fst (carray n z)) (snd (carray n z)) arr = Ok (st', array N m') /\ f_ifft_static F LOGN st' /\
    forall i, 0 <= i < N -> (Rabs (m' i - m i) <= ifft_error u eta t N L B)%R.
Proof. exact (ifft_bound F LOGN HL u eta top t ar Hsmall st z m B arr). Qed.

Context (Hbig : (IZR (2 ^ 66) <= top)%R).
(** ** C83 *)
Theorem C83_encode Delta st (z : Z -> CC) (m : Z -> R) B pt : 0 < Delta < 2 ^ 64 -> f_ifft_static F LOGN st -> objectP LOGQ N pt -> (0 <= B)%R ->
  (forall j, 0 <= j < n -> (modulus (z j) <= B)%R) -> (forall j, 0 <= j < n -> slot N m j = z j) -> (4 * fft_size u eta t N L B + 1 <= top)%R ->
  let e := encode_error u eta (ifft_error u eta t N L B) B Delta in
  (B * IZR Delta + e + 1 < IZR (2 ^ 64))%R -> (B * IZR Delta + e + 1 < IZR (2 ^ LOGQ))%R ->
  exists st' pt' c, f_encode F LOGQ LOGN st (fst (carray n z)) (snd (carray n z)) Delta pt = Ok (st', pt') /\ f_ifft_static F LOGN st' /\
    holdsP LOGQ N pt' c /\ forall i, 0 <= i < N -> (Rabs (IZR (c i) - m i * IZR Delta) <= / 2 + e)%R.
Proof. exact (encode_bound F LOGQ LOGN HQ HL u eta top t ar Hsmall Hbig Delta st z m B pt). Qed.

(** ** C84 *)
Theorem C84_decode Delta st pt c A zr zi : (IZR (len LOGQ) * (u + eta) <= / 8)%R -> 0 < Delta < 2 ^ 64 -> f_fft_static F LOGN st -> cells n zr -> cells n zi ->
  signedP LOGQ N pt c -> (forall i, 0 <= i < N -> (Rabs (IZR (c i) / IZR Delta) <= A)%R) -> (8 * (A * IZR Delta) + 1 <= top)%R ->
  let dc := coeff_error u eta (len LOGQ) A in (4 * fft_size u eta t N L (2 * (A + dc)) + 1 <= top)%R ->
  exists st' z', f_decode F LOGQ LOGN st pt Delta zr zi = Ok (st', carray (K := Rops) n z') /\ f_fft_static F LOGN st' /\
    forall j, 0 <= j < n -> (modulus (z' j - slots N (IZR Delta) c j)%num <= IZR N * dc + fft_error u eta t N L (2 * (A + dc)))%R.
Proof. exact (decode_bound F LOGQ LOGN HQ HL u eta top t ar Hsmall Hbig Delta st pt c A zr zi). Qed.

(** ** C85 *)
Theorem C85_decode_log LD st pt c A zr zi : LOGQ <= 2 ^ 30 -> - 2 ^ 30 <= LD <= 2 ^ 30 -> f_fft_static F LOGN st -> cells n zr -> cells n zi ->
  signedP LOGQ N pt c -> (forall i, 0 <= i < N -> (Rabs (IZR (c i) / powerRZ 2 LD) <= A)%R) ->
  let dc := coeff_log_error u eta A in (4 * fft_size u eta t N L (2 * (A + dc)) + 1 <= top)%R ->
  exists st' z', f_decode_log F LOGQ LOGN st pt LD zr zi = Ok (st', carray (K := Rops) n z') /\ f_fft_static F LOGN st' /\
    forall j, 0 <= j < n -> (modulus (z' j - slots N (powerRZ 2 LD) c j)%num <= IZR N * dc + fft_error u eta t N L (2 * (A + dc)))%R.
Proof. exact (decode_log_bound F LOGQ LOGN HQ HL u eta top t ar Hsmall Hbig LD st pt c A zr zi). Qed.

(** ** C86 *)
Theorem C86_roundtrip Delta st st2 (z : Z -> CC) (m : Z -> R) B pt zr zi : (IZR (2 ^ 68) <= top)%R -> (IZR (len LOGQ) * (u + eta) <= / 8)%R -> 0 < Delta < 2 ^ 64 ->
  f_ifft_static F LOGN st -> f_fft_static F LOGN st2 -> objectP LOGQ N pt -> cells n zr -> cells n zi -> (0 <= B)%R ->
  (forall j, 0 <= j < n -> (modulus (z j) <= B)%R) -> (forall j, 0 <= j < n -> slot N m j = z j) ->
  let e := encode_error u eta (ifft_error u eta t N L B) B Delta in
  (B * IZR Delta + e + 1 < IZR (2 ^ 64))%R -> (B * IZR Delta + e + 1 < IZR (2 ^ (LOGQ - 1)))%R ->
  let A := (B + (/ 2 + e) / IZR Delta)%R in let dc := coeff_error u eta (len LOGQ) A in (4 * fft_size u eta t N L (2 * (A + dc)) + 1 <= top)%R ->
  exists st' pt' st2' z', f_encode F LOGQ LOGN st (fst (carray n z)) (snd (carray n z)) Delta pt = Ok (st', pt') /\
    f_decode F LOGQ LOGN st2 pt' Delta zr zi = Ok (st2', carray (K := Rops) n z') /\ f_ifft_static F LOGN st' /\ f_fft_static F LOGN st2' /\
    forall j, 0 <= j < n -> (modulus (z' j - z j)%num <= IZR N * ((/ 2 + e) / IZR Delta) + (IZR N * dc + fft_error u eta t N L (2 * (A + dc))))%R.
Proof.
  intros H68 Hlen HD Hst Hst2 Hpt Hr Hi HB Hz Hs e Hw Hq A dc Ht. assert (HDR : (1 <= IZR Delta)%R) by (apply IZR_le; lia).
  assert (HN : 0 < N) by (apply Z.pow_pos_nonneg; lia). assert (HNR : (0 < IZR N)%R) by (apply IZR_lt; auto).
  pose proof (pow2_half LOGQ HQ) as Hh. pose proof (pow2_pos (LOGQ - 1) ltac:(lia)) as Hp. assert (Hp' : (0 < IZR (2 ^ (LOGQ - 1)))%R) by (apply IZR_lt; lia).
  pose proof ar as [ar_u0 ar_eta0 ar_t0 _ _ _ _ _ _].
  assert (HT : (0 <= table_error u eta t N)%R). { unfold table_error. assert (0 <= IZR N * eta)%R by (apply Rmult_le_pos; lra). lra. }
  assert (Hla : (0 <= lambda u eta t N)%R) by (unfold lambda; lra).
  assert (P1 : (2 ^ L <= (2 + lambda u eta t N) ^ L)%R) by (apply pow_incr; lra).
  assert (P2 : (1 <= 2 ^ L)%R) by (apply pow_R1_Rle; lra).
  assert (FE : (0 <= fft_error u eta t N L B)%R). { unfold fft_error. apply Rplus_le_le_0_compat; apply Rmult_le_pos; lra. }
  assert (FS : (0 <= fft_size u eta t N L B)%R). { unfold fft_size. apply Rmult_le_pos; lra. }
  assert (IE : (0 <= ifft_error u eta t N L B)%R). { unfold ifft_error. assert (0 <= u * fft_size u eta t N L B)%R by (apply Rmult_le_pos; lra). apply Rplus_le_le_0_compat; [|lra]. apply Rmult_le_pos; [lra|apply Rlt_le, Rinv_0_lt_compat; lra]. }
  assert (He : (0 <= e)%R). { unfold e, encode_error. assert (0 <= (u + eta) * B)%R by (apply Rmult_le_pos; lra). apply Rplus_le_le_0_compat; [|lra]. apply Rmult_le_pos; lra. }
  set (ee := ((/ 2 + e) / IZR Delta)%R) in *. assert (Hee : (0 <= ee)%R) by (apply Rmult_le_pos; [lra|apply Rlt_le, Rinv_0_lt_compat; lra]).
  assert (Eee : (ee * IZR Delta = / 2 + e)%R) by (unfold ee; field; lra).
  assert (Hdc : (0 <= dc)%R). { unfold dc, coeff_error. pose proof (len_bounds LOGQ HQ). assert (0 <= IZR (len LOGQ))%R by (apply IZR_le; lia). assert (0 <= IZR (len LOGQ) * u)%R by (apply Rmult_le_pos; lra). assert (0 <= IZR (len LOGQ) * eta)%R by (apply Rmult_le_pos; lra).
    apply Rplus_le_le_0_compat; [|lra]. apply Rmult_le_pos; [lra|unfold A; lra]. }
  assert (Ht0 : (4 * fft_size u eta t N L B + 1 <= top)%R).
  { eapply Rle_trans; [|exact Ht]. unfold fft_size. apply Rplus_le_compat_r. apply Rmult_le_compat_l; [lra|]. apply Rmult_le_compat_l; [lra|]. unfold A; lra. }
  destruct (C83_encode Delta st z m B pt HD Hst Hpt HB Hz Hs Ht0) as (st' & pt' & c & E & Hst' & Hc & Hm); [exact Hw|rewrite Hh, mult_IZR; fold e; lra|]. fold e in Hm.
  assert (HmB : forall i, 0 <= i < N -> (Rabs (m i) <= B)%R). { apply (coef_slots LOGN m B HL). intros j Hj. fold N. rewrite Hs by auto. auto. }
  assert (Hcb : forall i, 0 <= i < N -> (Rabs (IZR (c i)) <= B * IZR Delta + e + / 2)%R).
  { intros i Hi'. specialize (Hm i Hi'). specialize (HmB i Hi'). assert (Rabs (m i * IZR Delta) <= B * IZR Delta)%R by (rewrite Rabs_mult, (Rabs_right (IZR Delta)) by lra; apply Rmult_le_compat_r; lra).
    replace (IZR (c i)) with ((IZR (c i) - m i * IZR Delta) + m i * IZR Delta)%R by ring. eapply Rle_trans; [apply Rabs_triang|]. lra. }
  assert (Hsg : signedP LOGQ N pt' c).
  { split; auto. intros i Hi'. specialize (Hcb i Hi'). apply abs_le in Hcb. assert (c i < 2 ^ (LOGQ - 1)) by (apply lt_IZR; lra). assert (- 2 ^ (LOGQ - 1) < c i) by (apply lt_IZR; rewrite opp_IZR; lra). lia. }
  assert (HAD : (A * IZR Delta = B * IZR Delta + / 2 + e)%R) by (unfold A; rewrite Rmult_plus_distr_r, Eee; ring).
  assert (Hce : forall i, 0 <= i < N -> (Rabs (IZR (c i) / IZR Delta - m i) <= ee)%R).
  { intros i Hi'. replace (IZR (c i) / IZR Delta - m i)%R with ((IZR (c i) - m i * IZR Delta) / IZR Delta)%R by (field; lra). unfold Rdiv, ee. rewrite Rabs_mult, (Rabs_right (/ IZR Delta)) by (apply Rle_ge, Rlt_le, Rinv_0_lt_compat; lra).
    apply Rmult_le_compat_r; [apply Rlt_le, Rinv_0_lt_compat; lra|]. apply Hm. auto. }
  destruct (C84_decode Delta st2 pt' c A zr zi Hlen HD Hst2 Hr Hi Hsg) as (st2' & z' & E2 & Hst2' & Hz'); [|rewrite HAD; change (2 ^ 68) with (16 * 2 ^ 64) in H68; rewrite mult_IZR in H68; assert (1 <= IZR (2 ^ 64))%R by (apply IZR_le; lia); lra|exact Ht|].
  { intros i Hi'. specialize (Hce i Hi'). specialize (HmB i Hi'). apply abs_le in Hce, HmB. apply Rabs_le. unfold A. lra. }
  exists st', pt', st2', z'. split; [exact E|]. split; [exact E2|]. split; [auto|]. split; [auto|]. intros j Hj. specialize (Hz' j Hj). fold dc in Hz'.
  replace (z' j - z j)%num with ((z' j - slots N (IZR Delta) c j) + (slots N (IZR Delta) c j - z j))%num by (destruct (z' j), (slots N (IZR Delta) c j), (z j); apply RC_eq; cbn; ring).
  eapply Rle_trans; [apply modulus_add|]. rewrite Rplus_comm. apply Rplus_le_compat; [|exact Hz']. rewrite <- Hs by auto. unfold slots. rewrite <- slot_sub. apply modulus_slot; auto.
Qed.
End Any.

(** ** Double precision *)
Definition double (F : fpu) : Prop := arithmetic u64 eta64 top64 t64 (rnd F) (dpi F) (lcos F) (lsin F).
Lemma top64_big k : 0 <= k <= 1023 -> (IZR (2 ^ k) <= top64)%R.
Proof. intros Hk. rewrite <- powerRZ_2 by lia. apply p2_le. lia. Qed.

Section Double.
Context (F : fpu) (HF : double F) (LOGQ LOGN : Z) (HQ : 1 <= LOGQ <= 2048) (HL : 2 <= LOGN <= 17).
Let n := 2 ^ (LOGN - 1).
Let N := 2 ^ LOGN.
Let L := Z.to_nat (LOGN - 1).
Lemma HL27 : 2 <= LOGN <= 27.
Proof. lia. Qed.
Lemma HQ1 : 1 <= LOGQ.
Proof. lia. Qed.
Lemma p41 : powerRZ 2 (-41) = (4096 * u64)%R.
Proof. symmetry. apply (u_is 12). lia. Qed.
Lemma p42 : powerRZ 2 (-42) = (2048 * u64)%R.
Proof. symmetry. apply (u_is 11). lia. Qed.
Lemma tiny : (1000000000000 * eta64 <= powerRZ 2 (-1000))%R /\ (1000000000000 * powerRZ 2 (-1000) <= powerRZ 2 (-900))%R.
Proof.
  pose proof eta_pos. assert (E : (1000000000000 <= IZR (2 ^ 60))%R) by (apply IZR_le; vm_compute; discriminate). split.
  - pose proof (eta_scaled (-1000) 60 ltac:(lia) ltac:(lia)). assert (1000000000000 * eta64 <= IZR (2 ^ 60) * eta64)%R by (apply Rmult_le_compat_r; lra). lra.
  - pose proof (p2_pos (-1000)). assert (1000000000000 * powerRZ 2 (-1000) <= IZR (2 ^ 60) * powerRZ 2 (-1000))%R by (apply Rmult_le_compat_r; lra).
    assert (IZR (2 ^ 60) * powerRZ 2 (-1000) <= powerRZ 2 (-900))%R; [|lra]. rewrite <- powerRZ_2 by lia. rewrite <- p2_add. apply p2_le. lia.
Qed.

Theorem C81_fft_double st (m : Z -> R) B zr zi : f_fft_static F LOGN st -> cells n zr -> cells n zi -> (0 <= B <= powerRZ 2 1000)%R ->
  (forall l, 0 <= l < n -> (modulus (mk Rops (m l) (m (l + n)%Z)) <= B)%R) ->
  exists st' z', f_fft F LOGN st (array N m) zr zi = Ok (st', carray (K := Rops) n z') /\ f_fft_static F LOGN st' /\
    forall j, 0 <= j < n -> (modulus (z' j - slot N m j)%num <= powerRZ 2 (-42) * (IZR n * B) + powerRZ 2 (-1000))%R.
Proof.
  intros Hst Hr Hi HB Hm. destruct (C81_fft F u64 eta64 top64 t64 HF LOGN HL27 (num_small LOGN HL) st m B zr zi Hst Hr Hi ltac:(lra) Hm) as (st' & z' & E & Hst' & Hz').
  { apply (num_size_top LOGN HL); lra. }
  exists st', z'. split; [exact E|]. split; [auto|]. intros j Hj. eapply Rle_trans; [apply Hz'; auto|]. eapply Rle_trans; [apply (num_fft_error LOGN HL); lra|].
  fold n. rewrite p42. pose proof tiny. pose proof eta_pos. assert (0 <= IZR n * (u64 * B))%R; [|lra]. apply Rmult_le_pos; [pose proof (num_n LOGN HL) as Hn; fold n in Hn; lra|apply num_uB; lra].
Qed.

Theorem C82_ifft_double st (z : Z -> CC) (m : Z -> R) B arr : f_ifft_static F LOGN st -> cells N arr -> (0 <= B <= powerRZ 2 1000)%R ->
  (forall j, 0 <= j < n -> (modulus (z j) <= B)%R) -> (forall j, 0 <= j < n -> slot N m j = z j) ->
  exists st' m', f_ifft F LOGN st (fst (carray n z)) (snd (carray n z)) arr = Ok (st', array N m') /\ f_ifft_static F LOGN st' /\
    forall i, 0 <= i < N -> (Rabs (m' i - m i) <= powerRZ 2 (-42) * B + powerRZ 2 (-1000))%R.
Proof.
  intros Hst Ha HB Hz Hs. destruct (C82_ifft F u64 eta64 top64 t64 HF LOGN HL27 (num_small LOGN HL) st z m B arr Hst Ha ltac:(lra) Hz Hs) as (st' & m' & E & Hst' & Hm').
  { apply (num_size_top LOGN HL); lra. }
  exists st', m'. split; [exact E|]. split; [auto|]. intros i Hi. eapply Rle_trans; [apply Hm'; auto|]. eapply Rle_trans; [apply (num_ifft_error LOGN HL); lra|].
  rewrite p42. pose proof tiny. pose proof eta_pos. pose proof (num_uB B ltac:(lra)). lra.
Qed.

(** The coefficient stored by encode is within 1/2 + 2^-41 B Delta of the exact one. *)
Theorem C83_encode_double Delta st (z : Z -> CC) (m : Z -> R) B pt : 0 < Delta < 2 ^ 64 -> f_ifft_static F LOGN st -> objectP LOGQ N pt -> (0 <= B)%R ->
  (forall j, 0 <= j < n -> (modulus (z j) <= B)%R) -> (forall j, 0 <= j < n -> slot N m j = z j) ->
  (B * IZR Delta + powerRZ 2 (-41) * (B * IZR Delta) + 2 < IZR (2 ^ 64))%R -> (B * IZR Delta + powerRZ 2 (-41) * (B * IZR Delta) + 2 < IZR (2 ^ LOGQ))%R ->
  exists st' pt' c, f_encode F LOGQ LOGN st (fst (carray n z)) (snd (carray n z)) Delta pt = Ok (st', pt') /\ f_ifft_static F LOGN st' /\
    holdsP LOGQ N pt' c /\ forall i, 0 <= i < N -> (Rabs (IZR (c i) - m i * IZR Delta) <= / 2 + powerRZ 2 (-41) * (B * IZR Delta) + powerRZ 2 (-900))%R.
Proof.
  intros HD Hst Hpt HB Hz Hs Hw Hq. assert (HDR : (1 <= IZR Delta)%R) by (apply IZR_le; lia).
  pose proof (num_encode_error LOGN HL B Delta HB HD) as NE. pose proof (num_uB B HB) as HuB. assert (Hx : (0 <= u64 * B * IZR Delta)%R) by (apply Rmult_le_pos; lra).
  rewrite p41 in *. assert (T1 : (powerRZ 2 (-900) <= 1)%R) by (apply (p2_le (-900) 0); lia).
  assert (HBD : (B <= B * IZR Delta)%R) by (rewrite <- (Rmult_1_r B) at 1; apply Rmult_le_compat_l; lra).
  assert (HB1000 : (B <= powerRZ 2 1000)%R). { apply Rle_trans with (IZR (2 ^ 64)); [lra|]. rewrite <- powerRZ_2 by lia. apply p2_le. lia. }
  destruct (C83_encode F u64 eta64 top64 t64 HF LOGQ LOGN HQ1 HL27 (num_small LOGN HL) (top64_big 66 ltac:(lia)) Delta st z m B pt HD Hst Hpt HB Hz Hs) as (st' & pt' & c & E & Hst' & Hc & Hm).
  - apply (num_size_top LOGN HL); lra.
  - lra.
  - lra.
  - exists st', pt', c. split; [exact E|]. split; [auto|]. split; [auto|]. intros i Hi. eapply Rle_trans; [apply Hm; auto|]. lra.
Qed.

Lemma len32 : (1 <= IZR (len LOGQ) <= 32)%R.
Proof. pose proof (len_bounds LOGQ HQ1). split; apply IZR_le; lia. Qed.
Lemma len_u : (IZR (len LOGQ) * (u64 + eta64) <= / 8)%R.
Proof.
  pose proof len32. pose proof u_pos as Hu. change (2 ^ 53) with 9007199254740992 in Hu. pose proof (num_etaB 1 Rle_0_1). pose proof eta_pos.
  apply Rle_trans with (32 * (2 * u64))%R; [apply Rmult_le_compat; lra|lra].
Qed.
Lemma dc_num A : (0 <= A)%R -> (0 <= coeff_error u64 eta64 (len LOGQ) A <= 75 * (u64 * A) + 128 * eta64)%R.
Proof.
  intros HA. pose proof len32 as Hl. pose proof u_pos. pose proof eta_pos. pose proof (num_uB A HA) as U. pose proof (num_etaB A HA) as U2. unfold coeff_error.
  assert (IZR (len LOGQ) * (u64 * A) <= 32 * (u64 * A))%R by (apply Rmult_le_compat_r; lra). assert (0 <= IZR (len LOGQ) * (u64 * A))%R by (apply Rmult_le_pos; lra).
  assert (IZR (len LOGQ) * eta64 <= 32 * eta64)%R by (apply Rmult_le_compat_r; lra). assert (0 <= IZR (len LOGQ) * eta64)%R by (apply Rmult_le_pos; lra).
  replace ((5 * (u64 + eta64) + 2 * IZR (len LOGQ) * u64) * A)%R with (5 * (u64 * A) + 5 * (eta64 * A) + 2 * (IZR (len LOGQ) * (u64 * A)))%R by ring. lra.
Qed.
(** what the decoding functions add, when every coefficient errs by dc <= 75 u A + 128 eta *)
Lemma dec_num A dc : (0 <= A <= powerRZ 2 900)%R -> (0 <= dc <= 75 * (u64 * A) + 128 * eta64)%R ->
  (4 * fft_size u64 eta64 t64 N L (2 * (A + dc)) + 1 <= top64)%R /\
  (IZR N * dc + fft_error u64 eta64 t64 N L (2 * (A + dc)) <= 1345 * u64 * (IZR N * A) + 1000000000 * eta64)%R.
Proof.
  intros HA Hdc. pose proof (num_uB A ltac:(lra)) as U. pose proof u_pos as Hu. change (2 ^ 53) with 9007199254740992 in Hu. pose proof eta_pos as He.
  pose proof (num_N LOGN HL) as HN. fold N in HN. pose proof (num_Nn LOGN HL) as HNn. fold N n in HNn.
  assert (P : (1024 <= powerRZ 2 900)%R). { replace 1024%R with (powerRZ 2 10) by (rewrite powerRZ_2 by lia; reflexivity). apply p2_le. lia. }
  assert (P2 : (1024 * powerRZ 2 900 <= powerRZ 2 1000)%R). { replace 1024%R with (powerRZ 2 10) by (rewrite powerRZ_2 by lia; reflexivity). rewrite <- p2_add. apply p2_le. lia. }
  assert (He1 : (128 * eta64 <= 1)%R). { pose proof (eta_scaled 0 7 ltac:(lia) ltac:(lia)) as E. exact E. }
  split; [apply (num_size_top LOGN HL); lra|].
  pose proof (num_fft_error LOGN HL (2 * (A + dc)) ltac:(lra)) as FE. fold N n L in FE.
  assert (M1 : (IZR N * dc <= IZR N * (75 * (u64 * A) + 128 * eta64))%R) by (apply Rmult_le_compat_l; lra).
  assert (M2 : (u64 * dc <= u64 * (75 * (u64 * A) + 128 * eta64))%R) by (apply Rmult_le_compat_l; lra).
  assert (M3 : (u64 * (u64 * A) <= 1 / 9007199254740992 * (u64 * A))%R) by (apply Rmult_le_compat_r; lra).
  assert (M4 : (u64 * eta64 <= 1 / 9007199254740992 * eta64)%R) by (apply Rmult_le_compat_r; lra).
  assert (M5 : (u64 * (2 * (A + dc)) <= 2 * (u64 * A) + 1 / 1000 * (u64 * A) + 1 / 1000 * eta64)%R) by lra.
  assert (M6 : (IZR n * (1265 * (u64 * (2 * (A + dc)))) <= IZR n * (1265 * (2 * (u64 * A) + 1 / 1000 * (u64 * A) + 1 / 1000 * eta64)))%R).
  { apply Rmult_le_compat_l; [rewrite HNn in HN; lra|]. apply Rmult_le_compat_l; lra. }
  assert (M7 : (IZR N * eta64 <= 131072 * eta64)%R) by (apply Rmult_le_compat_r; lra).
  assert (M8 : (0 <= IZR N * (u64 * A))%R) by (apply Rmult_le_pos; lra). assert (M9 : (0 <= IZR N * eta64)%R) by (apply Rmult_le_pos; lra).
  assert (EN : (IZR n * (1265 * (2 * (u64 * A) + 1 / 1000 * (u64 * A) + 1 / 1000 * eta64)) = 1265 * (IZR N * (u64 * A)) + 1265 / 2000 * (IZR N * (u64 * A)) + 1265 / 2000 * (IZR N * eta64))%R) by (rewrite HNn; field).
  lra.
Qed.

Theorem C84_decode_double Delta st pt c A zr zi : 0 < Delta < 2 ^ 64 -> f_fft_static F LOGN st -> cells n zr -> cells n zi ->
  signedP LOGQ N pt c -> (forall i, 0 <= i < N -> (Rabs (IZR (c i) / IZR Delta) <= A)%R) -> (0 <= A)%R -> (A * IZR Delta <= powerRZ 2 900)%R ->
  exists st' z', f_decode F LOGQ LOGN st pt Delta zr zi = Ok (st', carray (K := Rops) n z') /\ f_fft_static F LOGN st' /\
    forall j, 0 <= j < n -> (modulus (z' j - slots N (IZR Delta) c j)%num <= powerRZ 2 (-42) * (IZR N * A) + powerRZ 2 (-1000))%R.
Proof.
  intros HD Hst Hr Hi Hs Hc HA HT. assert (HDR : (1 <= IZR Delta)%R) by (apply IZR_le; lia).
  assert (HAD : (A <= A * IZR Delta)%R) by (rewrite <- (Rmult_1_r A) at 1; apply Rmult_le_compat_l; lra).
  destruct (dec_num A _ ltac:(lra) (dc_num A HA)) as [D1 D2].
  assert (P : (1 <= powerRZ 2 900)%R) by (apply (p2_le 0 900); lia).
  assert (P2 : (16 * powerRZ 2 900 <= top64)%R). { replace 16%R with (powerRZ 2 4) by (rewrite powerRZ_2 by lia; reflexivity). rewrite <- p2_add. apply p2_le. lia. }
  destruct (C84_decode F u64 eta64 top64 t64 HF LOGQ LOGN HQ1 HL27 (num_small LOGN HL) (top64_big 66 ltac:(lia)) Delta st pt c A zr zi len_u HD Hst Hr Hi Hs Hc) as (st' & z' & E & Hst' & Hz'); [lra|exact D1|].
  exists st', z'. split; [exact E|]. split; [auto|]. intros j Hj. eapply Rle_trans; [apply Hz'; auto|]. eapply Rle_trans; [exact D2|]. rewrite p42. pose proof tiny. pose proof eta_pos. pose proof u_pos.
  assert (0 <= u64 * (IZR N * A))%R; [|lra]. apply Rmult_le_pos; [lra|]. apply Rmult_le_pos; [apply IZR_le; apply Z.pow_nonneg; lia|auto].
Qed.

Theorem C85_decode_log_double LD st pt c A zr zi : - 2 ^ 30 <= LD <= 2 ^ 30 -> f_fft_static F LOGN st -> cells n zr -> cells n zi ->
  signedP LOGQ N pt c -> (forall i, 0 <= i < N -> (Rabs (IZR (c i) / powerRZ 2 LD) <= A)%R) -> (0 <= A <= powerRZ 2 900)%R ->
  exists st' z', f_decode_log F LOGQ LOGN st pt LD zr zi = Ok (st', carray (K := Rops) n z') /\ f_fft_static F LOGN st' /\
    forall j, 0 <= j < n -> (modulus (z' j - slots N (powerRZ 2 LD) c j)%num <= powerRZ 2 (-42) * (IZR N * A) + powerRZ 2 (-1000))%R.
Proof.
  intros HD Hst Hr Hi Hs Hc HA. pose proof eta_pos. pose proof u_pos.
  assert (DC : (0 <= coeff_log_error u64 eta64 A <= 75 * (u64 * A) + 128 * eta64)%R).
  { pose proof (num_uB A ltac:(lra)). pose proof (num_etaB A ltac:(lra)). unfold coeff_log_error. lra. }
  destruct (dec_num A _ HA DC) as [D1 D2].
  destruct (C85_decode_log F u64 eta64 top64 t64 HF LOGQ LOGN HQ1 HL27 (num_small LOGN HL) (top64_big 66 ltac:(lia)) LD st pt c A zr zi ltac:(lia) HD Hst Hr Hi Hs Hc D1) as (st' & z' & E & Hst' & Hz').
  exists st', z'. split; [exact E|]. split; [auto|]. intros j Hj. eapply Rle_trans; [apply Hz'; auto|]. eapply Rle_trans; [exact D2|]. rewrite p42. pose proof tiny.
  assert (0 <= u64 * (IZR N * A))%R; [|lra]. apply Rmult_le_pos; [lra|]. apply Rmult_le_pos; [apply IZR_le; apply Z.pow_nonneg; lia|lra].
Qed.

(** Encoding and decoding returns every slot up to N/(2 Delta) + 2^-41 N (B+1). *)
Theorem C86_roundtrip_double Delta st st2 (z : Z -> CC) (m : Z -> R) B pt zr zi : 0 < Delta < 2 ^ 64 ->
  f_ifft_static F LOGN st -> f_fft_static F LOGN st2 -> objectP LOGQ N pt -> cells n zr -> cells n zi -> (0 <= B)%R ->
  (forall j, 0 <= j < n -> (modulus (z j) <= B)%R) -> (forall j, 0 <= j < n -> slot N m j = z j) ->
  (B * IZR Delta + powerRZ 2 (-41) * (B * IZR Delta) + 2 < IZR (2 ^ 64))%R -> (B * IZR Delta + powerRZ 2 (-41) * (B * IZR Delta) + 2 < IZR (2 ^ (LOGQ - 1)))%R ->
  exists st' pt' st2' z', f_encode F LOGQ LOGN st (fst (carray n z)) (snd (carray n z)) Delta pt = Ok (st', pt') /\
    f_decode F LOGQ LOGN st2 pt' Delta zr zi = Ok (st2', carray (K := Rops) n z') /\ f_ifft_static F LOGN st' /\ f_fft_static F LOGN st2' /\
    forall j, 0 <= j < n -> (modulus (z' j - z j)%num <= IZR N / (2 * IZR Delta) + powerRZ 2 (-41) * (IZR N * (B + 1)))%R.
Proof.
  intros HD Hst Hst2 Hpt Hr Hi HB Hz Hs Hw Hq. assert (HDR : (1 <= IZR Delta)%R) by (apply IZR_le; lia).
  pose proof (num_encode_error LOGN HL B Delta HB HD) as NE. pose proof (num_uB B HB) as HuB. assert (Hx : (0 <= u64 * B * IZR Delta)%R) by (apply Rmult_le_pos; lra).
  rewrite p41 in *. assert (T1 : (powerRZ 2 (-900) <= 1 / 10)%R). { pose proof (p2_le (-900) (-10) ltac:(lia)) as P. pose proof (p2_small (-10) ltac:(lia)). lra. }
  assert (HBD : (B <= B * IZR Delta)%R) by (rewrite <- (Rmult_1_r B) at 1; apply Rmult_le_compat_l; lra).
  pose proof u_pos as Hu. pose proof eta_pos as He. set (e := encode_error u64 eta64 (ifft_error u64 eta64 t64 (2 ^ LOGN) (Z.to_nat (LOGN - 1)) B) B Delta) in *.
  set (A := (B + (/ 2 + e) / IZR Delta)%R).
  assert (He0 : (0 <= e)%R).
  { unfold e, encode_error, ifft_error. fold N L. assert (Hp : (2 ^ L <= (2 + lambda u64 eta64 t64 N) ^ L)%R) by (apply (num_power LOGN HL)). assert (P2 : (1 <= 2 ^ L)%R) by (apply pow_R1_Rle; lra).
    assert (FE : (0 <= fft_error u64 eta64 t64 N L B)%R). { unfold fft_error. apply Rplus_le_le_0_compat; apply Rmult_le_pos; lra. }
    assert (FS : (0 <= fft_size u64 eta64 t64 N L B)%R). { unfold fft_size. apply Rmult_le_pos; lra. }
    assert (0 <= u64 * fft_size u64 eta64 t64 N L B)%R by (apply Rmult_le_pos; lra).
    assert (0 <= (fft_error u64 eta64 t64 N L B + 3 * u64 * fft_size u64 eta64 t64 N L B) / 2 ^ L)%R by (apply Rmult_le_pos; [lra|apply Rlt_le, Rinv_0_lt_compat; lra]).
    assert (0 <= (u64 + eta64) * B)%R by (apply Rmult_le_pos; lra). apply Rplus_le_le_0_compat; [|lra]. apply Rmult_le_pos; lra. }
  assert (Hinv : (0 < / IZR Delta <= 1)%R). { split; [apply Rinv_0_lt_compat; lra|]. rewrite <- Rinv_1. apply Rinv_le_contravar; lra. }
  assert (Hed : (e / IZR Delta <= 2545 * (u64 * B) + powerRZ 2 (-900))%R).
  { apply Rle_trans with ((2545 * (u64 * B) * IZR Delta + powerRZ 2 (-900)) / IZR Delta)%R; [apply Rmult_le_compat_r; lra|].
    unfold Rdiv. rewrite Rmult_plus_distr_r, Rmult_assoc, Rinv_r, Rmult_1_r by lra. apply Rplus_le_compat_l. rewrite <- (Rmult_1_r (powerRZ 2 (-900))) at 2. apply Rmult_le_compat_l; [apply Rlt_le, p2_pos|lra]. }
  assert (Hee : ((/ 2 + e) / IZR Delta = / (2 * IZR Delta) + e / IZR Delta)%R) by (field; lra).
  assert (H2D : (0 < / (2 * IZR Delta) <= / 2)%R). { split; [apply Rinv_0_lt_compat; lra|apply Rinv_le_contravar; lra]. }
  assert (Hed0 : (0 <= e / IZR Delta)%R) by (apply Rmult_le_pos; lra).
  assert (HA : (0 <= A <= B + 1 / 1000 * B + 6 / 10)%R) by (unfold A; rewrite Hee; lra).
  assert (P900 : (4 * IZR (2 ^ 64) <= powerRZ 2 900)%R). { rewrite <- mult_IZR. change (4 * 2 ^ 64) with (2 ^ 66). rewrite <- powerRZ_2 by lia. apply p2_le. lia. }
  assert (P64 : (4 <= IZR (2 ^ 64))%R) by (apply IZR_le; lia).
  destruct (dec_num A _ ltac:(lra) (dc_num A ltac:(lra))) as [D1 D2].
  destruct (C86_roundtrip F u64 eta64 top64 t64 HF LOGQ LOGN HQ1 HL27 (num_small LOGN HL) (top64_big 66 ltac:(lia)) Delta st st2 z m B pt zr zi (top64_big 68 ltac:(lia)) len_u HD Hst Hst2 Hpt Hr Hi HB Hz Hs) as (st' & pt' & st2' & z' & E1 & E2 & S1 & S2 & Hz').
  - fold e. lra.
  - fold e. lra.
  - fold e. fold A. exact D1.
  - exists st', pt', st2', z'. split; [exact E1|]. split; [exact E2|]. split; [auto|]. split; [auto|]. intros j Hj. eapply Rle_trans; [apply Hz'; auto|]. fold e. fold A. fold N L.
    eapply Rle_trans; [apply Rplus_le_compat_l; exact D2|]. rewrite Hee. pose proof (num_N LOGN HL) as HN. fold N in HN.
    replace (IZR N / (2 * IZR Delta))%R with (IZR N * / (2 * IZR Delta))%R by reflexivity. rewrite Rmult_plus_distr_l, Rplus_assoc. apply Rplus_le_compat_l.
    assert (M1 : (IZR N * (e / IZR Delta) <= IZR N * (2545 * (u64 * B) + powerRZ 2 (-900)))%R) by (apply Rmult_le_compat_l; lra).
    assert (M2 : (u64 * (IZR N * A) <= u64 * (IZR N * (B + 1 / 1000 * B + 6 / 10)))%R). { apply Rmult_le_compat_l; [lra|]. apply Rmult_le_compat_l; lra. }
    assert (M3 : (IZR N * powerRZ 2 (-900) <= IZR N * u64)%R) by (apply Rmult_le_compat_l; [lra|apply p2_le; lia]).
    assert (M4 : (1000000000 * eta64 <= u64)%R) by (pose proof (eta_scaled (-53) 60 ltac:(lia) ltac:(lia)) as Q; change (2 ^ 60) with 1152921504606846976 in Q; fold u64 in Q; lra).
    assert (M5 : (u64 <= IZR N * u64)%R) by (rewrite <- (Rmult_1_l u64) at 1; apply Rmult_le_compat_r; lra).
    assert (M6 : (0 <= IZR N * (u64 * B))%R) by (apply Rmult_le_pos; lra).
    replace (u64 * (IZR N * (B + 1 / 1000 * B + 6 / 10)))%R with (1001 / 1000 * (IZR N * (u64 * B)) + 6 / 10 * (IZR N * u64))%R in M2 by field.
    replace (4096 * u64 * (IZR N * (B + 1)))%R with (4096 * (IZR N * (u64 * B)) + 4096 * (IZR N * u64))%R by ring. lra.
Qed.
End Double.

(** the first coefficient computed by ifft for N = 4 and real slots a, b *)
Definition slots2 (a b : R) (j : Z) : CC := mk Rops (if j =? 0 then a else b) 0%R.
Lemma ifft_first_coeff F (a b : R) : exists st' m', f_ifft F 2 None (fst (carray 2 (slots2 a b))) (snd (carray 2 (slots2 a b))) (gfresh R 4) = Ok (st', array 4 m') /\
  let r := rnd F in
  let t (x y z w : R) := r (r (x * y) - r (z * w))%R in
  m' 0 = r (r (r (r (r (0 + t 1 a (- 0) 0) + t 1 b (- 0) 0) + t 0 b (- 0) 0) * 2) / 4)%R.
Proof.
  pose proof (f_ifft_ok F 2 ltac:(lia) None (slots2 a b) (fun _ => None) (or_introl eq_refl)) as E.
  change (2 * 2 ^ (2 - 1)) with 4 in E. change (2 ^ (2 - 1)) with 2 in E. rewrite <- gfresh_tab in E. 
  eexists _, _. rewrite carray_cvtab. unfold cvtab. cbn [fst snd]. rewrite array_gtab. split; [exact E|].
  reflexivity.
Qed.
Definition small : R := powerRZ 2 (-54).
Lemma small_pos : (0 < small < 1 / 1024)%R.
Proof. split; [apply p2_pos|]. pose proof (p2_le (-54) (-11) ltac:(lia)) as H. unfold small. eapply Rle_lt_trans; [exact H|]. change (-11) with (Z.opp 11). rewrite powerRZ_neg', powerRZ_2 by lia. change (2 ^ 11) with 2048. lra. Qed.
Lemma fl64_dyadic m k x : x = (IZR m * powerRZ 2 k)%R -> Z.abs m < 2 ^ 53 -> -1074 <= k -> fl64 x = x.
Proof. intros ->. apply fl64_exact. Qed.
(** 1 + 2^-54 rounds to 1 *)
Lemma fl64_absorb : fl64 (1 + small) = 1%R.
Proof.
  pose proof small_pos as Hs. unfold fl64. destruct (Req_EM_T (1 + small) 0) as [|_]; [lra|].
  assert (E : grid (1 + small) = -52). { unfold grid. rewrite (bexp_unique _ 0); [reflexivity|]. rewrite Rabs_right by lra. change (powerRZ 2 0) with 1%R. change (powerRZ 2 (0 + 1)) with (2 * 1)%R. lra. }
  rewrite E. rewrite (rhe_near_unique _ (2 ^ 52)).
  - rewrite <- powerRZ_2 by lia. rewrite <- p2_add. reflexivity.
  - change (Z.opp (-52)) with 52. rewrite powerRZ_2 by lia. assert (Es : (small * IZR (2 ^ 52) = / 4)%R).
    { unfold small. rewrite <- powerRZ_2 by lia. rewrite <- p2_add. change (-54 + 52) with (Z.opp 2). rewrite powerRZ_neg', powerRZ_2 by lia. reflexivity. }
    replace (IZR (2 ^ 52) - (1 + small) * IZR (2 ^ 52))%R with (- (small * IZR (2 ^ 52)))%R by ring. rewrite Es, Rabs_Ropp, Rabs_right by lra. lra.
Qed.

(** ** C87: IEEE double precision is such an arithmetic, and so is exact arithmetic *)
Theorem C87_binary64 : double F64.
Proof. exact arithmetic64. Qed.
Theorem C87_exact top : (8 <= top)%R -> arithmetic 0 0 top 0 (rnd exact_fpu) (dpi exact_fpu) (lcos exact_fpu) (lsin exact_fpu).
Proof.
  intros Ht. split; cbn [rnd dpi lcos lsin exact_fpu]; try lra; auto; intros; rewrite Rminus_diag_eq, Rabs_R0 by reflexivity; try lra.
Qed.

(** ** Encoding in double precision does not give the nearest integers: for N = 4, slots (1, 2^-54) and Delta = 2^60 the first coefficient is 32 off. *)
Theorem C83_encode_nearest_refuted : exists F LOGQ LOGN Delta z m pt st' pt' c, double F /\ 0 < Delta < 2 ^ 64 /\ objectP LOGQ (2 ^ LOGN) pt /\
  (forall j, 0 <= j < 2 ^ (LOGN - 1) -> slot (2 ^ LOGN) m j = z j) /\
  (forall i, 0 <= i < 2 ^ LOGN -> (Rabs (m i) * IZR Delta < IZR (2 ^ 64) - / 2)%R /\ (Rabs (m i) * IZR Delta < IZR (2 ^ LOGQ) - / 2)%R) /\
  f_encode F LOGQ LOGN None (fst (carray (2 ^ (LOGN - 1)) z)) (snd (carray (2 ^ (LOGN - 1)) z)) Delta pt = Ok (st', pt') /\
  holdsP LOGQ (2 ^ LOGN) pt' c /\ (IZR (c 0%Z) - m 0%Z * IZR Delta = -32)%R.
Proof.
  pose proof small_pos as Hs. set (z := slots2 1 small).
  assert (Hz : forall j, 0 <= j < 2 -> (modulus (z j) <= 1)%R).
  { intros j Hj. unfold z, slots2. change (mk Rops (if j =? 0 then 1%R else small) 0%R) with (real (if j =? 0 then 1%R else small)). rewrite modulus_real. destruct (j =? 0); rewrite Rabs_right by lra; lra. }
  (* the exact coefficients *)
  destruct (ifft_first_coeff exact_fpu 1 small) as (se & me & Ee & Hme). cbv zeta in Hme. cbn [rnd exact_fpu] in Hme. rewrite exact_ifft in Ee. fold z in Ee.
  assert (Hslot : forall j, 0 <= j < 2 -> slot 4 me j = z j).
  { destruct (C52_fft_ifft 2 ltac:(lia) None z (gfresh R 4) (ifft_first 2) eq_refl) as (s1 & c1 & E1 & H1). change (2 ^ 2) with 4 in *. change (2 ^ (2 - 1)) with 2 in *.
    rewrite E1 in Ee. assert (Ea : array 4 c1 = array 4 me) by congruence. clear Ee. rename Ea into Ee. intros j Hj. rewrite <- H1 by auto. apply slot_ext. intros i Hi.
    rewrite !array_gtab in Ee. pose proof (grd_gtab 4 c1 i Hi) as G. rewrite Ee in G. rewrite grd_gtab in G by auto. injection G as G. auto. }
  assert (Hm0 : me 0 = (/ 2 + small / 2)%R) by (rewrite Hme; field).
  assert (HmB : forall i, 0 <= i < 4 -> (Rabs (me i) <= 1)%R).
  { apply (coef_slots 2 me 1 ltac:(lia)). intros j Hj. change (2 ^ 2) with 4. change (2 ^ (2 - 1)) with 2 in Hj. rewrite Hslot by auto. auto. }
  (* the computed coefficients *)
  destruct (ifft_first_coeff F64 1 small) as (sf & mf & Ef & Hmf). cbv zeta in Hmf. fold z in Ef.
  assert (Hf0 : mf 0 = (/ 2)%R).
  { rewrite Hmf. cbn [rnd F64]. replace (- 0 * 0)%R with 0%R by ring. rewrite fl64_0, !Rmult_0_l, !Rmult_1_l, !Rminus_0_r. rewrite fl64_0.
    assert (F1 : fl64 1 = 1%R) by (apply (fl64_dyadic 1 0); try lia; change (powerRZ 2 0) with 1%R; lra).
    assert (Fs : fl64 small = small) by (apply (fl64_dyadic 1 (-54)); try lia; unfold small; ring).
    rewrite !F1, Rplus_0_l, !F1, !Fs, fl64_absorb, fl64_0, Rplus_0_r, F1.
    assert (F2 : fl64 (1 * 2) = 2%R) by (replace (1 * 2)%R with 2%R by ring; apply (fl64_dyadic 2 0); try lia; change (powerRZ 2 0) with 1%R; lra).
    rewrite F2. replace (2 / 4)%R with (/ 2)%R by field. apply (fl64_dyadic 1 (-1)); try lia. change (powerRZ 2 (-1)) with (/ (2 * 1))%R. field. }
  assert (P60 : (IZR (2 ^ 60) = 1152921504606846976)%R) by reflexivity.
  assert (N41 : (0 <= powerRZ 2 (-41) <= / 1024)%R) by (apply p2_small; lia). assert (N900 : (0 <= powerRZ 2 (-900) <= / 1024)%R) by (apply p2_small; lia).
  assert (HE : (encode_error u64 eta64 (ifft_error u64 eta64 t64 (2 ^ 2) (Z.to_nat (2 - 1)) 1) 1 (2 ^ 60) <= IZR (2 ^ 60))%R).
  { eapply Rle_trans; [apply (num_encode_error 2 ltac:(lia) 1 (2 ^ 60)); [lra|lia]|]. rewrite P60. pose proof u_pos as Hu. change (2 ^ 53) with 9007199254740992 in Hu. lra. }
  destruct (encode_bound_words F64 100 2 ltac:(lia) ltac:(lia) u64 eta64 top64 t64 arithmetic64 (num_small 2 ltac:(lia)) (top64_big 66 ltac:(lia)) (2 ^ 60) None z me 1 (repeat [None; None] 4)) as (st' & pt' & c & m' & E1 & _ & E3 & Hc & _ & Hw).
  - lia.
  - constructor.
  - split; [reflexivity|repeat constructor].
  - lra.
  - exact Hz.
  - exact Hslot.
  - apply (num_size_top 2 ltac:(lia)); [lra|]. apply (p2_le 0 1000). lia.
  - rewrite P60 in *. change (2 ^ 64) with 18446744073709551616. lra.
  - rewrite P60 in *. change (2 ^ 100) with 1267650600228229401496703205376. lra.
  - exists F64, 100, 2, (2 ^ 60), z, me, (repeat [None; None] 4), st', pt', c. split; [exact C87_binary64|]. split; [lia|]. split; [split; [reflexivity|repeat constructor]|].
    split; [exact Hslot|]. split.
    { intros i Hi. specialize (HmB i Hi). change (2 ^ 60) with 1152921504606846976. change (2 ^ 64) with 18446744073709551616. change (2 ^ 100) with 1267650600228229401496703205376. pose proof (Rabs_pos (me i)). lra. }
    split; [exact E1|]. split; [exact Hc|]. rewrite (Hw 0 ltac:(lia)).
    change (2 ^ 2) with 4 in E3. change (2 ^ (2 - 1)) with 2 in E3. rewrite Ef in E3. assert (Ea : array 4 mf = array 4 m') by congruence. clear E3. rename Ea into E3. rewrite !array_gtab in E3.
    assert (Em : m' 0 = mf 0). { pose proof (grd_gtab 4 mf 0 ltac:(lia)) as G. rewrite E3 in G. rewrite grd_gtab in G by lia. injection G as G. exact G. }
    rewrite Em, Hf0. cbv zeta. destruct (Rlt_dec (/ 2) 0) as [|_]; [lra|]. cbn [rnd F64]. rewrite (Rabs_right (/ 2)) by lra.
    assert (F60 : fl64 (IZR (2 ^ 60)) = IZR (2 ^ 60)) by (apply (fl64_dyadic 1 60); try lia; rewrite powerRZ_2 by lia; ring). rewrite F60.
    assert (F59 : (/ 2 * IZR (2 ^ 60))%R = IZR (2 ^ 59)) by (change (2 ^ 60) with (2 * 2 ^ 59); rewrite mult_IZR; field).
    rewrite F59. assert (F59' : fl64 (IZR (2 ^ 59)) = IZR (2 ^ 59)) by (apply (fl64_dyadic 1 59); try lia; rewrite powerRZ_2 by lia; ring). rewrite F59'.
    assert (ER : rround (IZR (2 ^ 59)) = 2 ^ 59). { rewrite rround_pos by (apply IZR_le; lia). apply Int_part_unique. lra. }
    rewrite ER, Hm0. rewrite Rmult_plus_distr_r, F59.
    assert (Es : (small / 2 * IZR (2 ^ 60) = 32)%R). { unfold small. rewrite <- powerRZ_2 by lia. replace (powerRZ 2 (-54) / 2 * powerRZ 2 60)%R with (powerRZ 2 (-54) * powerRZ 2 60 / 2)%R by (field). rewrite <- p2_add. change (-54 + 60) with 6. rewrite powerRZ_2 by lia. change (2 ^ 6) with 64. lra. }
    rewrite Es. lra.
Qed.

(** ** Concrete cases: N = 2^13, q = 2^1200, Delta = 2^30, IEEE double precision, the constant polynomial 1, whose slots are all 1 *)
Definition one (i : Z) : R := if i =? 0 then 1%R else 0%R.
Lemma slot_one N j : 0 < N -> slot N one j = real 1.
Proof.
  intros HN. rewrite slot_eN by auto. rewrite (gsum_single (Clawful Rlawful) N 0); [|lia|].
  - rewrite Z.mul_0_r, eN_0. unfold one, real. apply RC_eq; cbn; ring.
  - intros i Hi Hne. unfold one. destruct (Z.eqb_spec i 0); [lia|]. apply RC_eq; cbn; ring.
Qed.
Lemma one_bound l n : (0 <= l)%Z -> 0 < n -> (modulus (mk Rops (one l) (one (l + n))) <= 1)%R.
Proof.
  intros Hl Hn. unfold one. destruct (Z.eqb_spec (l + n) 0); [lia|]. apply Rle_trans with (modulus (real (if l =? 0 then 1%R else 0%R))); [apply Req_le; reflexivity|]. rewrite modulus_real.
  destruct (l =? 0); rewrite Rabs_right by lra; lra.
Qed.
Lemma one_1000 : (0 <= 1 <= powerRZ 2 1000)%R.
Proof. split; [lra|]. apply (p2_le 0 1000). lia. Qed.
Example C81_example : exists st' z', f_fft F64 13 None (array (2 ^ 13) one) (gfresh R (2 ^ 12)) (gfresh R (2 ^ 12)) = Ok (st', carray (K := Rops) (2 ^ 12) z') /\
  forall j, 0 <= j < 2 ^ 12 -> (modulus (z' j - real 1)%num <= powerRZ 2 (-29))%R.
Proof.
  destruct (C81_fft_double F64 C87_binary64 13 ltac:(lia) None one 1 (gfresh R (2 ^ 12)) (gfresh R (2 ^ 12))) as (st' & z' & E & _ & Hz).
  - constructor.
  - apply repeat_length.
  - apply repeat_length.
  - exact one_1000.
  - intros l Hl. apply one_bound; lia.
  - exists st', z'. split; [exact E|]. intros j Hj. specialize (Hz j Hj). rewrite slot_one in Hz by lia. eapply Rle_trans; [exact Hz|]. change (2 ^ (13 - 1)) with (2 ^ 12). rewrite Rmult_1_r, <- powerRZ_2 by lia. rewrite <- p2_add.
    change (-42 + 12) with (-30). change (-29) with (-30 + 1). rewrite p2_add. change (powerRZ 2 1) with (2 * 1)%R. pose proof (p2_le (-1000) (-30) ltac:(lia)). lra.
Qed.
Example C82_example : exists st' m', f_ifft F64 13 None (fst (carray (2 ^ 12) (fun _ => real 1))) (snd (carray (2 ^ 12) (fun _ => real 1))) (gfresh R (2 ^ 13)) = Ok (st', array (2 ^ 13) m') /\
  forall i, 0 <= i < 2 ^ 13 -> (Rabs (m' i - one i) <= powerRZ 2 (-41))%R.
Proof.
  destruct (C82_ifft_double F64 C87_binary64 13 ltac:(lia) None (fun _ => real 1) one 1 (gfresh R (2 ^ 13))) as (st' & m' & E & _ & Hm).
  - constructor.
  - apply repeat_length.
  - exact one_1000.
  - intros j Hj. rewrite modulus_real, Rabs_right; lra.
  - intros j Hj. apply slot_one. lia.
  - exists st', m'. split; [exact E|]. intros i Hi. eapply Rle_trans; [apply Hm; auto|]. rewrite Rmult_1_r. change (-41) with (-42 + 1). rewrite p2_add. change (powerRZ 2 1) with (2 * 1)%R. pose proof (p2_le (-1000) (-42) ltac:(lia)). lra.
Qed.
(** the words of a polynomial not written yet *)
Definition blank : poly := repeat (repeat None (Z.to_nat 19)) (Z.to_nat (2 ^ 13)).
Lemma blank_object : objectP 1200 (2 ^ 13) blank.
Proof. split; [unfold blank; rewrite repeat_length; reflexivity|]. unfold blank. apply Forall_forall. intros x Hx. apply repeat_spec in Hx. subst x. reflexivity. Qed.
(** Encoding gives the exact polynomial 2^30. *)
Example C83_example : exists st' pt' c, f_encode F64 1200 13 None (fst (carray (2 ^ 12) (fun _ => real 1))) (snd (carray (2 ^ 12) (fun _ => real 1))) (2 ^ 30) blank = Ok (st', pt') /\
  holdsP 1200 (2 ^ 13) pt' c /\ forall i, 0 <= i < 2 ^ 13 -> c i = if i =? 0 then 2 ^ 30 else 0.
Proof.
  assert (N41 : (0 <= powerRZ 2 (-41) * (1 * IZR (2 ^ 30)) <= / 1024)%R). { rewrite Rmult_1_l. rewrite <- powerRZ_2 by lia. rewrite <- p2_add. apply p2_small. lia. }
  assert (N900 : (0 <= powerRZ 2 (-900) <= / 1024)%R) by (apply p2_small; lia).
  destruct (C83_encode_double F64 C87_binary64 1200 13 ltac:(lia) ltac:(lia) (2 ^ 30) None (fun _ => real 1) one 1 blank) as (st' & pt' & c & E & _ & Hc & Hm).
  - lia.
  - constructor.
  - apply blank_object.
  - lra.
  - intros j Hj. rewrite modulus_real, Rabs_right; lra.
  - intros j Hj. apply slot_one. lia.
  - change (2 ^ 64) with 18446744073709551616. change (2 ^ 30) with 1073741824 in *. lra.
  - apply Rlt_le_trans with (IZR (2 ^ 64)); [change (2 ^ 64) with 18446744073709551616; change (2 ^ 30) with 1073741824 in *; lra|]. apply IZR_le, Z.pow_le_mono_r; lia.
  - exists st', pt', c. split; [exact E|]. split; [exact Hc|]. intros i Hi. specialize (Hm i Hi).
    assert (H : (Rabs (IZR (c i) - one i * IZR (2 ^ 30)) < 1)%R) by lra.
    assert (Eo : (one i * IZR (2 ^ 30))%R = IZR (if i =? 0 then 2 ^ 30 else 0)) by (unfold one; destruct (i =? 0); ring).
    rewrite Eo, <- minus_IZR, <- abs_IZR in H. apply lt_IZR in H. lia.
Qed.
Example C84_example : exists st' z', f_decode F64 8 2 None pp 10 (gfresh R 2) (gfresh R 2) = Ok (st', carray (K := Rops) 2 z') /\
  forall j, 0 <= j < 2 -> (modulus (z' j - slots 4 10 cc j)%num <= powerRZ 2 (-38))%R.
Proof.
  destruct (C84_decode_double F64 C87_binary64 8 2 ltac:(lia) ltac:(lia) 10 None pp cc 1 (gfresh R 2) (gfresh R 2)) as (st' & z' & E & _ & Hz); try reflexivity.
  - lia.
  - constructor.
  - apply pp_signed.
  - intros i Hi. change (2 ^ 2) with 4 in Hi. assert (H4 : i = 0 \/ i = 1 \/ i = 2 \/ i = 3) by lia. apply Rabs_le.
    destruct H4 as [-> | [-> | [-> | ->]]]; repeat match goal with |- context [cc ?k] => let v := eval vm_compute in (cc k) in change (cc k) with v end; lra.
  - lra.
  - apply Rle_trans with (powerRZ 2 4); [rewrite powerRZ_2 by lia; change (2 ^ 4) with 16; lra|apply p2_le; lia].
  - exists st', z'. split; [exact E|]. intros j Hj. eapply Rle_trans; [apply Hz; exact Hj|]. change (2 ^ 2) with 4. rewrite Rmult_1_r. replace 4%R with (powerRZ 2 2) by (rewrite powerRZ_2 by lia; reflexivity). rewrite <- p2_add.
    change (-42 + 2) with (-40). change (-38) with (-40 + 2). rewrite p2_add. rewrite (powerRZ_2 2) by lia. change (2 ^ 2) with 4. pose proof (p2_le (-1000) (-40) ltac:(lia)). pose proof (p2_pos (-40)). lra.
Qed.
Example C85_example : exists st' z', f_decode_log F64 8 2 None pp 3 (gfresh R 2) (gfresh R 2) = Ok (st', carray (K := Rops) 2 z') /\
  forall j, 0 <= j < 2 -> (modulus (z' j - slots 4 (powerRZ 2 3) cc j)%num <= powerRZ 2 (-38))%R.
Proof.
  destruct (C85_decode_log_double F64 C87_binary64 8 2 ltac:(lia) ltac:(lia) 3 None pp cc 1 (gfresh R 2) (gfresh R 2)) as (st' & z' & E & _ & Hz); try reflexivity.
  - lia.
  - constructor.
  - apply pp_signed.
  - intros i Hi. change (2 ^ 2) with 4 in Hi. assert (H4 : i = 0 \/ i = 1 \/ i = 2 \/ i = 3) by lia. apply Rabs_le. rewrite powerRZ_2 by lia. change (2 ^ 3) with 8.
    destruct H4 as [-> | [-> | [-> | ->]]]; repeat match goal with |- context [cc ?k] => let v := eval vm_compute in (cc k) in change (cc k) with v end; lra.
  - split; [lra|]. apply (p2_le 0 900). lia.
  - exists st', z'. split; [exact E|]. intros j Hj. eapply Rle_trans; [apply Hz; exact Hj|]. change (2 ^ 2) with 4. rewrite Rmult_1_r. replace 4%R with (powerRZ 2 2) by (rewrite powerRZ_2 by lia; reflexivity). rewrite <- p2_add.
    change (-42 + 2) with (-40). change (-38) with (-40 + 2). rewrite p2_add. rewrite (powerRZ_2 2) by lia. change (2 ^ 2) with 4. pose proof (p2_le (-1000) (-40) ltac:(lia)). pose proof (p2_pos (-40)). lra.
Qed.
(** Encoding at scale 2^40 and decoding gives the slots back up to 2^-25. *)
Example C86_example : exists st' pt' st2' z', f_encode F64 1200 13 None (fst (carray (2 ^ 12) (fun _ => real 1))) (snd (carray (2 ^ 12) (fun _ => real 1))) (2 ^ 40) blank = Ok (st', pt') /\
  f_decode F64 1200 13 None pt' (2 ^ 40) (gfresh R (2 ^ 12)) (gfresh R (2 ^ 12)) = Ok (st2', carray (K := Rops) (2 ^ 12) z') /\
  forall j, 0 <= j < 2 ^ 12 -> (modulus (z' j - real 1)%num <= powerRZ 2 (-25))%R.
Proof.
  assert (N41 : (0 <= powerRZ 2 (-41) * (1 * IZR (2 ^ 40)) <= / 2)%R). { rewrite Rmult_1_l. rewrite <- powerRZ_2 by lia. rewrite <- p2_add. change (-41 + 40) with (-1). change (powerRZ 2 (-1)) with (/ (2 * 1))%R. lra. }
  destruct (C86_roundtrip_double F64 C87_binary64 1200 13 ltac:(lia) ltac:(lia) (2 ^ 40) None None (fun _ => real 1) one 1 blank (gfresh R (2 ^ 12)) (gfresh R (2 ^ 12))) as (st' & pt' & st2' & z' & E1 & E2 & _ & _ & Hz).
  - lia.
  - constructor.
  - constructor.
  - apply blank_object.
  - apply repeat_length.
  - apply repeat_length.
  - lra.
  - intros j Hj. rewrite modulus_real, Rabs_right; lra.
  - intros j Hj. apply slot_one. lia.
  - change (2 ^ 64) with 18446744073709551616. change (2 ^ 40) with 1099511627776 in *. lra.
  - apply Rlt_le_trans with (IZR (2 ^ 64)); [change (2 ^ 64) with 18446744073709551616; change (2 ^ 40) with 1099511627776 in *; lra|]. apply IZR_le, Z.pow_le_mono_r; lia.
  - exists st', pt', st2', z'. split; [exact E1|]. split; [exact E2|]. intros j Hj. eapply Rle_trans; [apply Hz; exact Hj|].
    assert (A1 : (IZR (2 ^ 13) / (2 * IZR (2 ^ 40)) = powerRZ 2 (-28))%R).
    { apply Rmult_eq_reg_r with (2 * IZR (2 ^ 40))%R; [|assert (0 < IZR (2 ^ 40))%R by (apply IZR_lt; lia); lra]. unfold Rdiv. rewrite Rmult_assoc, Rinv_l, Rmult_1_r by (assert (0 < IZR (2 ^ 40))%R by (apply IZR_lt; lia); lra).
      rewrite <- mult_IZR. change (2 * 2 ^ 40) with (2 ^ 41). rewrite <- !powerRZ_2 by lia. rewrite <- p2_add. reflexivity. }
    assert (A2 : (powerRZ 2 (-41) * (IZR (2 ^ 13) * (1 + 1)) = powerRZ 2 (-27))%R).
    { replace (IZR (2 ^ 13) * (1 + 1))%R with (IZR (2 ^ 14)) by (change (2 ^ 14) with (2 ^ 13 * 2); rewrite mult_IZR; ring). rewrite <- powerRZ_2 by lia. rewrite <- p2_add. reflexivity. }
    rewrite A1, A2. pose proof (p2_le (-28) (-27) ltac:(lia)). change (-25) with (-27 + 2). rewrite p2_add, (powerRZ_2 2) by lia. change (2 ^ 2) with 4. pose proof (p2_pos (-27)). lra.
Qed.
