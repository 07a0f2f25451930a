(** C91: the error of a sequence of matrix-vector products, theorem_serial_matmul_error.cpp. *)
From Coq Require Import ZArith List Bool Lia Reals Lra Ring Znumtheory.
From Verif Require Import Base BaseFacts Sums ZQ ZQFacts ZQFacts2 ZQFacts3 RQ RQFacts Conv ConvFacts Rot RotFacts Util UtilFacts GSum Matrix MatrixFacts MatMulFacts
  DFT DFTTheory DFTFacts FFTFacts PolyRing SpecZQ SpecPoly SpecPolyFacts SpecMat Properties_Mat Properties_Msg SpecDFT Properties_DFT SpecEnc SlotFacts
  GroupFacts Encode EncodeFacts Plain PlainFacts LinSlots BootFacts Properties_Conv Properties_Rot Properties_Enc Properties_Plain.
From Verif Require Import SpecBoot BootSlots Section3 SpecStat StatFacts Properties_Stat Properties_MatErr.
Import ListNotations.
Open Scope Z_scope.
Add Ring RCse : HR.

(** ** norms of vectors of complex numbers *)
Definition norm2 (n : Z) (x : Z -> CC) : R := sqrt (energy n x).
Lemma norm2_pos n x : (0 <= norm2 n x)%R.
Proof. apply sqrt_pos. Qed.
Lemma norm2_sq n x : (norm2 n x * norm2 n x = energy n x)%R.
Proof. apply sqrt_sqrt, energy_pos. Qed.
Lemma norm2_ext n (x y : Z -> CC) : (forall j, 0 <= j < n -> x j = y j) -> norm2 n x = norm2 n y.
Proof. intros H. unfold norm2. rewrite (energy_ext n x y H). reflexivity. Qed.
Lemma norm2_le n x c : (0 <= c)%R -> (energy n x <= c * c)%R -> (norm2 n x <= c)%R.
Proof. intros Hc H. unfold norm2. rewrite <- (sqrt_square c) by auto. apply sqrt_le_1_alt, H. Qed.

Lemma schwarz n (x y : Z -> R) : 0 <= n -> (rsum n (fun k => x k * y k) * rsum n (fun k => x k * y k) <= rsum n (fun k => x k * x k) * rsum n (fun k => y k * y k))%R.
Proof.
  intros Hn. set (X := fun n => rsum n (fun k => x k * x k)%R : R). set (Y := fun n => rsum n (fun k => y k * y k)%R : R). set (P := fun n => rsum n (fun k => x k * y k)%R : R).
  change (P n * P n <= X n * Y n)%R. assert (H : (P n * P n <= X n * Y n)%R /\ (0 <= X n)%R /\ (0 <= Y n)%R); [|apply H].
  apply (GSum.gsum_ind n (fun n => (P n * P n <= X n * Y n)%R /\ (0 <= X n)%R /\ (0 <= Y n)%R)); auto.
  - unfold P, X, Y. rewrite !gsum_0 by lia. cbn [o0 Rops]. lra.
  - intros m Hm (C & HX & HY). unfold P, X, Y in *. rewrite !gsum_S by lia. cbn [oadd Rops]. fold (P m) (X m) (Y m) in *.
    change (rsum m (fun k => x k * y k)%R) with (P m) in *. change (rsum m (fun k => x k * x k)%R) with (X m) in *. change (rsum m (fun k => y k * y k)%R) with (Y m) in *.
    set (p := P m) in *. set (A := X m) in *. set (B := Y m) in *. set (a := x m). set (b := y m). clearbody p A B a b.
    pose proof (Rle_0_sqr a) as Ha. pose proof (Rle_0_sqr b) as Hb. unfold Rsqr in *. split; [|lra].
    assert (K : (2 * p * (a * b) <= A * (b * b) + B * (a * a))%R).
    { assert (S0 : (0 <= A * (b * b) + B * (a * a))%R) by (apply Rplus_le_le_0_compat; apply Rmult_le_pos; auto).
      destruct (Rle_or_lt (2 * p * (a * b)) 0) as [Hneg|Hpos]; [lra|].
      apply Rsqr_incr_0; try lra. unfold Rsqr.
      apply Rle_trans with (4 * (A * B) * ((a * a) * (b * b)))%R.
      - replace (2 * p * (a * b) * (2 * p * (a * b)))%R with (4 * (p * p) * ((a * a) * (b * b)))%R by ring. apply Rmult_le_compat_r; [apply Rmult_le_pos; auto|lra].
      - pose proof (Rle_0_sqr (A * (b * b) - B * (a * a))) as Q. unfold Rsqr in Q. lra. }
    lra.
Qed.
Lemma norm2_triangle n (x y : Z -> CC) : 0 <= n -> (norm2 n (fun j => x j + y j)%num <= norm2 n x + norm2 n y)%R.
Proof.
  intros Hn. pose proof (norm2_pos n x) as Hx. pose proof (norm2_pos n y) as Hy. apply norm2_le; [lra|].
  pose proof (schwarz n (fun j => modulus (x j)) (fun j => modulus (y j)) Hn) as S. cbv beta in S.
  set (P := rsum n (fun j => modulus (x j) * modulus (y j))%R : R) in *.
  assert (HP : (P <= norm2 n x * norm2 n y)%R).
  { apply Rsqr_incr_0_var; [|apply Rmult_le_pos; auto]. unfold Rsqr.
    replace (norm2 n x * norm2 n y * (norm2 n x * norm2 n y))%R with ((norm2 n x * norm2 n x) * (norm2 n y * norm2 n y))%R by ring. rewrite !norm2_sq. exact S. }
  apply Rle_trans with (energy n x + 2 * P + energy n y)%R.
  - unfold energy, P. rewrite <- rsum_scale, <- !rsum_add. apply rsum_le. intros j Hj. pose proof (modulus_add (x j) (y j)) as T. pose proof (modulus_nonneg (x j + y j)%num) as T0.
    set (u := modulus (x j + y j)%num) in *. set (a := modulus (x j)) in *. set (b := modulus (y j)) in *. clearbody u a b.
    apply Rle_trans with ((a + b) * (a + b))%R; [apply Rmult_le_compat; lra|right; ring].
  - rewrite <- (norm2_sq n x), <- (norm2_sq n y). lra.
Qed.
(** a vector bounded by the sum of S rotated copies of another one *)
Lemma norm2_rotated n S o (x e : Z -> CC) c : 0 < n -> 0 <= S -> (0 <= c)%R ->
  (forall j, 0 <= j < n -> (modulus (e j) <= rsum S (fun s => c * modulus (x ((j + o s) mod n))))%R) -> (norm2 n e <= IZR S * c * norm2 n x)%R.
Proof.
  intros Hn HS Hc H. assert (HSR : (0 <= IZR S)%R) by (apply IZR_le; auto). pose proof (norm2_pos n x) as Hx.
  apply norm2_le; [apply Rmult_le_pos; auto; apply Rmult_le_pos; auto|].
  replace (IZR S * c * norm2 n x * (IZR S * c * norm2 n x))%R with (IZR S * (c * c) * (IZR S * (norm2 n x * norm2 n x)))%R by ring. rewrite norm2_sq.
  rewrite <- (rsum_const S (energy n x)) by auto.
  apply Rle_trans with (rsum n (fun j => IZR S * (c * c) * rsum S (fun s => modulus (x ((j + o s) mod n)) * modulus (x ((j + o s) mod n)))))%R.
  - apply rsum_le. intros j Hj. specialize (H j Hj). rewrite rsum_scale in H. pose proof (cauchy S (fun s => modulus (x ((j + o s) mod n))) HS) as C. cbv beta in C.
    pose proof (modulus_nonneg (e j)) as M0. set (u := modulus (e j)) in *. set (t := rsum S (fun s => modulus (x ((j + o s) mod n))) : R) in *.
    set (q := rsum S (fun s => modulus (x ((j + o s) mod n)) * modulus (x ((j + o s) mod n)))%R : R) in *. clearbody u t q.
    apply Rle_trans with ((c * t) * (c * t))%R; [apply Rmult_le_compat; auto|].
    replace (c * t * (c * t))%R with (c * c * (t * t))%R by ring. replace (IZR S * (c * c) * q)%R with (c * c * (IZR S * q))%R by ring. apply Rmult_le_compat_l; auto. nra.
  - rewrite rsum_scale. right. apply f_equal. etransitivity; [apply rsum_swap|]. apply rsum_ext. intros s Hs. apply (energy_shift n (o s) x Hn).
Qed.

(** ** the stages *)
Lemma energy_cre n (x : Z -> RC) : energy n x = cre Rops (gsum n (fun j => x j * cconj Rops (x j))%num).
Proof.
  assert (G : forall f : Z -> RC, cre Rops (gsum (K := RC) n f) = gsum (K := Rops) n (fun i => cre Rops (f i))).
  { intros f. unfold gsum. induction (Z.to_nat n) as [|k IH]; [reflexivity|]. cbn [sumn]. rewrite <- IH. reflexivity. }
  rewrite G. apply rsum_ext. intros j Hj. rewrite modulus_square. unfold cre, cim. cbn. match goal with |- @eq _ ?x ?y => change (@eq R x y) end. ring.
Qed.
Lemma istage_energy M c (w x : Z -> RC) : 0 < M -> 0 <= c -> unitary M w -> energy (2 * M * c) (istage M w x) = (2 * energy (2 * M * c) x)%R.
Proof.
  intros HM Hc Hw. rewrite !energy_cre. rewrite <- (stage_adjoint Rlawful) by auto.
  rewrite (gsum_ext (K := RC) _ _ (fun j => (1 + 1) * (x j * cconj Rops (x j)))%num) by (intros j Hj; rewrite (stage_istage Rlawful) by auto; ring).
  rewrite (gsum_scale HC). unfold cre. cbn. match goal with |- @eq _ ?x ?y => change (@eq R x y) end. ring.
Qed.

(** Stage d of the inverse transform on n = 2^(LOGN-1) numbers, with M = 2^(LOGN-2-d): in each block of 2M numbers, x_j and x_{j+M} become
    x_j + x_{j+M} and w (x_j - x_{j+M}), where w is the conjugate of a power of the root of unity exp(i pi / N).  The three diagonals of its matrix and
    their offsets (for d = 0 the offsets M and n - M are the same, and the second diagonal takes the place of the third): *)
Definition stage_offset (LOGN d t : Z) : Z := if t =? 0 then 0 else if t =? 1 then 2 ^ (LOGN - 1) - 2 ^ (LOGN - 2 - d) else 2 ^ (LOGN - 2 - d).
Definition stage_diagonal (LOGN d t j : Z) : CC :=
  let M := 2 ^ (LOGN - 2 - d) in
  let a := (PI * IZR (2 ^ d * 5 ^ (j mod M)) / IZR (2 ^ LOGN))%R in
  let w := mk Rops (cos a) (- sin a)%R in
  if j mod (2 * M) <? M then (if t =? (if d =? 0 then 1 else 2) then 1%num else if t =? 0 then 1%num else 0%num)
  else if t =? 0 then (- w)%num else if t =? 1 then w else 0%num.

Section Serial.
Context (LOGQ LOGN : Z) (HQ : widths LOGQ) (HL : 2 <= LOGN <= 17).
Let N := 2 ^ LOGN.
Let n := 2 ^ (LOGN - 1).
Notation HL' := (HL' LOGN HL).
Context (LD : Z) (HLD : 0 <= LD <= 63).
Let Delta := 2 ^ LD.
Notation Md := (Md LOGN). Notation csd := (csd LOGN). Notation snd_ := (snd_ LOGN).
(** the diagonals of stage d, their offsets and the matrix *)
Definition uA (d t j : Z) : CC := bA n (Md d) (2 ^ d) (csd d) (snd_ d) t j.
Definition uo (d : Z) : Z -> Z := tr_off n (o3 n (Md d)).
Definition uM (d : Z) : Z -> Z -> CC := matrix_of n 3 (uA d) (uo d).
Lemma unit_d d i : (csd d i * csd d i + snd_ d i * snd_ d i = 1)%R.
Proof. apply cs_unit. Qed.
Lemma stage_shape d : 0 <= d < LOGN - 1 -> 0 < Md d /\ 0 < 2 ^ d /\ n = 2 * Md d * 2 ^ d.
Proof. intros Hd. split; [apply Md_pos; auto|]. split; [apply Z.pow_pos_nonneg; lia|apply (n_Md LOGN d Hd)]. Qed.
Lemma uA_small d t j : 0 <= d < LOGN - 1 -> 0 <= t < 3 -> (modulus (uA d t j) <= 1)%R.
Proof.
  intros Hd Ht. destruct (stage_shape d Hd) as (H1 & H2 & H3). unfold uA. rewrite bA_idx. apply fA_entry; auto. apply unit_d.
Qed.
Lemma uo_pos d t : 0 <= d < LOGN - 1 -> 0 <= t < 3 -> 0 <= uo d t.
Proof. intros Hd Ht. destruct (stage_shape d Hd) as (H1 & H2 & H3). apply (tr_offs n (Md d) (2 ^ d)); auto. Qed.
Lemma uM_norm d x : 0 <= d < LOGN - 1 -> norm2 n (apply n (uM d) x) = (sqrt 2 * norm2 n x)%R.
Proof.
  intros Hd. destruct (stage_shape d Hd) as (H1 & H2 & H3). unfold norm2. rewrite <- sqrt_mult_alt by lra. apply f_equal.
  transitivity (energy n (istage (Md d) (fun i => mk Rops (csd d i) (snd_ d i)) x)).
  { apply energy_ext. intros j Hj. exact (bA_apply n (Md d) (2 ^ d) H1 H2 H3 (csd d) (snd_ d) x j Hj). }
  clear - H1 H2 H3. generalize dependent n. intros n' ->. apply istage_energy; auto; [lia|]. intros i Hi. pose proof (unit_d d i). apply RC_eq; cbn; [|ring]. lra.
Qed.

Lemma uo_offset d t : 0 <= d < LOGN - 1 -> 0 <= t < 3 -> uo d t = stage_offset LOGN d t.
Proof.
  intros Hd Ht. destruct (stage_shape d Hd) as (H1 & H2 & H3). unfold uo, tr_off, o3, stage_offset. fold n. replace (2 ^ (LOGN - 2 - d)) with (Md d) by (unfold FFTFacts.Md; f_equal; lia).
  destruct (Z.eqb_spec t 0); [reflexivity|]. destruct (Z.eqb_spec t 1).
  - destruct (Z.gtb_spec (Md d) 0); lia.
  - destruct (Z.gtb_spec (n - Md d) 0); [lia|nia].
Qed.
Lemma uA_diagonal d t j : 0 <= d < LOGN - 1 -> 0 <= t < 3 -> 0 <= j < n -> uA d t j = stage_diagonal LOGN d t j.
Proof.
  intros Hd Ht Hj. destruct (stage_shape d Hd) as (H1 & H2 & H3). set (c := 2 ^ d) in *.
  assert (Hc : (c =? 1) = (d =? 0)).
  { unfold c. destruct (Z.eqb_spec d 0) as [->|Hd0]; [reflexivity|]. apply Z.eqb_neq. assert (2 ^ 1 <= 2 ^ d) by (apply Z.pow_le_mono_r; lia). lia. }
  unfold stage_diagonal. replace (2 ^ (LOGN - 2 - d)) with (Md d) by (unfold FFTFacts.Md; f_equal; lia). cbv zeta. fold c.
  unfold uA, bA, TR, TI, tr_vec, VR, VI. fold c. set (M := Md d) in *.
  assert (Hlow : j mod (2 * M) < M -> (j + M) mod (2 * M) = j mod (2 * M) + M).
  { intros Hl. pose proof (Z.mod_pos_bound j (2 * M) ltac:(lia)). pose proof (Z.div_mod j (2 * M) ltac:(lia)). symmetry. apply Z.mod_unique with (j / (2 * M)); lia. }
  assert (Hhigh : M <= j mod (2 * M) -> (j - M) mod (2 * M) = j mod (2 * M) - M).
  { intros Hl. pose proof (Z.mod_pos_bound j (2 * M) ltac:(lia)). pose proof (Z.div_mod j (2 * M) ltac:(lia)). symmetry. apply Z.mod_unique with (j / (2 * M)); lia. }
  assert (Hm2 : forall x, (x mod n) mod (2 * M) = x mod (2 * M)) by (intros x; rewrite H3; apply mod_mod_mul; lia).
  assert (Hm1 : forall x, (x mod n) mod M = x mod M) by (intros x; rewrite H3; replace (2 * M * c) with (M * (2 * c)) by ring; apply mod_mod_mul; lia).
  assert (Hcs : csd d (j mod M) = cos (PI * IZR (c * 5 ^ (j mod M)) / IZR (2 ^ LOGN))).
  { unfold FFTFacts.csd, cosN. replace (2 * 2 ^ (LOGN - 1)) with (2 ^ LOGN) by (rewrite <- Z.pow_succ_r by lia; f_equal; lia). apply f_equal. fold c. unfold Rdiv. ring. }
  assert (Hsn : snd_ d (j mod M) = sin (PI * IZR (c * 5 ^ (j mod M)) / IZR (2 ^ LOGN))).
  { unfold FFTFacts.snd_, sinN. replace (2 * 2 ^ (LOGN - 1)) with (2 ^ LOGN) by (rewrite <- Z.pow_succ_r by lia; f_equal; lia). apply f_equal. fold c. unfold Rdiv. ring. }
  rewrite <- Hcs, <- Hsn.
  assert (HjM : (j - M) mod M = j mod M) by (replace (j - M) with (j + (-1) * M) by ring; apply Z.mod_add; lia).
  assert (HjM' : (j - (n - M)) mod M = j mod M) by (rewrite H3; replace (j - (2 * M * c - M)) with (j + (1 - 2 * c) * M) by ring; apply Z.mod_add; lia).
  assert (Hn1 : (j - (n - M)) mod (2 * M) = (j + M) mod (2 * M)) by (rewrite H3; replace (j - (2 * M * c - M)) with (j + M + (- c) * (2 * M)) by ring; apply Z.mod_add; lia).
  unfold o3, sH. rewrite Hc.
  destruct (Z.eq_dec t 0) as [->|]; [|destruct (Z.eq_dec t 1) as [->|]; [|replace t with 2 by lia]].
  - change (0 =? 0) with true. change (0 >? 0) with false. change (0 =? 1) with false. cbv iota. destruct (Z.ltb_spec (j mod (2 * M)) M).
    + destruct (d =? 0); apply RC_eq; cbn; ring.
    + apply RC_eq; cbn; ring.
  - change (1 =? 0) with false. change (1 =? 1) with true. cbv iota. destruct (Z.gtb_spec M 0); [|lia]. rewrite Hm2, Hm1, HjM.
    destruct (Z.ltb_spec (j mod (2 * M)) M) as [Hl|Hl].
    + assert (E : (j - M) mod (2 * M) = j mod (2 * M) + M).
      { replace (j - M) with (j + M + (-1) * (2 * M)) by ring. rewrite Z.mod_add by lia. auto. }
      rewrite E. pose proof (Z.mod_pos_bound j (2 * M) ltac:(lia)). destruct (Z.ltb_spec (j mod (2 * M) + M) M); [lia|].
      destruct (d =? 0); apply RC_eq; cbn; ring.
    + rewrite (Hhigh Hl). pose proof (Z.mod_pos_bound j (2 * M) ltac:(lia)). destruct (Z.ltb_spec (j mod (2 * M) - M) M); [|lia]. apply RC_eq; cbn; ring.
  - change (2 =? 0) with false. change (2 =? 1) with false. cbv iota. destruct (Z.gtb_spec (n - M) 0); [|nia]. rewrite Hm2, Hn1.
    pose proof (Z.mod_pos_bound j (2 * M) ltac:(lia)).
    destruct (Z.ltb_spec (j mod (2 * M)) M) as [Hl|Hl].
    + rewrite (Hlow Hl). destruct (Z.ltb_spec (j mod (2 * M) + M) M); [lia|]. destruct (d =? 0); apply RC_eq; cbn; ring.
    + assert (E : (j + M) mod (2 * M) = j mod (2 * M) - M).
      { replace (j + M) with (j - M + 1 * (2 * M)) by ring. rewrite Z.mod_add by lia. auto. }
      rewrite E. destruct (Z.ltb_spec (j mod (2 * M) - M) M); [|lia]. apply RC_eq; cbn; ring.
Qed.

(** one product of a message *)
Lemma stage_msg d (x : Z -> CC) p : 0 <= d < LOGN - 1 -> carray_of (K := Rops) n p ->
  exists a b, lget (fst (bwd_tables LOGN)) d = Ok a /\ lget (snd (bwd_tables LOGN)) d = Ok b /\
    a = diagonals n 3 (fun t j => cre Rops (uA d t j)) (uo d) (zR (2 ^ d)) /\ b = diagonals n 3 (fun t j => cim Rops (uA d t j)) (uo d) zI /\
    msg_mvp (K := Rops) n 3 (carray n x) a b p = Ok (carray n (apply n (uM d) x)).
Proof.
  intros Hd Hp. destruct (stage_shape d Hd) as (H1 & H2 & H3). pose proof (n_pos LOGN HL') as Hn. fold n in Hn.
  do 2 eexists. unfold bwd_tables. cbn [fst snd]. rewrite !lget_tab by auto. split; [reflexivity|]. split; [reflexivity|]. rewrite !diagonals_sdi. split; [reflexivity|]. split; [reflexivity|].
  pose proof (C50_msg_mvp Rlawful n 3 x (fun t j => cre Rops (uA d t j)) (fun t j => cim Rops (uA d t j)) (uo d) (uo d) (zR (2 ^ d)) zI p) as E.
  rewrite !diagonals_sdi in E. etransitivity; [apply E; auto|].
  - change (2 ^ 30) with 1073741824. change (2 ^ 26) with 67108864 in Hn. lia.
  - lia.
  - intros t Ht. pose proof (bA_flags n (Md d) (2 ^ d) H1 H2 H3 (csd d) (snd_ d) 1 t Ht) as F. cbv beta in F. unfold uA, uo. destruct (zR (2 ^ d) t && zI t); auto.
    intros i Hi. specialize (F i Hi). rewrite !Rmult_1_r in F. exact F.
  - f_equal. apply carray_ext. intros i Hi. unfold apply. apply gsum_ext. intros j Hj. f_equal. apply GroupFacts.cmat_of.
Qed.

(** one product of a plaintext *)
Lemma stage_pt d (v : Z -> Z -> R) (a : Z -> Z) B st pt : (forall t j, 0 <= t < 3 -> 0 <= j < n -> slot N (v t) j = uA d t j) -> 0 <= d < LOGN - 1 -> 1 <= B -> (forall i, 0 <= i < N -> Z.abs (a i) <= B) -> 3 * (N * ((Delta + 1) * B)) < 2 ^ (LOGQ - 1) ->
  ifft_static LOGN st -> objP LOGQ N pt ->
  exists st' r, pt_mvp3 LOGQ LOGN st (repP LOGQ N a) (diagonals n 3 (fun t j => cre Rops (uA d t j)) (uo d) (zR (2 ^ d)))
      (diagonals n 3 (fun t j => cim Rops (uA d t j)) (uo d) zI) Delta pt = Ok (st', repP LOGQ N r) /\ ifft_static LOGN st' /\
    (forall i, 0 <= i < N -> Z.abs (r i) <= 3 * (N * ((Delta + 1) * B))) /\
    (forall j, 0 <= j < n -> slot N (zs r) j = gsum 3 (fun k => (slot N (fun i => IZR (rround (v k i * IZR Delta))) j * slot N (zs a) ((j + uo d k) mod n))%num)) /\
    forall D0, 0 < D0 -> (norm2 n (fun j => slots N (IZR (Delta * D0)) r j - apply n (uM d) (slots N (IZR D0) a) j)%num
      <= 3 * (IZR N / (2 * IZR Delta)) * norm2 n (slots N (IZR D0) a))%R.
Proof.
  intros Hv Hd HB Ha Hsz Hst Hpt. pose proof (delta_word LD HLD) as HDw. fold Delta in HDw. pose proof (HN3 LOGN HL') as HN. pose proof (Hn3 LOGN HL') as Hn. fold N in HN. fold n in Hn.
  assert (HQ1 : 1 <= LOGQ) by (unfold widths in HQ; lia). assert (H63 : 2 ^ 63 < 2 ^ 64) by (apply Z.pow_lt_mono_r; lia).
  assert (HDR : (1 <= IZR Delta)%R) by (apply IZR_le; lia).
  assert (HvB : forall k i, 0 <= k < 3 -> 0 <= i < N -> (Rabs (v k i) * IZR Delta < IZR (Delta + 1) - / 2)%R).
  { intros k i Hk Hi. rewrite plus_IZR. assert (Rabs (v k i) <= 1)%R; [|nra].
    apply (coef_slots LOGN (v k) 1 HL'); [|exact Hi]. intros j Hj. fold n in Hj. fold N. rewrite Hv by auto. apply uA_small; auto. }
  destruct (mvp_loop LOGQ LOGN HQ HL 3 Delta B (Delta + 1) ltac:(lia) ltac:(lia) HB ltac:(lia) (uA d) v (uo d) a (fun s Hs => uo_pos d s Hd Hs) Hv HvB Ha Hsz st pt Hst)
    as (st' & r & E & Hst' & Hr & Hs). { apply objP_object; [lia|fold N; lia|exact Hpt]. }
  fold N n in E, Hr, Hs. exists st', r. split; [|split; [exact Hst'|split; [exact Hr|split; [exact Hs|]]]].
  - unfold pt_mvp3. fold N. rewrite rq_setzero_ok by (try lia; exact Hpt). cbn [bind].
    rewrite <- E. apply f_equal2; [|reflexivity]. apply for_ext. intros k [[[[st1 v1] ro] cv] az] Hk.
    rewrite !diagonals_sdi, !get_off_sdi by auto. cbn [bind]. rewrite Z.eqb_refl. cbn [assert_ bind].
    unfold sdi, carray; cbn [vec fst snd]. rewrite !lget_tab by auto. cbn [bind]. rewrite !array_gtab. reflexivity.
  - intros D0 HD0. apply (norm2_rotated n 3 (uo d) (slots N (IZR D0) a)); auto; [lia| |].
    + apply Rlt_le, Rdiv_lt_0_compat; [apply IZR_lt; auto|lra].
    + intros j Hj. unfold uM. pose proof (apply_offsets LOGQ LOGN HL 3 (uA d) (uo d) (slots N (IZR D0) a) j Hj) as Ea. fold n in Ea.
      match goal with |- (modulus (?x - ?y)%num <= _)%R => assert (Ey : y = gsum 3 (fun k => (uA d k j * slots N (IZR D0) a ((j + uo d k) mod n))%num)) by exact Ea; rewrite Ey end.
      apply (mvp_error LOGQ LOGN HL 3 Delta ltac:(lia) ltac:(lia) (uA d) v (uo d) a Hv r D0 j HD0 Hj Hs).
Qed.

(** the exact products *)
Fixpoint uz (z : Z -> CC) (k : nat) : Z -> CC := match k with O => z | S k => apply n (uM (Z.of_nat k)) (uz z k) end.
Definition growth : R := (3 * (IZR N / (2 * IZR Delta)))%R.
Lemma growth_pos : (0 < growth)%R.
Proof.
  pose proof (delta_word LD HLD) as HDw. fold Delta in HDw. pose proof (HN3 LOGN HL') as HN. fold N in HN. unfold growth.
  apply Rmult_lt_0_compat; [lra|]. apply Rdiv_lt_0_compat; [apply IZR_lt; auto|]. assert (1 <= IZR Delta)%R by (apply IZR_le; lia). lra.
Qed.
Lemma apply_minus d (x y : Z -> CC) j : (apply n (uM d) x j - apply n (uM d) y j)%num = apply n (uM d) (fun j => (x j - y j)%num) j.
Proof. unfold apply. rewrite <- (gsum_sub HC). apply (gsum_ext (K := RC)). intros k Hk. ring. Qed.

(** a plaintext within the bounds after k products *)
Definition near (z : Z -> CC) (k : nat) (a : Z -> Z) : Prop :=
  (forall i, 0 <= i < N -> Z.abs (a i) <= Delta * (3 * N * (Delta + 1)) ^ Z.of_nat k) /\
  (norm2 n (slots N (IZR (Delta ^ (Z.of_nat k + 1))) a) <= (sqrt 2 + growth) ^ k * norm2 n z)%R /\
  (norm2 n (fun j => slots N (IZR (Delta ^ (Z.of_nat k + 1))) a j - uz z k j)%num <= ((sqrt 2 + growth) ^ k - sqrt 2 ^ k) * norm2 n z)%R.
Lemma near_step z k v a st pt : (forall t j, 0 <= t < 3 -> 0 <= j < n -> slot N (v t) j = uA (Z.of_nat k) t j) -> Z.of_nat k < LOGN - 1 -> Delta * (3 * N * (Delta + 1)) ^ (Z.of_nat k + 1) < 2 ^ (LOGQ - 1) -> near z k a -> ifft_static LOGN st -> objP LOGQ N pt ->
  exists st' r, pt_mvp3 LOGQ LOGN st (repP LOGQ N a) (diagonals n 3 (fun t j => cre Rops (uA (Z.of_nat k) t j)) (uo (Z.of_nat k)) (zR (2 ^ Z.of_nat k)))
      (diagonals n 3 (fun t j => cim Rops (uA (Z.of_nat k) t j)) (uo (Z.of_nat k)) zI) Delta pt = Ok (st', repP LOGQ N r) /\ ifft_static LOGN st' /\ near z (S k) r /\
    (forall j, 0 <= j < n -> slot N (zs r) j = gsum 3 (fun t => (slot N (fun i => IZR (rround (v t i * IZR Delta))) j * slot N (zs a) ((j + uo (Z.of_nat k) t) mod n))%num)).
Proof.
  intros Hv Hk Hsz (Ha & Hn1 & Hn2) Hst Hpt. pose proof (delta_word LD HLD) as HDw. fold Delta in HDw. pose proof (HN3 LOGN HL') as HN. pose proof (Hn3 LOGN HL') as Hn. fold N in HN. fold n in Hn.
  set (B := Delta * (3 * N * (Delta + 1)) ^ Z.of_nat k) in *. assert (HG : 0 < (3 * N * (Delta + 1)) ^ Z.of_nat k) by (apply Z.pow_pos_nonneg; nia).
  assert (HB1 : 1 <= B) by (unfold B; nia). assert (EB : 3 * (N * ((Delta + 1) * B)) = Delta * (3 * N * (Delta + 1)) ^ (Z.of_nat k + 1)).
  { unfold B. rewrite Z.pow_add_r, Z.pow_1_r by lia. ring. }
  destruct (stage_pt (Z.of_nat k) v a B st pt Hv ltac:(lia) HB1 Ha ltac:(lia) Hst Hpt) as (st' & r & E & Hst' & Hr & Hsr & He). exists st', r. split; [exact E|]. split; [exact Hst'|].
  split; [|exact Hsr].
  pose proof growth_pos as Hg. pose proof (sqrt_pos 2) as Hs2. pose proof (norm2_pos n z) as Hz.
  assert (HD0 : 0 < Delta ^ (Z.of_nat k + 1)) by (apply Z.pow_pos_nonneg; lia).
  specialize (He _ HD0). fold growth in He. set (w := slots N (IZR (Delta ^ (Z.of_nat k + 1))) a) in *.
  assert (ED : Delta * Delta ^ (Z.of_nat k + 1) = Delta ^ (Z.of_nat (S k) + 1)). { rewrite Nat2Z.inj_succ, (Z.pow_add_r _ (Z.succ _)), Z.pow_succ_r, Z.pow_add_r by lia. ring. }
  rewrite ED in He. set (w' := slots N (IZR (Delta ^ (Z.of_nat (S k) + 1))) r) in *. unfold near. fold w'.
  assert (Hu : norm2 n (apply n (uM (Z.of_nat k)) w) = (sqrt 2 * norm2 n w)%R) by (apply uM_norm; lia).
  split; [|split].
  - intros i Hi. specialize (Hr i Hi). rewrite EB in Hr. rewrite Nat2Z.inj_succ. exact Hr.
  - apply Rle_trans with (norm2 n (fun j => (w' j - apply n (uM (Z.of_nat k)) w j) + apply n (uM (Z.of_nat k)) w j)%num).
    { right. apply norm2_ext. intros j Hj. ring. }
    eapply Rle_trans; [apply norm2_triangle; lia|]. rewrite Hu. cbn [pow].
    apply Rle_trans with ((sqrt 2 + growth) * norm2 n w)%R; [lra|]. rewrite Rmult_assoc. apply Rmult_le_compat_l; [lra|exact Hn1].
  - cbn [uz pow]. set (u := uz z k) in *.
    apply Rle_trans with (norm2 n (fun j => (w' j - apply n (uM (Z.of_nat k)) w j) + apply n (uM (Z.of_nat k)) (fun j => (w j - u j)%num) j)%num).
    { right. apply norm2_ext. intros j Hj. rewrite <- apply_minus. ring. }
    eapply Rle_trans; [apply norm2_triangle; lia|].
    assert (Hu2 : norm2 n (apply n (uM (Z.of_nat k)) (fun j => (w j - u j)%num)) = (sqrt 2 * norm2 n (fun j => (w j - u j)%num))%R) by (apply uM_norm; lia).
    rewrite Hu2. set (A := ((sqrt 2 + growth) ^ k)%R) in *. set (C := (sqrt 2 ^ k)%R) in *.
    assert (F1 : (growth * norm2 n w <= growth * (A * norm2 n z))%R) by (apply Rmult_le_compat_l; lra).
    assert (F2 : (sqrt 2 * norm2 n (fun j => (w j - u j)%num) <= sqrt 2 * ((A - C) * norm2 n z))%R) by (apply Rmult_le_compat_l; auto).
    apply Rle_trans with (growth * (A * norm2 n z) + sqrt 2 * ((A - C) * norm2 n z))%R; [lra|]. right. ring.
Qed.

(** the exact products of a plaintext *)
Lemma uz_hb z k j : (k <= Z.to_nat (LOGN - 1))%nat -> 0 <= j < n -> uz z k j = hb LOGN k z j.
Proof.
  revert j. induction k as [|k IH]; intros j Hk Hj; [reflexivity|]. cbn [uz hb]. destruct (stage_shape (Z.of_nat k) ltac:(lia)) as (H1 & H2 & H3).
  transitivity (istage (Md (Z.of_nat k)) (fun i => mk Rops (csd (Z.of_nat k) i) (snd_ (Z.of_nat k) i)) (uz z k) j).
  { exact (bA_apply n (Md (Z.of_nat k)) (2 ^ Z.of_nat k) H1 H2 H3 (csd (Z.of_nat k)) (snd_ (Z.of_nat k)) (uz z k) j Hj). }
  replace (2 ^ Z.of_nat (Z.to_nat (LOGN - 1) - 1 - k)) with (Md (Z.of_nat k)) by (unfold FFTFacts.Md; f_equal; lia).
  unfold istage. set (M := Md (Z.of_nat k)) in *. pose proof (tw_d LOGN HL' (Z.of_nat k) (j mod M) ltac:(lia)) as T.
  replace (Z.to_nat (LOGN - 2 - Z.of_nat k)) with (Z.to_nat (LOGN - 1) - 1 - k)%nat in T by lia. rewrite T.
  destruct (Z.ltb_spec (j mod (2 * M)) M) as [Hl|Hl].
  - pose proof (pos_low n M (2 ^ Z.of_nat k) H1 H2 H3 j Hj Hl). rewrite !IH by lia. reflexivity.
  - pose proof (Z.mod_le j (2 * M) ltac:(lia) ltac:(lia)). rewrite !IH by lia. reflexivity.
Qed.
Lemma uz_slots (p : Z -> R) j r : 0 <= j < n -> reverses (LOGN - 1) j r ->
  uz (slot N p) (Z.to_nat (LOGN - 1)) j = mk Rops (IZR n * p r)%R (IZR n * p (r + n)%Z)%R.
Proof.
  intros Hj Hr. rewrite uz_hb by (auto; lia).
  pose proof (hb_bwd LOGN HL' (Z.to_nat (LOGN - 1)) (slot N p) (Nat.le_refl _)) as B. rewrite Nat.sub_diag in B. cbn [bwd] in B. rewrite B.
  pose proof (bwd_slots LOGN HL' (slot N p) p j (fun p _ => eq_refl) Hj) as E. rewrite E.
  apply reverses_brv in Hr; [|lia]. rewrite Hr. unfold fold_c. fold n. set (x := p _). set (y := p _). apply RC_eq; cbn; ring.
Qed.

Lemma pow_diff a c k : (0 <= a)%R -> (0 <= c)%R -> ((a + c) ^ S k - a ^ S k <= INR (S k) * c * (a + c) ^ k)%R.
Proof.
  intros Ha Hc. induction k as [|k IH]; [cbn; lra|]. rewrite (S_INR (S k)). set (m := INR (S k)) in *.
  change ((a + c) ^ S (S k))%R with ((a + c) * (a + c) ^ S k)%R. change (a ^ S (S k))%R with (a * a ^ S k)%R.
  assert (H1 : (a * ((a + c) ^ S k - a ^ S k) <= a * (m * c * (a + c) ^ k))%R) by (apply Rmult_le_compat_l; auto).
  assert (H2 : (a * (m * c * (a + c) ^ k) <= m * c * (a + c) ^ S k)%R).
  { cbn [pow]. assert (0 <= (a + c) ^ k)%R by (apply pow_le; lra). assert (0 <= m)%R by (unfold m; apply pos_INR). assert (0 <= m * c * (a + c) ^ k)%R by (apply Rmult_le_pos; auto; apply Rmult_le_pos; auto). nra. }
  set (x := ((a + c) ^ S k)%R) in *. set (y := (a ^ S k)%R) in *. clearbody x y. lra.
Qed.

(** ** C91: theorem_serial_matmul_error.cpp.  The second number printed is [bound].  The number measured is the distance between the coefficients of the
    rounded message, in bit-reversed order and times n, and the slots of the plaintext made by LOGN - 1 products with rounded diagonals. *)
Theorem C91_serial_matmul_max st st2 (z : Z -> CC) m (v : Z -> Z -> Z -> R) (rev : Z -> Z) : Delta * (3 * N * (Delta + 1)) ^ (LOGN - 1) < 2 ^ (LOGQ - 1) -> ifft_static LOGN st -> fft_static LOGN st2 ->
  (forall j, 0 <= j < n -> (modulus (z j) <= 1)%R) -> (forall j, 0 <= j < n -> slot N m j = z j) ->
  (forall d t j, 0 <= d < LOGN - 1 -> 0 <= t < 3 -> 0 <= j < n -> slot N (v d t) j = stage_diagonal LOGN d t j) -> (forall j, 0 <= j < n -> reverses (LOGN - 1) j (rev j)) ->
  exists st' st2' expected bound measured, serial_matmul_error LOGQ LOGN Delta LD st st2 (carray n z) = Ok (st', st2', (expected, bound, measured)) /\
    expected = (sqrt (IZR N / 4) * norm2 n (slots N (IZR Delta) (fun i => rround (m i * IZR Delta))) / IZR Delta * sqrt (IZR (LOGN - 1)) * sqrt 2 ^ Z.to_nat (LOGN - 2))%R /\
    bound = (sqrt (IZR (LOGN - 1)) * expected)%R /\
    (exists c : Z -> Z -> Z, (forall i, c 0 i = rround (m i * IZR Delta)) /\
      (forall d j, 0 <= d < LOGN - 1 -> 0 <= j < n -> slot N (fun i => IZR (c (d + 1) i)) j
         = gsum 3 (fun t => (slot N (fun i => IZR (rround (v d t i * IZR Delta))) j * slot N (fun i => IZR (c d i)) ((j + stage_offset LOGN d t) mod n))%num)) /\
      measured = norm2 n (fun j => mk Rops (IZR n * (IZR (c 0%Z (rev j)) / IZR Delta))%R (IZR n * (IZR (c 0%Z (rev j + n)%Z) / IZR Delta))%R - slots N (IZR (Delta ^ LOGN)) (c (LOGN - 1)%Z) j)%num) /\
    (measured <= 3 * sqrt (IZR N) * (1 + 3 * IZR N / (2 * sqrt 2 * IZR Delta)) ^ Z.to_nat (LOGN - 2) * bound)%R.
Proof.
  intros Hsz Hst Hst2 Hz1 Hm Hv0 Hrev. pose proof (delta_word LD HLD) as HDw. fold Delta in HDw. pose proof (HN3 LOGN HL') as HN. pose proof (Hn3 LOGN HL') as Hn. fold N in HN. fold n in Hn.
  assert (HQ1 : 1 <= LOGQ <= 2 ^ 20) by (unfold widths in HQ; change (2 ^ 20) with 1048576; lia). assert (H63 : 2 ^ 63 < 2 ^ 64) by (apply Z.pow_lt_mono_r; lia).
  assert (HDR : (1 <= IZR Delta)%R) by (apply IZR_le; lia). assert (HNb : N <= 2 ^ 17) by (apply Z.pow_le_mono_r; lia). change (2 ^ 17) with 131072 in HNb.
  set (p := fun i => rround (m i * IZR Delta)).
  assert (Hv : forall d, 0 <= d < LOGN - 1 -> forall t j, 0 <= t < 3 -> 0 <= j < n -> slot N (v d t) j = uA d t j) by (intros; rewrite uA_diagonal; auto).
  assert (HpB : forall i, 0 <= i < N -> Z.abs (p i) <= Delta).
  { intros i Hi. apply rround_le. rewrite Rabs_mult, (Rabs_right (IZR Delta)) by lra. rewrite <- (Rmult_1_l (IZR Delta)) at 2. apply Rmult_le_compat_r; [lra|].
    apply (coef_slots LOGN m 1 HL'); [|exact Hi]. intros j Hj. fold n in Hj. fold N. rewrite Hm by auto. auto. }
  assert (HG : 1 < 3 * N * (Delta + 1)) by nia.
  assert (Hszk : forall k, 0 <= k <= LOGN - 1 -> Delta * (3 * N * (Delta + 1)) ^ k < 2 ^ (LOGQ - 1)).
  { intros k Hk. eapply Z.le_lt_trans; [|exact Hsz]. apply Z.mul_le_mono_nonneg_l; [lia|]. apply Z.pow_le_mono_r; lia. }
  assert (HDQ : Delta < 2 ^ LOGQ).
  { pose proof (Hszk 0 ltac:(lia)) as H0. rewrite Z.pow_0_r in H0. assert (2 ^ (LOGQ - 1) < 2 ^ LOGQ) by (apply Z.pow_lt_mono_r; lia). lia. }
  unfold serial_matmul_error. cbv zeta. fold N n.
  destruct (rounded_message_ok LOGN HL Delta st st2 z m Hst Hst2 Hm) as (st1 & st2b & Er & H1 & H2). fold N n in Er. fold p in Er. rewrite Er. cbn [bind].
  set (z' := slots N (IZR Delta) p). rewrite msg_norm_ok by lia. cbn [bind]. rewrite int_ok by lia. cbn [bind].
  rewrite (inv_tables_ok LOGN HL'). destruct (bwd_tables LOGN) as [Tr Ti] eqn:ET. cbn [bind].
  assert (HT : forall d (x : Z -> CC) q, 0 <= d < LOGN - 1 -> carray_of (K := Rops) n q ->
    lget Tr d = Ok (diagonals n 3 (fun t j => cre Rops (uA d t j)) (uo d) (zR (2 ^ d))) /\ lget Ti d = Ok (diagonals n 3 (fun t j => cim Rops (uA d t j)) (uo d) zI) /\
    msg_mvp (K := Rops) n 3 (carray n x) (diagonals n 3 (fun t j => cre Rops (uA d t j)) (uo d) (zR (2 ^ d))) (diagonals n 3 (fun t j => cim Rops (uA d t j)) (uo d) zI) q
      = Ok (carray n (apply n (uM d) x))).
  { intros d x q Hd Hq. destruct (stage_msg d x q Hd Hq) as (a & b & E1 & E2 & Ea & Eb & E3). rewrite ET in E1, E2. cbn [fst snd] in E1, E2. subst a b. auto. }
  rewrite (C68_new (K := Rops)) by lia.
  destruct (HT 0 z' (carray n (fun _ => 0%num)) ltac:(lia) (carray_of_carray n _)) as (E1 & E2 & E3).
  rewrite E1. cbn [bind]. rewrite E2. cbn [bind]. rewrite E3. cbn [bind].
  match goal with |- context [for_ 1 (LOGN - 1) ?body ?s0] => rewrite (for_closed body (fun k => carray n (uz z' (Z.to_nat k))) 1 (LOGN - 1) s0 (carray n (uz z' (Z.to_nat (LOGN - 1))))) end.
  2: lia.
  2: { reflexivity. }
  2: { reflexivity. }
  2: { intros k Hk. destruct (HT k (uz z' (Z.to_nat k)) (carray n (uz z' (Z.to_nat k))) ltac:(lia) (carray_of_carray n _)) as (F1 & F2 & F3).
       rewrite F1. cbn [bind]. rewrite F2. cbn [bind]. rewrite F3. replace (Z.to_nat (k + 1)) with (S (Z.to_nat k)) by lia. cbn [uz]. rewrite Z2Nat.id by lia. reflexivity. }
  cbn [bind].
  destruct (encode_rounded LOGQ LOGN HQ HL Delta st1 p Delta ltac:(lia) H1 HpB ltac:(lia) ltac:(lia)) as (st3 & Ee & H3). fold N n in Ee. fold z' in Ee. use Ee.
  assert (N0 : near z' 0 p).
  { unfold near. cbn [Z.of_nat uz pow]. rewrite Z.pow_0_r, Z.mul_1_r, Z.pow_1_r. split; [exact HpB|]. fold z'. split; [lra|].
    replace ((1 - 1) * norm2 n z')%R with 0%R by ring. apply norm2_le; [lra|]. right. unfold energy. rewrite Rmult_0_l. apply rsum_zero. intros j Hj.
    replace (z' j - z' j)%num with (real 0 : CC) by (apply RC_eq; cbn; ring). rewrite modulus_real, Rabs_R0. ring. }
  destruct (near_step z' 0 (v 0) p st3 (rq_new LOGQ N) (Hv 0 ltac:(lia)) ltac:(lia) (Hszk 1 ltac:(lia)) N0 H3 (objP_new LOGQ N)) as (st4 & r & E4 & H4 & N1 & R1).
  set (steps := fun k (a : Z -> Z) => exists c : Z -> Z -> Z, (forall i, c 0 i = p i) /\ (forall d j, 0 <= d < k -> 0 <= j < n -> slot N (zs (c (d + 1))) j
         = gsum 3 (fun t => (slot N (fun i => IZR (rround (v d t i * IZR Delta))) j * slot N (zs (c d)) ((j + uo d t) mod n))%num)) /\ forall i, c k i = a i).
  assert (Hstep : forall k a r, 0 <= k -> steps k a -> (forall j, 0 <= j < n -> slot N (zs r) j = gsum 3 (fun t => (slot N (fun i => IZR (rround (v k t i * IZR Delta))) j * slot N (zs a) ((j + uo k t) mod n))%num)) -> steps (k + 1) r).
  { intros k a' r' Hk0 (c & C0 & Cs & Ck) Hr'. exists (fun d => if d =? k + 1 then r' else c d). split; [|split].
    - intros i. destruct (Z.eqb_spec 0 (k + 1)); [lia|auto].
    - intros d j Hd Hj. destruct (Z.eqb_spec d (k + 1)); [lia|]. destruct (Z.eqb_spec (d + 1) (k + 1)).
      + replace d with k by lia. rewrite Hr' by auto. apply (gsum_ext (K := RC)). intros t Ht. f_equal. apply slot_ext. intros i Hi. unfold zs. rewrite Ck. reflexivity.
      + apply Cs; lia.
    - intros i. rewrite Z.eqb_refl. reflexivity. }
  assert (S0 : steps 0 p) by (exists (fun _ => p); split; [auto|split; [lia|auto]]).
  assert (S1 : steps 1 r) by (apply (Hstep 0 p r); [lia|exact S0|exact R1]).
  change (Z.of_nat 0) with 0 in E4. rewrite E4. cbn [bind].
  match goal with |- context [for_ 1 (LOGN - 1) ?body ?s0] =>
    destruct (for_inv body (fun k (w : tables * poly) => ifft_static LOGN (fst w) /\ exists a, snd w = repP LOGQ N a /\ near z' (Z.to_nat k) a /\ steps k a) 1 (LOGN - 1) s0 ltac:(lia)) as (w & Ew & H5 & a & Ea & Na & Sa)
  end.
  - cbn [fst snd]. split; [exact H4|]. exists r. split; [reflexivity|]. split; [exact N1|exact S1].
  - intros k [st5 pt] Hk (H5 & a & Ea & Na & Sa). cbn [fst snd] in *. subst pt.
    destruct (HT k (uz z' 0) (carray n (uz z' 0)) ltac:(lia) (carray_of_carray n _)) as (F1 & F2 & _). rewrite F1. cbn [bind]. rewrite F2. cbn [bind].
    destruct (near_step z' (Z.to_nat k) (v k) a st5 (repP LOGQ N a) ltac:(rewrite Z2Nat.id by lia; apply Hv; lia) ltac:(lia) (Hszk (Z.of_nat (Z.to_nat k) + 1) ltac:(lia)) Na H5) as (st6 & r' & E6 & H6 & N6 & R6). { eexists. split; [reflexivity|intros; apply rep_length]. }
    rewrite Z2Nat.id in E6 by lia. rewrite E6. exists (st6, repP LOGQ N r'). split; [reflexivity|]. cbn [fst snd]. split; [exact H6|]. exists r'. split; [reflexivity|].
    split; [replace (Z.to_nat (k + 1)) with (S (Z.to_nat k)) by lia; exact N6|]. rewrite Z2Nat.id in R6 by lia. apply (Hstep k a r'); [lia|exact Sa|exact R6].
  - rewrite Ew. destruct w as [st5 pt]. cbn [fst snd] in *. subst pt. cbn [bind].
    rewrite int_ok by lia. cbn [bind]. rewrite int_ok by nia. cbn [bind]. cbn [bind].
    destruct (carray_of_carray n (fun _ => 0%num)) as [Ca Cb]. destruct Na as (Hab & _ & Hna).
    destruct (C56_decode_log LOGQ LOGN ltac:(lia) HL' (LD * (LOGN - 1 + 1)) st2b (repP LOGQ N a) a _ _ ltac:(change (2 ^ 20) with 1048576 in HQ1; change (2 ^ 30) with 1073741824; lia)
      ltac:(change (2 ^ 30) with 1073741824; nia) H2 Ca Cb) as [st7 E7].
    { split; [apply repP_holds; fold N; lia|]. intros i Hi. specialize (Hab i Hi). rewrite Z2Nat.id in Hab by lia. lia. }
    fold N n in E7. rewrite E7. cbn [bind]. rewrite (C68_sub (K := Rops)) by (try lia; apply carray_of_carray). cbn [bind]. rewrite msg_norm_ok by lia. cbn [bind].
    assert (SN0 : (IZR (3 * N) / 12 = IZR N / 4)%R) by (rewrite mult_IZR; field).
    do 5 eexists. split; [reflexivity|]. split. { rewrite SN0. replace (LOGN - 1 - 1) with (LOGN - 2) by lia. reflexivity. } split; [reflexivity|].
    assert (EP : powerRZ 2 (LD * (LOGN - 1 + 1)) = IZR (Delta ^ (Z.of_nat (Z.to_nat (LOGN - 1)) + 1))).
    { rewrite powerRZ_2 by nia. unfold Delta. rewrite <- Z.pow_mul_r by lia. rewrite Z2Nat.id by lia. reflexivity. }
    rewrite EP. split.
    { destruct Sa as (c & C0 & Cs & Ck). exists c. split; [exact C0|]. split.
      - intros d j Hd Hj. etransitivity; [exact (Cs d j Hd Hj)|]. apply (gsum_ext (K := RC)). intros t Ht. rewrite uo_offset by auto. reflexivity.
      - unfold norm2. apply f_equal. apply energy_ext. intros j Hj. apply f_equal2.
        + unfold z', slots. rewrite (uz_slots _ j (rev j)) by auto. rewrite !C0. reflexivity.
        + replace (Z.of_nat (Z.to_nat (LOGN - 1)) + 1) with LOGN by lia. apply slot_ext. intros i Hi. rewrite Ck. reflexivity. }
    set (w := slots N _ a) in *. set (u := uz z' (Z.to_nat (LOGN - 1))) in *.
    assert (ES : energy n (fun j => (u j - w j)%num) = energy n (fun j => (w j - u j)%num)).
    { rewrite (energy_ext n (fun j => (u j - w j)%num) (fun j => real (-1) * (w j - u j))%num) by (intros j Hj; apply RC_eq; cbn; ring). rewrite energy_scale. ring. }
    rewrite ES. fold (norm2 n (fun j => (w j - u j)%num)). eapply Rle_trans; [exact Hna|]. clear Hna.
    fold (norm2 n z'). pose proof (norm2_pos n z') as Hq. set (q := norm2 n z') in *.
    replace (Z.to_nat (LOGN - 1)) with (S (Z.to_nat (LOGN - 2))) by lia. replace (Z.to_nat (LOGN - 1 - 1)) with (Z.to_nat (LOGN - 2)) by lia.
    pose proof growth_pos as Hg. pose proof (pow_diff (sqrt 2) growth (Z.to_nat (LOGN - 2)) (sqrt_pos 2) ltac:(lra)) as PD.
    eapply Rle_trans; [apply Rmult_le_compat_r; [exact Hq|exact PD]|]. clear PD.
    assert (S2 : (0 < sqrt 2)%R) by (apply sqrt_lt_R0; lra).
    assert (EG : (sqrt 2 + growth = sqrt 2 * (1 + 3 * IZR N / (2 * sqrt 2 * IZR Delta)))%R) by (unfold growth; field; lra).
    rewrite EG, Rpow_mult_distr. set (P := ((1 + 3 * IZR N / (2 * sqrt 2 * IZR Delta)) ^ Z.to_nat (LOGN - 2))%R). set (T := (sqrt 2 ^ Z.to_nat (LOGN - 2))%R).
    assert (EI : INR (S (Z.to_nat (LOGN - 2))) = IZR (LOGN - 1)) by (rewrite INR_IZR_INZ; f_equal; lia). rewrite EI.
    assert (SD : (sqrt (IZR (LOGN - 1)) * sqrt (IZR (LOGN - 1)) = IZR (LOGN - 1))%R) by (apply sqrt_sqrt, IZR_le; lia).
    assert (SN : (sqrt (IZR (3 * N) / 12) = sqrt (IZR N) / 2)%R).
    { replace (IZR (3 * N) / 12)%R with (IZR N / 4)%R by (rewrite mult_IZR; field). rewrite sqrt_div_alt by lra. replace 4%R with (2 * 2)%R by ring. rewrite sqrt_square by lra. reflexivity. }
    assert (SQ : (sqrt (IZR N) * sqrt (IZR N) = IZR N)%R) by (apply sqrt_sqrt, IZR_le; lia).
    rewrite SN. right. unfold growth. set (d := sqrt (IZR (LOGN - 1))) in *. set (s := sqrt (IZR N)) in *. rewrite <- SD, <- SQ. field. lra.
Qed.
End Serial.
