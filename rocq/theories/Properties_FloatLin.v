(** C107-C110: linear transforms, CoeffToSlot and SlotToCoeff in floating-point arithmetic. *)
From Coq Require Import ZArith List Bool Lia Reals Lra Ring.
From Verif Require Import Base BaseFacts Sums ZQ ZQFacts RQ RQFacts Conv Rot Core CoreFacts Util UtilFacts GSum Matrix MatrixFacts MatMulFacts DFT DFTTheory DFTFacts FFTFacts
  SpecZQ SpecPoly SpecPolyFacts SpecScheme SpecMat Properties_Mat SpecDFT Properties_DFT SpecEnc SlotFacts
  Encode EncodeFacts Properties_Conv Properties_Core Properties_Rot Properties_Enc Properties_Plain SpecLin LinTrans LinTransFacts LinSlots Properties_Lin GroupFacts GroupSlots Bootstrap BootFacts SpecBoot BootSlots Properties_Boot.
From Verif Require Import Float SpecFloat FloatFacts FloatError FloatStage Binary64 FloatNum Properties_Float.
From Verif Require Import SpecFloatLin SpecFloatBoot FloatLin FloatMM FloatGroup FloatSerial FloatGrouped FloatBoot FloatBootSlots FloatBootNum.
Import ListNotations.
Open Scope Z_scope.
Add Ring RCpfl : HR.

(** the exact matrices of given diagonals *)
Lemma fgood_exact n S D (A : Z -> Z -> Z -> CC) (o : Z -> Z -> Z) (zr zi : Z -> Z -> bool) (a : nat -> R) : 0 < n <= 2 ^ 30 -> 0 <= S ->
  (forall d, 0 <= d < Z.of_nat D -> flags_right (K := Rops) n S (fun t j => cre Rops (A d t j)) (fun t j => cim Rops (A d t j)) (o d) (o d) (zr d) (zi d)) ->
  (forall d j, (d < D)%nat -> 0 <= j < n -> (gsum (K := Rops) S (fun t => modulus (A (Z.of_nat d) t j)) <= a d)%R) ->
  fgood n S (Z.of_nat D) (Z.of_nat D) (map (fun d => diagonals n S (fun t j => cre Rops (A d t j)) (o d) (zr d)) (range (Z.of_nat D)))
    (map (fun d => diagonals n S (fun t j => cim Rops (A d t j)) (o d) (zi d)) (range (Z.of_nat D)))
    (fun d => matrix_of n S (A d) (o d)) (fun d => a (Z.to_nat d)) (fun d => a (Z.to_nat d)) (fun _ => 0%R).
Proof.
  intros Hn HS HF Hrow. rewrite !map_range. do 2 eexists. split; [reflexivity|]. split; [reflexivity|]. cbv beta. intros d Hd. destruct (Z.ltb_spec d (Z.of_nat D)); [|lia].
  assert (Hr : forall i, 0 <= i < n -> (gsum (K := Rops) S (fun t => modulus (A d t i)) <= a (Z.to_nat d))%R).
  { intros i Hi. specialize (Hrow (Z.to_nat d) i ltac:(lia) Hi). rewrite Z2Nat.id in Hrow by lia. exact Hrow. }
  assert (Ha : (0 <= a (Z.to_nat d))%R).
  { eapply Rle_trans; [|apply (Hr 0 ltac:(lia))]. apply rsum_nonneg; auto. intros. apply modulus_nonneg. }
  pose proof (rows_of n ltac:(lia) S (A d) (o d) _ HS Hr) as HR.
  apply (frep_near n S (A d) (A d)); auto; [lra| | |].
  - intros t i Ht Hi. eapply Rle_trans; [|apply (Hr i Hi)]. exact (gsum_member_mod S (fun t => A d t i) t Ht).
  - intros i j Hi Hj. eapply Rle_trans; [|apply (HR i Hi)]. exact (gsum_member_mod n (fun j => matrix_of n S (A d) (o d) i j) j Hj).
  - intros i Hi. rewrite (gsum_ext (K := Rops) S _ (fun _ => 0%R)).
    + clear. apply Req_le. apply (gsum_zero Rlawful S). intros. reflexivity.
    + intros t Ht. replace (A d t i - A d t i)%num with (0 : RC)%num by ring. apply modulus_0.
Qed.

Lemma diag_error_pos u eta t N k B Delta : (0 <= u)%R -> (0 <= eta)%R -> (0 <= t)%R -> 0 <= N -> (0 <= B)%R -> 0 <= Delta -> (0 <= diag_error u eta t N k B Delta)%R.
Proof.
  intros Hu He Ht HN HB HD. apply IZR_le in HN, HD. unfold diag_error, encode_error, ifft_error, fft_error, fft_size.
  assert (Hta : (0 <= table_error u eta t N)%R). { unfold table_error. assert (0 <= 3 * IZR N * eta)%R by (apply Rmult_le_pos; lra). lra. }
  assert (Hl : (0 <= lambda u eta t N)%R) by (unfold lambda; lra). set (l := lambda u eta t N) in *. clearbody l.
  assert (H2 : (1 <= 2 ^ k)%R) by (apply pow_R1_Rle; lra). assert (H3 : (2 ^ k <= (2 + l) ^ k)%R) by (apply pow_incr; lra). set (y := ((2 + l) ^ k)%R) in *. clearbody y. set (x := (2 ^ k)%R) in *. clearbody x.
  assert (X1 : (0 <= (y - x) * B)%R) by (apply Rmult_le_pos; lra). assert (X2 : (0 <= (y - 1) * (32 * eta))%R) by (apply Rmult_le_pos; lra).
  assert (X3 : (0 <= 3 * u * (y * (B + 32 * eta)))%R) by (apply Rmult_le_pos; [lra|apply Rmult_le_pos; lra]).
  assert (X4 : (0 <= ((y - x) * B + (y - 1) * (32 * eta) + 3 * u * (y * (B + 32 * eta))) / x)%R) by (apply Rmult_le_pos; [lra|apply Rlt_le, Rinv_0_lt_compat; lra]).
  assert (X5 : (0 <= 3 * (u + eta) * B)%R) by (apply Rmult_le_pos; lra).
  apply Rplus_le_le_0_compat; [|auto]. apply Rmult_le_pos; lra.
Qed.

Section Core.
Context (F : fpu) (u eta top t : R) (ar : arithmetic u eta top t (rnd F) (dpi F) (lcos F) (lsin F)).
Context (LOGQ LOGN LOGDELTA RM : Z) (rng : nat -> Z) (s : list Z).
Context (HQ : widths LOGQ) (HQ2 : widths (2 * LOGQ)) (HL : 2 <= LOGN <= 17) (HD : 0 <= LOGDELTA < 64) (Hr : rand_stream RM rng).
Let N := 2 ^ LOGN.
Let n := 2 ^ (LOGN - 1).
Context (Hs : ternary N s).
Let Delta := 2 ^ LOGDELTA.
Let E := noise N (coef s).
Lemma grouped_core B ee rr G K S (A : Z -> Z -> Z -> CC) (o : Z -> Z -> Z) (zr zi : Z -> Z -> bool) (a : nat -> R) z0 D0 ct m st pos Act :
  encodes_within F LOGQ LOGN LOGDELTA B ee -> (0 <= ee)%R -> (1 <= G <= 4)%nat -> 0 <= S ->
  (forall d, 0 <= d < Z.of_nat (G * K) -> flags_right (K := Rops) n S (fun t j => cre Rops (A d t j)) (fun t j => cim Rops (A d t j)) (o d) (o d) (zr d) (zi d)) ->
  (forall d j, (d < G * K)%nat -> 0 <= j < n -> (gsum (K := Rops) S (fun t => modulus (A (Z.of_nat d) t j)) <= a d)%R) ->
  (forall d, (d < K)%nat -> group_fits u eta top S G a (fun _ => 0%R) d /\
    (group_rows G a d + group_error u eta S G a (fun _ => 0) d <= B)%R /\ (group_error u eta S G a (fun _ => 0) d <= rr)%R) -> (0 < D0)%R ->
  f_ifft_static F LOGN st -> decrypts LOGQ N ct (coef s) m -> object2 LOGQ N Act ->
  (forall j, 0 <= j < n -> (modulus (slots N D0 m j) <= z0)%R) ->
  let M d := matrix_of n S (A (Z.of_nat d)) (o (Z.of_nat d)) in
  let dl := (rr + IZR (S ^ Z.of_nat G) * encoded_error N Delta ee)%R in
  exists st' pos' Act' w, f_grouped_lt F LOGQ LOGN LOGDELTA RM rng S (Z.of_nat (G * K)) (Z.of_nat G) st pos
      (map (fun d => diagonals n S (fun t j => cre Rops (A d t j)) (o d) (zr d)) (range (Z.of_nat (G * K))))
      (map (fun d => diagonals n S (fun t j => cim Rops (A d t j)) (o d) (zi d)) (range (Z.of_nat (G * K)))) ct (map Some s) Act = Ok (st', pos', Act') /\
    f_ifft_static F LOGN st' /\ decrypts LOGQ N Act' (coef s) w /\
    forall j, 0 <= j < n ->
      (modulus (slots N (IZR Delta ^ K * D0) w j - chain n M (G * K) (slots N D0 m) j)%num <= error_after (group_rows G a) dl z0 (switch_noise N Delta E D0) K)%R.
Proof.
  intros He Hee HG HS HF Hrow Hb HD0 Hst Hct Hob Hz M dl.
  assert (Hn : 0 < n <= 2 ^ 30) by (unfold n; split; [apply Z.pow_pos_nonneg; lia|apply Z.pow_le_mono_r; lia]).
  pose proof (fgood_exact n S (G * K) A o zr zi a Hn HS HF Hrow) as HA.
  assert (Ep : forall q x, rprod q (fun i => a (Z.to_nat (Z.of_nat (x + i)))) = rprod q (fun i => a (x + i)%nat)) by (intros q x; induction q; cbn [rprod]; [reflexivity|]; rewrite IHq, Nat2Z.id; reflexivity).
  assert (Er : forall d, group_rows G (fun k => a (Z.to_nat (Z.of_nat k))) d = group_rows G a d).
  { intros d. unfold group_rows. apply Ep. }
  assert (Ex : forall d, group_error u eta S G (fun k => a (Z.to_nat (Z.of_nat k))) (fun _ => 0%R) d = group_error u eta S G a (fun _ => 0%R) d).
  { intros d. unfold group_error. generalize (G - 1)%nat as q. intros q. induction q as [|q IHq]; [reflexivity|]. cbn [prod_error]. rewrite IHq, Ep, Nat2Z.id. reflexivity. }
  assert (Ef : forall d, group_fits u eta top S G a (fun _ => 0%R) d -> group_fits u eta top S G (fun k => a (Z.to_nat (Z.of_nat k))) (fun _ => 0%R) d).
  { intros d. unfold group_fits. assert (EE : forall q, prod_error u eta S q (fun k => a (Z.to_nat (Z.of_nat (G * d + k)))) (fun _ => 0%R) = prod_error u eta S q (fun k => a (G * d + k)%nat) (fun _ => 0%R)).
    { intros q. induction q as [|q IHq]; [reflexivity|]. cbn [prod_error]. rewrite IHq, Ep, Nat2Z.id. reflexivity. }
    generalize (G - 1)%nat as q. intros q. induction q as [|q IHq]; [auto|]. cbn [prod_fits]. rewrite Ep, EE, Nat2Z.id. tauto. }
  destruct (f_grouped_good F u eta top t ar LOGQ LOGN LOGDELTA RM rng s HQ HQ2 HL HD Hr Hs B ee rr G K S _ _ _ _ _ _ z0 D0 ct m st pos Act
    He Hee HG HS HA) as (st' & pos' & Act' & w & E1 & Hst' & Hw & Hsl); auto.
  { intros d Hd. apply Ef. apply Hb. auto. }
  { intros d Hd. cbv zeta. rewrite <- group_entries_same by lia. rewrite Er, Ex. apply Hb. auto. }
  exists st', pos', Act', w. split; [exact E1|]. split; [exact Hst'|]. split; [exact Hw|]. intros j Hj. destruct (Hsl j Hj) as [_ X].
  eapply Rle_trans; [exact X|]. apply Req_le. apply rows_ext'. exact Er.
Qed.
End Core.

Section Any.
Context (F : fpu) (u eta top t : R) (ar : arithmetic u eta top t (rnd F) (dpi F) (lcos F) (lsin F)).
Context (LOGQ LOGN LOGDELTA RM : Z) (rng : nat -> Z) (s : list Z).
Context (HQ : widths LOGQ) (HQ2 : widths (2 * LOGQ)) (HL : 2 <= LOGN <= 17) (HD : 0 <= LOGDELTA < 64) (Hr : rand_stream RM rng).
Let N := 2 ^ LOGN.
Let n := 2 ^ (LOGN - 1).
Let k := Z.to_nat (LOGN - 1).
Context (Hs : ternary N s).
Let Delta := 2 ^ LOGDELTA.
Let E := noise N (coef s).
Context (Hsmall : (table_error u eta t N <= / 64)%R) (Hbig : (IZR (2 ^ 66) <= top)%R).
Let LQ : 1 <= LOGQ. Proof. unfold widths in HQ. lia. Qed.
Let Hdiag B : (0 <= B)%R -> (0 <= diag_error u eta t N k B Delta)%R.
Proof. intros HB. apply diag_error_pos; auto; try apply ar; apply Z.pow_nonneg; lia. Qed.

(** One linear transform: entries of modulus at most [B] are encoded with the errors of floating-point arithmetic. *)
Theorem C107_linear_transform B S (A : Z -> Z -> CC) (o : Z -> Z) (zr zi : Z -> bool) ct m st pos Act :
  encodable u eta top t LOGQ N k Delta B -> 0 <= S ->
  (forall t, 0 <= t < S -> zr t && zi t = false -> 0 <= o t) -> (forall t j, 0 <= t < S -> zr t && zi t = false -> 0 <= j < n -> (modulus (A t j) <= B)%R) ->
  f_ifft_static F LOGN st -> decrypts LOGQ N ct (coef s) m -> object2 LOGQ N Act ->
  exists st' pos' Act' w,
    f_linear_transform F LOGQ LOGN LOGDELTA RM rng S st pos (diagonals n S (fun t j => cre Rops (A t j)) o zr) (diagonals n S (fun t j => cim Rops (A t j)) o zi) ct (map Some s) Act = Ok (st', pos', Act') /\
    f_ifft_static F LOGN st' /\ decrypts LOGQ N Act' (coef s) w /\
    forall D0 j, (0 < D0)%R -> 0 <= j < n ->
      (modulus (slots N (IZR Delta * D0) w j - apply n (matrix_of n S (live zr zi A) o) (slots N D0 m) j)%num
        <= f_lt_error N n E S (encoded_error N Delta (diag_error u eta t N k B Delta)) A o zr zi (slots N D0 m) D0 j)%R.
Proof.
  intros He HS Ho Hb Hst Hct Hact.
  exact (f_lt_slots F LOGQ LOGN LOGDELTA RM rng s HQ HQ2 HL HD Hr Hs B _ (encodes_any F u eta top t ar LOGQ LOGN LOGDELTA B LQ ltac:(lia) HD Hsmall Hbig He) S A o zr zi HS Ho Hb ct m st pos Act Hst Hct Hact).
Qed.

(** Products of G consecutive matrices computed in floating-point arithmetic, then encoded and applied; errors of the products at most [rr]. *)
Theorem C108_grouped B rr G K S (A : Z -> Z -> Z -> CC) (o : Z -> Z -> Z) (zr zi : Z -> Z -> bool) (a : nat -> R) z0 D0 ct m st pos Act :
  encodable u eta top t LOGQ N k Delta B -> (1 <= G <= 4)%nat -> 0 <= S ->
  (forall d, 0 <= d < Z.of_nat (G * K) -> flags_right (K := Rops) n S (fun t j => cre Rops (A d t j)) (fun t j => cim Rops (A d t j)) (o d) (o d) (zr d) (zi d)) ->
  (forall d j, (d < G * K)%nat -> 0 <= j < n -> (gsum (K := Rops) S (fun t => modulus (A (Z.of_nat d) t j)) <= a d)%R) ->
  (forall d, (d < K)%nat -> group_fits u eta top S G a (fun _ => 0%R) d /\
    (group_rows G a d + group_error u eta S G a (fun _ => 0) d <= B)%R /\ (group_error u eta S G a (fun _ => 0) d <= rr)%R) -> (0 < D0)%R ->
  f_ifft_static F LOGN st -> decrypts LOGQ N ct (coef s) m -> object2 LOGQ N Act ->
  (forall j, 0 <= j < n -> (modulus (slots N D0 m j) <= z0)%R) ->
  let M d := matrix_of n S (A (Z.of_nat d)) (o (Z.of_nat d)) in
  let dl := (rr + IZR (S ^ Z.of_nat G) * encoded_error N Delta (diag_error u eta t N k B Delta))%R in
  exists st' pos' Act' w, f_grouped_lt F LOGQ LOGN LOGDELTA RM rng S (Z.of_nat (G * K)) (Z.of_nat G) st pos
      (map (fun d => diagonals n S (fun t j => cre Rops (A d t j)) (o d) (zr d)) (range (Z.of_nat (G * K))))
      (map (fun d => diagonals n S (fun t j => cim Rops (A d t j)) (o d) (zi d)) (range (Z.of_nat (G * K)))) ct (map Some s) Act = Ok (st', pos', Act') /\
    f_ifft_static F LOGN st' /\ decrypts LOGQ N Act' (coef s) w /\
    forall j, 0 <= j < n ->
      (modulus (slots N (IZR Delta ^ K * D0) w j - chain n M (G * K) (slots N D0 m) j)%num <= error_after (group_rows G a) dl z0 (switch_noise N Delta E D0) K)%R.
Proof.
  intros He. exact (grouped_core F u eta top t ar LOGQ LOGN LOGDELTA RM rng s HQ HQ2 HL HD Hr Hs B _ rr G K S A o zr zi a z0 D0 ct m st pos Act (encodes_any F u eta top t ar LOGQ LOGN LOGDELTA B LQ ltac:(lia) HD Hsmall Hbig He) (Hdiag B (proj1 He))).
Qed.

Context (lpow : R -> R -> R) (pw : R) (Hpw : power_within pw lpow).
Context (G D : nat) (HG : (1 <= G <= 4)%nat) (HGD : LOGN - 1 = Z.of_nat (G * D)).

Theorem C109_CoeffToSlot z0 D0 ct m stc st pos ct0 ct1 :
  let er := cts_group_error u eta t pw LOGN G in let B := (Rpower 2 (- / INR D) + er)%R in let ee := diag_error u eta t N k B Delta in
  cts_group_fits u eta top t pw LOGN G -> encodable u eta top t LOGQ N k Delta B -> (0 < D0)%R ->
  f_cts_static F lpow LOGQ LOGN LOGDELTA (Z.of_nat G) stc -> f_ifft_static F LOGN st -> decrypts LOGQ N ct (coef s) m -> object2 LOGQ N ct0 -> object2 LOGQ N ct1 ->
  (forall j, 0 <= j < n -> (modulus (slots N D0 m j) <= z0)%R) ->
  let e := f_cts_error N Delta E D (f_row N Delta G er ee) z0 D0 in
  exists stc' st' pos' ct0' ct1' w0 w1,
    f_CoeffToSlot F lpow LOGQ LOGN LOGDELTA RM rng (Z.of_nat G) stc st pos ct (map Some s) ct0 ct1 = Ok (stc', st', pos', ct0', ct1') /\
    f_cts_static F lpow LOGQ LOGN LOGDELTA (Z.of_nat G) stc' /\ f_ifft_static F LOGN st' /\ decrypts LOGQ N ct0' (coef s) w0 /\ decrypts LOGQ N ct1' (coef s) w1 /\
    forall j r, 0 <= j < n -> reverses (LOGN - 1) j r ->
      (modulus (slots N (IZR Delta ^ D * D0) w0 j - real (IZR (m r) / D0))%num <= e)%R /\ (modulus (slots N (IZR Delta ^ D * D0) w1 j - real (IZR (m (r + n)%Z) / D0))%num <= e)%R.
Proof.
  intros er B ee Hfit He HD0 Hstc Hst Hct H0 H1 Hz e.
  exact (cts_core F u eta top t ar lpow pw Hpw LOGQ LOGN LOGDELTA RM rng s HQ HQ2 HL HD Hr Hs G D HG HGD Hsmall B ee er
    (encodes_any F u eta top t ar LOGQ LOGN LOGDELTA B LQ ltac:(lia) HD Hsmall Hbig He) (Hdiag B (proj1 He)) z0 D0 ct m stc st pos ct0 ct1 Hfit (Rle_refl _) (Rle_refl _) HD0 Hstc Hst Hct H0 H1 Hz).
Qed.
Theorem C110_SlotToCoeff z0 D0 e0 e1 (p : Z -> R) ct0 ct1 w0 w1 sts st pos ct_ :
  let er := stc_group_error u eta t LOGN G in let B := (2 ^ (G - 1) + er)%R in let ee := diag_error u eta t N k B Delta in
  stc_group_fits u eta top t LOGN G -> encodable u eta top t LOGQ N k Delta B -> (0 < D0)%R ->
  f_stc_static F LOGQ LOGN LOGDELTA (Z.of_nat G) sts -> f_ifft_static F LOGN st -> decrypts LOGQ N ct0 (coef s) w0 -> decrypts LOGQ N ct1 (coef s) w1 -> object2 LOGQ N ct_ ->
  (forall j, 0 <= j < n -> (modulus (slots N D0 w0 j) <= z0 /\ modulus (slots N D0 w1 j) <= z0)%R) ->
  (forall j r, 0 <= j < n -> reverses (LOGN - 1) j r ->
    (modulus (slots N D0 w0 j - real (p r))%num <= e0)%R /\ (modulus (slots N D0 w1 j - real (p (r + n)%Z))%num <= e1)%R) ->
  exists sts' st' pos' ct' w,
    f_SlotToCoeff F LOGQ LOGN LOGDELTA RM rng (Z.of_nat G) sts st pos ct0 ct1 (map Some s) ct_ = Ok (sts', st', pos', ct') /\
    f_stc_static F LOGQ LOGN LOGDELTA (Z.of_nat G) sts' /\ f_ifft_static F LOGN st' /\ decrypts LOGQ N ct' (coef s) w /\
    forall i, 0 <= i < N -> (Rabs (IZR (w i) / (IZR Delta ^ D * D0) - p i) <= f_stc_error N Delta E G D (f_row N Delta G er ee) z0 D0 + e0 + e1)%R.
Proof.
  intros er B ee Hfit He HD0 Hsts Hst Hct0 Hct1 Hob Hz Hp.
  exact (stc_core F u eta top t ar LOGQ LOGN LOGDELTA RM rng s HQ HQ2 HL HD Hr Hs G D HG HGD Hsmall B ee er
    (encodes_any F u eta top t ar LOGQ LOGN LOGDELTA B LQ ltac:(lia) HD Hsmall Hbig He) (Hdiag B (proj1 He)) z0 D0 e0 e1 p ct0 ct1 w0 w1 sts st pos ct_ Hfit (Rle_refl _) (Rle_refl _) HD0 Hsts Hst Hct0 Hct1 Hob Hz Hp).
Qed.
End Any.

(** ** Double precision *)
Definition enc41 (B : R) (Delta : Z) : R := (powerRZ 2 (-41) * (B * IZR Delta) + powerRZ 2 (-900))%R.
Lemma enc41_pos B Delta : (0 <= B)%R -> 0 <= Delta -> (0 <= enc41 B Delta)%R.
Proof.
  intros HB HD. unfold enc41. apply IZR_le in HD. pose proof (p2_pos (-41)). pose proof (p2_pos (-900)). assert (0 <= powerRZ 2 (-41) * (B * IZR Delta))%R by (apply Rmult_le_pos; [lra|apply Rmult_le_pos; lra]). lra.
Qed.
Lemma enc41_small B Delta : (0 <= B * IZR Delta)%R -> (B * IZR Delta + powerRZ 2 (-41) * (B * IZR Delta) + 2 <= 9 / 8 * (B * IZR Delta) + 2)%R.
Proof. intros H. rewrite (p41 2). pose proof u_small. assert (4096 * u64 * (B * IZR Delta) <= 1 / 8 * (B * IZR Delta))%R by (apply Rmult_le_compat_r; lra). lra. Qed.

Section Double.
Context (F : fpu) (HF : double F).
Context (LOGQ LOGN LOGDELTA RM : Z) (rng : nat -> Z) (s : list Z).
Context (HQ : widths LOGQ) (HQ2 : widths (2 * LOGQ)) (HQ3 : LOGQ <= 2048) (HL : 2 <= LOGN <= 17) (HD : 0 <= LOGDELTA < 64) (Hr : rand_stream RM rng).
Let N := 2 ^ LOGN.
Let n := 2 ^ (LOGN - 1).
Context (Hs : ternary N s).
Let Delta := 2 ^ LOGDELTA.
Let E := noise N (coef s).
Let LQ : 1 <= LOGQ. Proof. unfold widths in HQ. lia. Qed.
Let LQ2 : 1 <= LOGQ <= 2048. Proof. unfold widths in HQ. lia. Qed.

Theorem C107_linear_transform_double B S (A : Z -> Z -> CC) (o : Z -> Z) (zr zi : Z -> bool) ct m st pos Act : (0 <= B)%R ->
  (B * IZR Delta + powerRZ 2 (-41) * (B * IZR Delta) + 2 < IZR (2 ^ 64))%R -> (B * IZR Delta + powerRZ 2 (-41) * (B * IZR Delta) + 2 < IZR (2 ^ LOGQ))%R -> 0 <= S ->
  (forall t, 0 <= t < S -> zr t && zi t = false -> 0 <= o t) -> (forall t j, 0 <= t < S -> zr t && zi t = false -> 0 <= j < n -> (modulus (A t j) <= B)%R) ->
  f_ifft_static F LOGN st -> decrypts LOGQ N ct (coef s) m -> object2 LOGQ N Act ->
  exists st' pos' Act' w,
    f_linear_transform F LOGQ LOGN LOGDELTA RM rng S st pos (diagonals n S (fun t j => cre Rops (A t j)) o zr) (diagonals n S (fun t j => cim Rops (A t j)) o zi) ct (map Some s) Act = Ok (st', pos', Act') /\
    f_ifft_static F LOGN st' /\ decrypts LOGQ N Act' (coef s) w /\
    forall D0 j, (0 < D0)%R -> 0 <= j < n ->
      (modulus (slots N (IZR Delta * D0) w j - apply n (matrix_of n S (live zr zi A) o) (slots N D0 m) j)%num <= f_lt_error N n E S (encoded_error N Delta (enc41 B Delta)) A o zr zi (slots N D0 m) D0 j)%R.
Proof.
  intros HB H1 H2 HS Ho Hb Hst Hct Hact.
  exact (f_lt_slots F LOGQ LOGN LOGDELTA RM rng s HQ HQ2 HL HD Hr Hs B _ (encodes_double F LOGQ LOGN LOGDELTA B HF LQ2 HL HD HB H1 H2) S A o zr zi HS Ho Hb ct m st pos Act Hst Hct Hact).
Qed.
Theorem C108_grouped_double B rr G K S (A : Z -> Z -> Z -> CC) (o : Z -> Z -> Z) (zr zi : Z -> Z -> bool) (a : nat -> R) z0 D0 ct m st pos Act :
  (0 <= B)%R -> (B * IZR Delta + powerRZ 2 (-41) * (B * IZR Delta) + 2 < IZR (2 ^ 64))%R -> (B * IZR Delta + powerRZ 2 (-41) * (B * IZR Delta) + 2 < IZR (2 ^ LOGQ))%R -> (1 <= G <= 4)%nat -> 0 <= S ->
  (forall d, 0 <= d < Z.of_nat (G * K) -> flags_right (K := Rops) n S (fun t j => cre Rops (A d t j)) (fun t j => cim Rops (A d t j)) (o d) (o d) (zr d) (zi d)) ->
  (forall d j, (d < G * K)%nat -> 0 <= j < n -> (gsum (K := Rops) S (fun t => modulus (A (Z.of_nat d) t j)) <= a d)%R) ->
  (forall d, (d < K)%nat -> group_fits u64 eta64 top64 S G a (fun _ => 0%R) d /\
    (group_rows G a d + group_error u64 eta64 S G a (fun _ => 0) d <= B)%R /\ (group_error u64 eta64 S G a (fun _ => 0) d <= rr)%R) -> (0 < D0)%R ->
  f_ifft_static F LOGN st -> decrypts LOGQ N ct (coef s) m -> object2 LOGQ N Act ->
  (forall j, 0 <= j < n -> (modulus (slots N D0 m j) <= z0)%R) ->
  let M d := matrix_of n S (A (Z.of_nat d)) (o (Z.of_nat d)) in
  let dl := (rr + IZR (S ^ Z.of_nat G) * encoded_error N Delta (enc41 B Delta))%R in
  exists st' pos' Act' w, f_grouped_lt F LOGQ LOGN LOGDELTA RM rng S (Z.of_nat (G * K)) (Z.of_nat G) st pos
      (map (fun d => diagonals n S (fun t j => cre Rops (A d t j)) (o d) (zr d)) (range (Z.of_nat (G * K))))
      (map (fun d => diagonals n S (fun t j => cim Rops (A d t j)) (o d) (zi d)) (range (Z.of_nat (G * K)))) ct (map Some s) Act = Ok (st', pos', Act') /\
    f_ifft_static F LOGN st' /\ decrypts LOGQ N Act' (coef s) w /\
    forall j, 0 <= j < n ->
      (modulus (slots N (IZR Delta ^ K * D0) w j - chain n M (G * K) (slots N D0 m) j)%num <= error_after (group_rows G a) dl z0 (switch_noise N Delta E D0) K)%R.
Proof.
  intros HB H1 H2. exact (grouped_core F u64 eta64 top64 t64 HF LOGQ LOGN LOGDELTA RM rng s HQ HQ2 HL HD Hr Hs B _ rr G K S A o zr zi a z0 D0 ct m st pos Act (encodes_double F LOGQ LOGN LOGDELTA B HF LQ2 HL HD HB H1 H2) (enc41_pos B Delta HB ltac:(apply Z.pow_nonneg; lia))).
Qed.

Context (lpow : R -> R -> R) (pw : R) (Hpw : power_within pw lpow) (Hp52 : (pw <= powerRZ 2 (-52))%R).
Context (G D : nat) (HG : (1 <= G <= 4)%nat) (HGD : LOGN - 1 = Z.of_nat (G * D)).
Let Hpu : (0 <= pw <= 2 * u64)%R.
Proof. split; [apply Hpw|]. pose proof (u_is 1 ltac:(lia)) as U. change (2 ^ 1) with 2 in U. rewrite U. exact Hp52. Qed.
Let D1 : (1 <= D)%nat. Proof. nia. Qed.
Let Dp : (0 < IZR Delta)%R. Proof. apply IZR_lt. apply Z.pow_pos_nonneg; lia. Qed.

(** the rows of the computed groups of CoeffToSlot err by at most 2^-40, before they are encoded *)
Theorem C109_CoeffToSlot_double z0 D0 ct m stc st pos ct0 ct1 : 1 <= LOGDELTA <= 62 -> LOGDELTA + 2 <= LOGQ -> (0 < D0)%R ->
  f_cts_static F lpow LOGQ LOGN LOGDELTA (Z.of_nat G) stc -> f_ifft_static F LOGN st -> decrypts LOGQ N ct (coef s) m -> object2 LOGQ N ct0 -> object2 LOGQ N ct1 ->
  (forall j, 0 <= j < n -> (modulus (slots N D0 m j) <= z0)%R) ->
  let e := f_cts_error N Delta E D (f_row N Delta G (powerRZ 2 (-40)) (enc41 2 Delta)) z0 D0 in
  exists stc' st' pos' ct0' ct1' w0 w1,
    f_CoeffToSlot F lpow LOGQ LOGN LOGDELTA RM rng (Z.of_nat G) stc st pos ct (map Some s) ct0 ct1 = Ok (stc', st', pos', ct0', ct1') /\
    f_cts_static F lpow LOGQ LOGN LOGDELTA (Z.of_nat G) stc' /\ f_ifft_static F LOGN st' /\ decrypts LOGQ N ct0' (coef s) w0 /\ decrypts LOGQ N ct1' (coef s) w1 /\
    forall j r, 0 <= j < n -> reverses (LOGN - 1) j r ->
      (modulus (slots N (IZR Delta ^ D * D0) w0 j - real (IZR (m r) / D0))%num <= e)%R /\ (modulus (slots N (IZR Delta ^ D * D0) w1 j - real (IZR (m (r + n)%Z) / D0))%num <= e)%R.
Proof.
  intros HD62 HDQ HD0 Hstc Hst Hct H0 H1 Hz e. destruct (num_cts_group LOGN HL pw G HG Hpu) as [He Hfit].
  pose proof (cts_row_le D D1) as Hrow. assert (H40 : (powerRZ 2 (-40) <= 1)%R) by (rewrite p40; pose proof u_small; lra).
  assert (Hd2 : (2 <= IZR Delta)%R) by (apply IZR_le; unfold Delta; change 2 with (2 ^ 1) at 1; apply Z.pow_le_mono_r; lia).
  assert (P4 : forall x, LOGDELTA + 2 <= x -> (4 * IZR Delta <= IZR (2 ^ x))%R).
  { intros x Hx. rewrite <- mult_IZR. apply IZR_le. unfold Delta. change 4 with (2 ^ 2). rewrite <- Z.pow_add_r by lia. apply Z.pow_le_mono_r; lia. }
  pose proof (enc41_small 2 Delta ltac:(lra)) as Hs2. pose proof (P4 64 ltac:(lia)) as Q1. pose proof (P4 LOGQ HDQ) as Q2.
  exact (cts_core F u64 eta64 top64 t64 HF lpow pw Hpw LOGQ LOGN LOGDELTA RM rng s HQ HQ2 HL HD Hr Hs G D HG HGD (num_small LOGN HL) 2 _ (powerRZ 2 (-40))
    (encodes_double F LOGQ LOGN LOGDELTA 2 HF LQ2 HL HD ltac:(lra) ltac:(fold Delta; lra) ltac:(fold Delta; lra)) (enc41_pos 2 Delta ltac:(lra) ltac:(apply Z.pow_nonneg; lia))
    z0 D0 ct m stc st pos ct0 ct1 Hfit ltac:(lra) (proj2 He) HD0 Hstc Hst Hct H0 H1 Hz).
Qed.
(** the rows of the computed groups of SlotToCoeff err by at most 2^-37, before they are encoded *)
Theorem C110_SlotToCoeff_double z0 D0 e0 e1 (p : Z -> R) ct0 ct1 w0 w1 sts st pos ct_ : LOGDELTA + Z.of_nat G <= 63 -> LOGDELTA + Z.of_nat G + 1 <= LOGQ -> 1 <= LOGDELTA -> (0 < D0)%R ->
  f_stc_static F LOGQ LOGN LOGDELTA (Z.of_nat G) sts -> f_ifft_static F LOGN st -> decrypts LOGQ N ct0 (coef s) w0 -> decrypts LOGQ N ct1 (coef s) w1 -> object2 LOGQ N ct_ ->
  (forall j, 0 <= j < n -> (modulus (slots N D0 w0 j) <= z0 /\ modulus (slots N D0 w1 j) <= z0)%R) ->
  (forall j r, 0 <= j < n -> reverses (LOGN - 1) j r ->
    (modulus (slots N D0 w0 j - real (p r))%num <= e0)%R /\ (modulus (slots N D0 w1 j - real (p (r + n)%Z))%num <= e1)%R) ->
  exists sts' st' pos' ct' w,
    f_SlotToCoeff F LOGQ LOGN LOGDELTA RM rng (Z.of_nat G) sts st pos ct0 ct1 (map Some s) ct_ = Ok (sts', st', pos', ct') /\
    f_stc_static F LOGQ LOGN LOGDELTA (Z.of_nat G) sts' /\ f_ifft_static F LOGN st' /\ decrypts LOGQ N ct' (coef s) w /\
    forall i, 0 <= i < N -> (Rabs (IZR (w i) / (IZR Delta ^ D * D0) - p i) <= f_stc_error N Delta E G D (f_row N Delta G (powerRZ 2 (-37)) (enc41 (2 ^ G) Delta)) z0 D0 + e0 + e1)%R.
Proof.
  intros HD62 HDQ HDl HD0 Hsts Hst Hct0 Hct1 Hob Hz Hp. destruct (num_stc_group LOGN HL G HG) as [He Hfit].
  assert (H37 : (powerRZ 2 (-37) <= 1)%R) by (rewrite p37; pose proof u_small; lra).
  assert (Hg1 : (1 <= 2 ^ (G - 1))%R) by (apply pow_R1_Rle; lra). assert (Hg2 : (2 ^ G = 2 * 2 ^ (G - 1))%R) by (rewrite (tech_pow_Rmult 2 (G - 1)); f_equal; lia).
  assert (Hd2 : (2 <= IZR Delta)%R) by (apply IZR_le; unfold Delta; change 2 with (2 ^ 1) at 1; apply Z.pow_le_mono_r; lia).
  assert (P4 : forall x, LOGDELTA + Z.of_nat G + 1 <= x -> (2 * (2 ^ G * IZR Delta) <= IZR (2 ^ x))%R).
  { intros x Hx. rewrite pow_IZR, <- !mult_IZR. apply IZR_le. unfold Delta. rewrite <- Z.pow_add_r, <- Z.pow_succ_r by lia. apply Z.pow_le_mono_r; lia. }
  assert (Hx : (4 <= 2 ^ G * IZR Delta)%R) by (rewrite Hg2; nra).
  pose proof (enc41_small (2 ^ G) Delta ltac:(lra)) as Hs2. pose proof (P4 64 ltac:(lia)) as Q1. pose proof (P4 LOGQ ltac:(lia)) as Q2.
  exact (stc_core F u64 eta64 top64 t64 HF LOGQ LOGN LOGDELTA RM rng s HQ HQ2 HL HD Hr Hs G D HG HGD (num_small LOGN HL) (2 ^ G) _ (powerRZ 2 (-37))
    (encodes_double F LOGQ LOGN LOGDELTA (2 ^ G) HF LQ2 HL HD ltac:(lra) ltac:(fold Delta; lra) ltac:(fold Delta; lra)) (enc41_pos (2 ^ G) Delta ltac:(lra) ltac:(apply Z.pow_nonneg; lia))
    z0 D0 e0 e1 p ct0 ct1 w0 w1 sts st pos ct_ Hfit ltac:(lra) (proj2 He) HD0 Hsts Hst Hct0 Hct1 Hob Hz Hp).
Qed.

(** SlotToCoeff after CoeffToSlot gives back the polynomial, in double precision. *)
Theorem C110_round_trip_double z0 D0 ct m stc sts st pos ct0 ct1 ct_ : LOGDELTA + Z.of_nat G <= 63 -> LOGDELTA + Z.of_nat G + 1 <= LOGQ -> 1 <= LOGDELTA -> (0 < D0)%R ->
  f_cts_static F lpow LOGQ LOGN LOGDELTA (Z.of_nat G) stc -> f_stc_static F LOGQ LOGN LOGDELTA (Z.of_nat G) sts -> f_ifft_static F LOGN st ->
  decrypts LOGQ N ct (coef s) m -> object2 LOGQ N ct0 -> object2 LOGQ N ct1 -> object2 LOGQ N ct_ ->
  (forall j, 0 <= j < n -> (modulus (slots N D0 m j) <= z0)%R) ->
  let e := f_cts_error N Delta E D (f_row N Delta G (powerRZ 2 (-40)) (enc41 2 Delta)) z0 D0 in
  exists stc' st' pos' ct0' ct1' sts' st'' pos'' ct' w,
    f_CoeffToSlot F lpow LOGQ LOGN LOGDELTA RM rng (Z.of_nat G) stc st pos ct (map Some s) ct0 ct1 = Ok (stc', st', pos', ct0', ct1') /\
    f_SlotToCoeff F LOGQ LOGN LOGDELTA RM rng (Z.of_nat G) sts st' pos' ct0' ct1' (map Some s) ct_ = Ok (sts', st'', pos'', ct') /\
    decrypts LOGQ N ct' (coef s) w /\
    forall i, 0 <= i < N -> (Rabs (IZR (w i) / (IZR Delta ^ D * (IZR Delta ^ D * D0)) - IZR (m i) / D0)
      <= f_stc_error N Delta E G D (f_row N Delta G (powerRZ 2 (-37)) (enc41 (2 ^ G) Delta)) (z0 + e) (IZR Delta ^ D * D0) + e + e)%R.
Proof.
  intros HG1 HG2 HG3 HD0 Hstc Hsts Hst Hct H0 H1 H2 Hz e.
  destruct (C109_CoeffToSlot_double z0 D0 ct m stc st pos ct0 ct1) as (stc' & st' & pos' & ct0' & ct1' & w0 & w1 & E1 & _ & Hst' & Hw0 & Hw1 & Hsl); auto; try lia.
  assert (HSC : (0 < IZR Delta ^ D * D0)%R) by (apply Rmult_lt_0_compat; auto; apply pow_lt; auto).
  destruct (C110_SlotToCoeff_double (z0 + e) (IZR Delta ^ D * D0) e e (fun i => IZR (m i) / D0)%R ct0' ct1' w0 w1 sts st' pos' ct_ HG1 HG2 HG3 HSC Hsts Hst' Hw0 Hw1 H2) as (sts' & st'' & pos'' & ct' & w & E2 & _ & _ & Hw & Hb); auto.
  - intros j Hj. set (L := Z.to_nat (LOGN - 1)).
    assert (Hrv : reverses (LOGN - 1) j (brv L j)) by (apply reverses_brv; [lia|reflexivity]).
    destruct (Hsl j _ Hj Hrv) as [B0 B1]. destruct Hrv as [Hrv _]. fold n in Hrv. assert (Nn : N = 2 * n) by (unfold N, n; rewrite <- Z.pow_succ_r by lia; f_equal; lia).
    pose proof (coef_slots LOGN (fun i => IZR (m i) / D0)%R z0 ltac:(lia) Hz) as HC. cbv beta in HC. fold N in HC.
    pose proof (HC (brv L j) ltac:(lia)) as C0. pose proof (HC (brv L j + n) ltac:(lia)) as C1.
    assert (HT : forall (z : CC) x, (modulus (z - real x)%num <= e)%R -> (Rabs x <= z0)%R -> (modulus z <= z0 + e)%R).
    { intros z x B C. replace z with ((z - real x) + real x : RC)%num by ring. pose proof (modulus_add (z - real x)%num (real x)) as T. rewrite modulus_real in T. lra. }
    split; eapply HT; eauto.
  - exists stc', st', pos', ct0', ct1', sts', st'', pos'', ct', w. auto.
Qed.
End Double.

(** ** Concrete cases: correctly rounded double precision, N = 8 *)
Definition pow64 (x y : R) : R := fl64 (Rpower x y).
Lemma pow64_within : power_within (powerRZ 2 (-52)) pow64.
Proof.
  pose proof u_small as Hu. pose proof (u_is 1 ltac:(lia)) as U. change (2 ^ 1) with 2 in U. change (1 - 53) with (-52) in U. rewrite <- U. split; [lra|]. intros x y Hx Hy.
  assert (H1 : (1 <= Rpower x y)%R). { rewrite <- (Rpower_O x) by lra. destruct (Req_dec y 0) as [->|]; [lra|]. destruct (Req_dec x 1) as [->|]; [rewrite <- !Rpower_mult_distr || idtac|].
    - unfold Rpower. rewrite ln_1, !Rmult_0_r, exp_0. lra.
    - left. apply Rpower_lt; lra. }
  assert (H2 : (Rpower x y <= IZR (2 ^ 27) * IZR (2 ^ 27))%R).
  { apply Rle_trans with (Rpower (IZR (2 ^ 27)) y); [apply Rle_Rpower_l; lra|]. apply Rle_trans with (Rpower (IZR (2 ^ 27)) 2); [apply Rle_Rpower; [apply IZR_le; lia|lra]|].
    change 2%R with (INR 2). rewrite Rpower_pow by (apply IZR_lt; lia). cbn [pow]. lra. }
  unfold pow64. pose proof (ar_rnd _ _ _ _ _ _ _ _ C87_binary64 (Rpower x y)) as Hrd. cbn [rnd F64] in Hrd.
  assert (Htop : (Rabs (Rpower x y) <= top64)%R). { rewrite Rabs_pos_eq by lra. eapply Rle_trans; [exact H2|]. rewrite <- mult_IZR, <- Z.pow_add_r by lia. apply top64_big; lia. }
  specialize (Hrd Htop). rewrite (Rabs_pos_eq (Rpower x y)) in Hrd by lra. pose proof eta_pos. pose proof (eta_u 0 ltac:(lia) ltac:(lia)) as He. change (2 ^ 0) with 1 in He. nra.
Qed.
Lemma ex_encoded B Delta : (0 <= B <= 5)%R -> Delta = 2 ^ 30 -> (0 <= encoded_error 8 Delta (enc41 B Delta) <= 13 / 1073741824)%R.
Proof.
  intros HB ->. pose proof (enc41_pos B (2 ^ 30) ltac:(lra) ltac:(lia)) as H0. unfold encoded_error. unfold enc41 in *. assert (T : (powerRZ 2 (-900) <= 1)%R) by (apply (p2_le (-900) 0); lia). rewrite (p41 2) in *. pose proof u_small as Hu. change (2 ^ 30) with 1073741824 in *.
  assert (4096 * u64 * (B * 1073741824) <= 4096 * u64 * (5 * 1073741824))%R by (apply Rmult_le_compat_l; lra). split; lra.
Qed.
(** the hypotheses of C107-C110 for a general arithmetic hold in double precision *)
Lemma encodable_double LOGQ LOGN Delta B : 2 <= LOGN <= 17 -> 0 < Delta < 2 ^ 64 -> (0 <= B)%R ->
  (B * IZR Delta + powerRZ 2 (-41) * (B * IZR Delta) + 2 < IZR (2 ^ 64))%R -> (B * IZR Delta + powerRZ 2 (-41) * (B * IZR Delta) + 2 < IZR (2 ^ LOGQ))%R ->
  encodable u64 eta64 top64 t64 LOGQ (2 ^ LOGN) (Z.to_nat (LOGN - 1)) Delta B.
Proof.
  intros HL HD HB Hw Hq. assert (HDR : (1 <= IZR Delta)%R) by (apply IZR_le; lia).
  pose proof (num_encode_error LOGN HL B Delta HB HD) as NE. pose proof (num_uB B HB) as HuB. assert (Hx : (0 <= u64 * B * IZR Delta)%R) by (apply Rmult_le_pos; lra).
  rewrite (p41 2) in *. assert (T1 : (powerRZ 2 (-900) <= 1)%R) by (apply (p2_le (-900) 0); lia).
  assert (HBD : (B <= B * IZR Delta)%R) by (rewrite <- (Rmult_1_r B) at 1; apply Rmult_le_compat_l; lra).
  assert (HB1000 : (B <= powerRZ 2 1000)%R). { apply Rle_trans with (IZR (2 ^ 64)); [lra|]. rewrite <- powerRZ_2 by lia. apply p2_le. lia. }
  unfold encodable, diag_error. split; [exact HB|]. split; [apply (num_size_top LOGN HL); lra|]. split; lra.
Qed.
Example C109_C110_hypotheses_case :
  (table_error u64 eta64 t64 (2 ^ 3) <= / 64)%R /\ (IZR (2 ^ 66) <= top64)%R /\ cts_group_fits u64 eta64 top64 t64 (powerRZ 2 (-52)) 3 2 /\ stc_group_fits u64 eta64 top64 t64 3 2 /\
  encodable u64 eta64 top64 t64 120 (2 ^ 3) (Z.to_nat (3 - 1)) (2 ^ 30) (Rpower 2 (- / INR 1) + cts_group_error u64 eta64 t64 (powerRZ 2 (-52)) 3 2) /\
  encodable u64 eta64 top64 t64 120 (2 ^ 3) (Z.to_nat (3 - 1)) (2 ^ 30) (2 ^ (2 - 1) + stc_group_error u64 eta64 t64 3 2).
Proof.
  pose proof u_small as Hu. pose proof (u_is 1 ltac:(lia)) as U. change (2 ^ 1) with 2 in U. change (1 - 53) with (-52) in U.
  destruct (num_cts_group 3 ltac:(lia) (powerRZ 2 (-52)) 2 ltac:(lia) ltac:(rewrite <- U; lra)) as [E1 F1]. destruct (num_stc_group 3 ltac:(lia) 2 ltac:(lia)) as [E2 F2]. rewrite p40 in E1. rewrite p37 in E2.
  split; [apply num_small; lia|]. split; [apply top64_big; lia|]. split; [exact F1|]. split; [exact F2|]. rewrite ex_half. cbn [Nat.sub pow].
  set (x1 := cts_group_error _ _ _ _ _ _) in *. set (x2 := stc_group_error _ _ _ _ _) in *. clearbody x1 x2.
  assert (M : forall B, (0 <= B <= 5)%R -> encodable u64 eta64 top64 t64 120 (2 ^ 3) (Z.to_nat (3 - 1)) (2 ^ 30) B).
  { intros B HB. pose proof (enc41_small B (2 ^ 30)) as X. apply encodable_double; lia || lra. }
  split; apply M; lra.
Qed.
Example C107_linear_transform_case rnd RM b : rand_stream RM rnd ->
  exists st' pos' Act' w,
    f_linear_transform F64 120 3 30 RM rnd 3 None 0%nat (diagonals 4 3 (fun t j => cre Rops (ex_A t j)) (fun t => t) ex_z) (diagonals 4 3 (fun t j => cim Rops (ex_A t j)) (fun t => t) ex_z)
      (repP 120 8 (fun i => ex_m i - negconv 8 (coef s4) b i), repP 120 8 b) (map Some s4) (sq_new 120 8) = Ok (st', pos', Act') /\
    decrypts 120 8 Act' (coef s4) w /\
    forall j, 0 <= j < 4 -> (modulus (slots 8 (IZR (2 ^ 30) * IZR (2 ^ 20)) w j - apply 4 (matrix_of 4 3 (live ex_z ex_z ex_A) (fun t => t)) (slots 8 (IZR (2 ^ 20)) ex_m) j)%num <= / 100)%R.
Proof.
  intros Hr. assert (HQ : widths 120) by (right; lia). assert (HQ2 : widths (2 * 120)) by (right; lia). pose proof u_small as Hu.
  destruct (C107_linear_transform_double F64 C87_binary64 120 3 30 RM rnd s4 HQ HQ2 ltac:(lia) ltac:(lia) ltac:(lia) Hr s4_ternary 1%R 3 ex_A (fun t => t) ex_z ex_z
    (repP 120 8 (fun i => ex_m i - negconv 8 (coef s4) b i), repP 120 8 b) ex_m None 0%nat (sq_new 120 8)) as (st' & pos' & Act' & w & E1 & _ & H0 & H).
  - lra.
  - rewrite (p41 2). change (2 ^ 64) with 18446744073709551616. change (2 ^ 30) with 1073741824. lra.
  - rewrite (p41 2). change (2 ^ 120) with 1329227995784915872903807060280344576. change (2 ^ 30) with 1073741824. lra.
  - lia.
  - intros; lia.
  - intros. unfold ex_A. rewrite modulus_real, Rabs_R1. lra.
  - apply f_ifft_first.
  - apply some_ct; lia.
  - apply new_object2; lia.
  - exists st', pos', Act', w. split; [exact E1|]. split; [exact H0|]. intros j Hj. specialize (H (IZR (2 ^ 20)) j ltac:(apply IZR_lt; lia) Hj). eapply Rle_trans; [exact H|]. clear H.
    change (noise (2 ^ 3) (coef s4)) with 132. change (2 ^ 3) with 8. pose proof (ex_encoded 1 (2 ^ 30) ltac:(lra) eq_refl) as HE. set (h := encoded_error _ _ _) in *. clearbody h.
    unfold f_lt_error. replace 3 with (0 + 1 + 1 + 1) at 1 by lia. rewrite !gsum_S, gsum_0 by lia.
    change (0 + 1 + 1) with 2. change (0 + 1) with 1. unfold ex_z. cbn [Z.eqb andb]. change (Pos.eqb 1 2) with false. change (Pos.eqb 2 2) with true. cbn [andb].
    unfold ex_A. rewrite !modulus_real, Rabs_R1. change (2 ^ (3 - 1)) with 4. pose proof (ex_slots ((j + 0) mod 4) (Z.mod_pos_bound _ 4 ltac:(lia))) as H1. pose proof (ex_slots ((j + 1) mod 4) (Z.mod_pos_bound _ 4 ltac:(lia))) as H2.
    change (2 ^ 20) with 1048576 in *. change (2 ^ 3) with 8 in *. cbn [oadd o0 Rops]. set (x1 := modulus _) in *. clearbody x1. set (x2 := modulus _) in *. clearbody x2.
    assert (h * x1 <= h * 64)%R by (apply Rmult_le_compat_l; lra). assert (h * x2 <= h * 64)%R by (apply Rmult_le_compat_l; lra). lra.
Qed.
Example C108_grouped_case rnd RM b : rand_stream RM rnd ->
  exists st' pos' Act' w,
    f_grouped_lt F64 120 3 30 RM rnd 2 2 2 None 0%nat
      (map (fun d => diagonals 4 2 (fun t j => cre Rops (ex_A t j)) (fun t => t) (fun _ => false)) (range 2)) (map (fun d => diagonals 4 2 (fun t j => cim Rops (ex_A t j)) (fun t => t) (fun _ => false)) (range 2))
      (repP 120 8 (fun i => ex_m i - negconv 8 (coef s4) b i), repP 120 8 b) (map Some s4) (sq_new 120 8) = Ok (st', pos', Act') /\
    decrypts 120 8 Act' (coef s4) w /\
    forall j, 0 <= j < 4 -> (modulus (slots 8 (IZR (2 ^ 30) ^ 1 * IZR (2 ^ 20)) w j - chain 4 (fun _ => matrix_of 4 2 ex_A (fun t => t)) 2 (slots 8 (IZR (2 ^ 20)) ex_m) j)%num <= / 50)%R.
Proof.
  intros Hr. assert (HQ : widths 120) by (right; lia). assert (HQ2 : widths (2 * 120)) by (right; lia). pose proof u_small as Hu. pose proof eta_pos as He. pose proof (eta_u 3 ltac:(lia) ltac:(lia)) as He3. change (2 ^ 3) with 8 in He3.
  assert (HE0 : (0 <= group_error u64 eta64 2 2 (fun _ => 2) (fun _ => 0) 0 <= 1000 * u64)%R).
  { unfold group_error. cbn [prod_error rprod Nat.sub]. unfold mm_error, mm_round. change (2 ^ Z.of_nat 1) with 2. split; lra. }
  destruct (C108_grouped_double F64 C87_binary64 120 3 30 RM rnd s4 HQ HQ2 ltac:(lia) ltac:(lia) ltac:(lia) Hr s4_ternary 5%R (1000 * u64)%R 2 1 2 (fun _ => ex_A) (fun _ t => t) (fun _ _ => false) (fun _ _ => false) (fun _ => 2%R) 64%R (IZR (2 ^ 20))
    (repP 120 8 (fun i => ex_m i - negconv 8 (coef s4) b i), repP 120 8 b) ex_m None 0%nat (sq_new 120 8)) as (st' & pos' & Act' & w & E1 & _ & H0 & H).
  - lra.
  - rewrite (p41 2). change (2 ^ 64) with 18446744073709551616. change (2 ^ 30) with 1073741824. lra.
  - rewrite (p41 2). change (2 ^ 120) with 1329227995784915872903807060280344576. change (2 ^ 30) with 1073741824. lra.
  - lia.
  - lia.
  - intros d Hd t Ht. cbn. lia.
  - intros d j _ _. replace 2 with (0 + 1 + 1) at 1 by lia. rewrite !gsum_S, gsum_0 by lia. unfold ex_A. rewrite !modulus_real, Rabs_R1. cbn. lra.
  - intros d Hd. replace d with 0%nat by lia. split; [|unfold group_rows; cbn [rprod]; split; lra].
    unfold group_fits. cbn [prod_fits prod_error rprod Nat.sub]. change (2 ^ Z.of_nat 1) with 2. split; [exact I|]. split; [lra|]. pose proof (top64_big 6 ltac:(lia)) as Ht. change (2 ^ 6) with 64 in Ht. lra.
  - apply IZR_lt. lia.
  - apply f_ifft_first.
  - apply some_ct; lia.
  - apply new_object2; lia.
  - apply ex_slots.
  - exists st', pos', Act', w. split; [exact E1|]. split; [exact H0|]. intros j Hj. specialize (H j Hj).
    change (noise (2 ^ 3) (coef s4)) with 132 in *. change (2 ^ 3) with 8 in *. eapply Rle_trans; [exact H|].
    pose proof (ex_encoded 5 (2 ^ 30) ltac:(lra) eq_refl) as HE. set (h := encoded_error _ _ _) in *. clearbody h.
    unfold switch_noise, group_rows. cbn [error_after size_after pow rprod].
    change (Z.of_nat 2) with 2. change (2 ^ 2) with 4. change (2 ^ 30) with 1073741824. change (2 ^ 20) with 1048576. nra.
Qed.
Lemma ex_f_cts_error : (0 <= f_cts_error 8 (2 ^ 30) 132 1 (f_row 8 (2 ^ 30) 2 (powerRZ 2 (-40)) (enc41 2 (2 ^ 30))) 64 (IZR (2 ^ 20)) <= / 100)%R.
Proof.
  pose proof (ex_encoded 2 (2 ^ 30) ltac:(lra) eq_refl) as HE. unfold f_row. set (h := encoded_error _ _ _) in *. clearbody h. rewrite p40. pose proof u_small as Hu.
  unfold f_cts_error, f_cts_rounding, switch_noise. cbn [error_after size_after pow]. rewrite ex_half. change (Z.of_nat 2) with 2. change (3 ^ 2) with 9. change (2 ^ 30) with 1073741824. change (2 ^ 20) with 1048576.
  set (dl := (_ + 9 * h)%R). assert (Hdl : (0 <= dl <= / 1000000)%R) by (unfold dl; lra). clearbody dl. nra.
Qed.
Example C109_CoeffToSlot_case rnd RM b : rand_stream RM rnd ->
  exists stc' st' pos' ct0 ct1 w0 w1,
    f_CoeffToSlot F64 pow64 120 3 30 RM rnd 2 None None 0%nat (repP 120 8 (fun i => ex_m i - negconv 8 (coef s4) b i), repP 120 8 b) (map Some s4) (sq_new 120 8) (sq_new 120 8) = Ok (stc', st', pos', ct0, ct1) /\
    decrypts 120 8 ct0 (coef s4) w0 /\ decrypts 120 8 ct1 (coef s4) w1 /\
    (modulus (slots 8 (IZR (2 ^ 30) ^ 1 * IZR (2 ^ 20)) w0 1 - real (IZR (ex_m 2) / IZR (2 ^ 20)))%num <= / 100)%R /\
    (modulus (slots 8 (IZR (2 ^ 30) ^ 1 * IZR (2 ^ 20)) w1 1 - real (IZR (ex_m 6) / IZR (2 ^ 20)))%num <= / 100)%R.
Proof.
  intros Hr. assert (HQ : widths 120) by (right; lia). assert (HQ2 : widths (2 * 120)) by (right; lia).
  destruct (C109_CoeffToSlot_double F64 C87_binary64 120 3 30 RM rnd s4 HQ HQ2 ltac:(lia) ltac:(lia) ltac:(lia) Hr s4_ternary pow64 _ pow64_within (Rle_refl _) 2 1 ltac:(lia) ltac:(reflexivity) 64%R (IZR (2 ^ 20))
    (repP 120 8 (fun i => ex_m i - negconv 8 (coef s4) b i), repP 120 8 b) ex_m None None 0%nat (sq_new 120 8) (sq_new 120 8)) as (stc' & st' & pos' & ct0 & ct1 & w0 & w1 & E1 & _ & _ & H0 & H1 & H).
  - lia.
  - lia.
  - apply IZR_lt. lia.
  - apply f_cts_first.
  - apply f_ifft_first.
  - apply some_ct; lia.
  - apply new_object2; lia.
  - apply new_object2; lia.
  - apply ex_slots.
  - exists stc', st', pos', ct0, ct1, w0, w1. split; [exact E1|]. split; [exact H0|]. split; [exact H1|].
    assert (Hrv : reverses (3 - 1) 1 2). { apply reverses_brv; [lia|reflexivity]. }
    destruct (H 1 2 ltac:(lia) Hrv) as [B0 B1]. pose proof ex_f_cts_error as X. change (noise (2 ^ 3) (coef s4)) with 132 in *. change (2 ^ 3) with 8 in *. change (2 + 2 ^ (3 - 1)) with 6 in B1.
    split; [eapply Rle_trans; [exact B0|lra]|eapply Rle_trans; [exact B1|lra]].
Qed.
Example C110_round_trip_case rnd RM b : rand_stream RM rnd ->
  exists stc' st' pos' ct0 ct1 sts' st'' pos'' ct w,
    f_CoeffToSlot F64 pow64 120 3 30 RM rnd 2 None None 0%nat (repP 120 8 (fun i => ex_m i - negconv 8 (coef s4) b i), repP 120 8 b) (map Some s4) (sq_new 120 8) (sq_new 120 8) = Ok (stc', st', pos', ct0, ct1) /\
    f_SlotToCoeff F64 120 3 30 RM rnd 2 None st' pos' ct0 ct1 (map Some s4) (sq_new 120 8) = Ok (sts', st'', pos'', ct) /\
    decrypts 120 8 ct (coef s4) w /\
    forall i, 0 <= i < 8 -> (Rabs (IZR (w i) / (IZR (2 ^ 30) ^ 1 * (IZR (2 ^ 30) ^ 1 * IZR (2 ^ 20))) - IZR (ex_m i) / IZR (2 ^ 20)) <= / 20)%R.
Proof.
  intros Hr. assert (HQ : widths 120) by (right; lia). assert (HQ2 : widths (2 * 120)) by (right; lia).
  destruct (C110_round_trip_double F64 C87_binary64 120 3 30 RM rnd s4 HQ HQ2 ltac:(lia) ltac:(lia) ltac:(lia) Hr s4_ternary pow64 _ pow64_within (Rle_refl _) 2 1 ltac:(lia) ltac:(reflexivity) 64%R (IZR (2 ^ 20))
    (repP 120 8 (fun i => ex_m i - negconv 8 (coef s4) b i), repP 120 8 b) ex_m None None None 0%nat (sq_new 120 8) (sq_new 120 8) (sq_new 120 8)) as (stc' & st' & pos' & ct0 & ct1 & sts' & st'' & pos'' & ct & w & E1 & E2 & H0 & H).
  - lia.
  - lia.
  - lia.
  - apply IZR_lt. lia.
  - apply f_cts_first.
  - apply f_stc_first.
  - apply f_ifft_first.
  - apply some_ct; lia.
  - apply new_object2; lia.
  - apply new_object2; lia.
  - apply new_object2; lia.
  - apply ex_slots.
  - exists stc', st', pos', ct0, ct1, sts', st'', pos'', ct, w. split; [exact E1|]. split; [exact E2|]. split; [exact H0|]. intros i Hi. specialize (H i Hi).
    pose proof ex_f_cts_error as X. change (noise (2 ^ 3) (coef s4)) with 132 in *. change (2 ^ 3) with 8 in *. eapply Rle_trans; [exact H|].
    set (e := f_cts_error _ _ _ _ _ _ _) in *. clearbody e. pose proof (ex_encoded (2 ^ 2) (2 ^ 30) ltac:(lra) eq_refl) as HE. unfold f_row. set (h := encoded_error _ _ _) in *. clearbody h. rewrite p37. pose proof u_small as Hu.
    unfold f_stc_error, switch_noise. cbn [error_after size_after pow]. change (Z.of_nat 2) with 2. change (3 ^ 2) with 9. change (2 ^ 30) with 1073741824. change (2 ^ 20) with 1048576.
    set (dl := (_ + 9 * h)%R). assert (Hdl : (0 <= dl <= / 1000000)%R) by (unfold dl; lra). clearbody dl. nra.
Qed.
Print Assumptions C107_linear_transform.
Print Assumptions C107_linear_transform_double.
Print Assumptions C108_grouped.
Print Assumptions C108_grouped_double.
Print Assumptions C109_CoeffToSlot.
Print Assumptions C109_CoeffToSlot_double.
Print Assumptions C110_SlotToCoeff.
Print Assumptions C110_SlotToCoeff_double.
Print Assumptions C110_round_trip_double.
