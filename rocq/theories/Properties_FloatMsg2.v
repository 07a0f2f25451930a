(** C118, C119 in double precision, with concrete cases. *)
From Coq Require Import ZArith List Bool Lia Reals Lra Ring.
From Verif Require Import Base BaseFacts GSum Matrix MatrixFacts MatMulFacts DFT DFTTheory DFTFacts FFTFacts SpecMat Properties_Mat Properties_Msg SpecDFT SpecEnc SlotFacts
  Properties_Plain SpecLin LinTrans LinSlots Properties_DFT SupFacts EncodeFacts.
From Verif Require Import Float SpecFloat FloatFacts FloatError Binary64 FloatNum Properties_Float.
From Verif Require Import FloatDot FloatMsg SpecFloatMsg FloatMsgFacts FloatDirect Properties_FloatMsg Properties_FloatDFT Properties_FloatDFT2.
Import ListNotations.
Open Scope Z_scope.

(** IEEE rounding keeps the sign *)
Lemma rhe_nonneg y : (0 <= y)%R -> 0 <= rhe y.
Proof.
  intros H. pose proof (rhe_near y) as Q. apply abs_le in Q. assert (-1 < rhe y); [|lia]. apply lt_IZR. lra.
Qed.
Theorem C118_sign_binary64 : keeps_sign fl64.
Proof.
  intros x Hx. unfold fl64. destruct (Req_EM_T x 0); [lra|]. pose proof (p2_pos (grid x)). pose proof (p2_pos (- grid x)).
  apply Rmult_le_pos; [|lra]. apply IZR_le. apply rhe_nonneg. apply Rmult_le_pos; lra.
Qed.

Lemma gsum_const_R k c : 0 <= k -> (gsum (K := Rops) k (fun _ => c) = IZR k * c)%R.
Proof.
  intros Hk. revert Hk. refine (gsum_ind k (fun i => (gsum (K := Rops) i (fun _ => c) = IZR i * c)%R) _ _).
  - rewrite gsum_0 by lia. change (0 = 0 * c)%R. ring.
  - intros j Hj IH. rewrite gsum_S, plus_IZR by lia. change (gsum (K := Rops) j (fun _ => c) + c = (IZR j + 1) * c)%R. rewrite IH. ring.
Qed.

Section Double.
Context (F : fpu) (HF : double F).
Lemma count_u n : 0 <= n <= 2 ^ 17 -> (IZR n * u64 <= / 1024)%R.
Proof. intros Hn. assert (0 <= IZR n <= 131072)%R by (split; apply IZR_le; lia). rewrite Rmult_comm. pose proof (num_uB (IZR n) ltac:(lra)). lra. Qed.
Lemma count_top n X : 0 <= n <= 2 ^ 17 -> (X <= powerRZ 2 1019)%R -> (5 * X + IZR n + 1 <= top64)%R.
Proof. intros Hn HX. assert (IZR n <= IZR (2 ^ 17))%R by (apply IZR_le; lia). pose proof (top_room 17 ltac:(lia) X HX). lra. Qed.
Lemma sqrt_eta n : 0 <= n <= 2 ^ 17 -> (4 * sqrt (IZR n * eta64) <= powerRZ 2 (-500))%R.
Proof.
  intros Hn. assert (0 <= IZR n <= IZR (2 ^ 17))%R by (split; apply IZR_le; lia). pose proof eta_pos.
  assert (Q : (IZR n * eta64 <= powerRZ 2 (-502) * powerRZ 2 (-502))%R).
  { apply Rle_trans with (IZR (2 ^ 17) * eta64)%R; [apply Rmult_le_compat_r; lra|]. rewrite <- p2_add. apply eta_scaled; lia. }
  apply sqrt_le_1_alt in Q. rewrite sqrt_square in Q by (pose proof (p2_pos (-502)); lra). change (-500) with (2 + -502). rewrite p2_add. change (powerRZ 2 2) with (2 * (2 * 1))%R. lra.
Qed.
Lemma p50 : (powerRZ 2 (-50) = 8 * u64)%R.
Proof. symmetry. apply (u_is 3). lia. Qed.

Theorem C118_norm_double n (z : Z -> CC) B : keeps_sign (rnd F) -> 0 < n <= 2 ^ 17 -> (0 <= B <= powerRZ 2 500)%R -> (forall j, 0 <= j < n -> (modulus (z j) <= B)%R) ->
  let S := gsum (K := Rops) n (fun i => modulus (z i) * modulus (z i))%R in
  exists r, f_norm F n (carray n z) = Ok r /\ (Rabs (r - sqrt S) <= IZR n * (powerRZ 2 (-50) * sqrt S) + powerRZ 2 (-500))%R.
Proof.
  intros Hk Hn HB Hz S. destruct (C118_norm F u64 eta64 top64 t64 HF n z Hk ltac:(lia) (count_u n ltac:(lia))) as (r & E & H).
  - apply count_top; [lia|]. apply Rle_trans with (IZR n * (B * B))%R.
    + apply gsum_const_le; [lia|]. intros j Hj. apply Rmult_le_compat; auto using modulus_nonneg.
    + apply Rle_trans with (IZR (2 ^ 17) * (powerRZ 2 500 * powerRZ 2 500))%R.
      * apply Rmult_le_compat; [apply IZR_le; lia|apply Rmult_le_pos; lra|apply IZR_le; lia|apply Rmult_le_compat; lra].
      * rewrite <- powerRZ_2 by lia. rewrite <- !p2_add. apply p2_le. lia.
  - exists r. split; [exact E|]. fold S in H. eapply Rle_trans; [exact H|]. unfold root_error. rewrite p50. pose proof (sqrt_eta n ltac:(lia)). lra.
Qed.
Theorem C118_sup_norm_double n (z : Z -> CC) M : keeps_sign (rnd F) -> 0 <= n -> largest n (fun j => modulus (z j)) M -> (M <= powerRZ 2 500)%R ->
  exists m, f_sup_norm F n (carray n z) = Ok m /\ (Rabs (m - M) <= powerRZ 2 (-50) * M + powerRZ 2 (-500))%R.
Proof.
  intros Hk Hn HM Hb. assert (HM0 : (0 <= M)%R) by apply HM. destruct (C118_sup_norm F u64 eta64 top64 t64 HF n z M Hk Hn HM) as (m & E & H).
  - assert (Q : (M * M <= powerRZ 2 1000)%R). { change 1000 with (500 + 500). rewrite p2_add. apply Rmult_le_compat; lra. }
    pose proof (p2_le 1000 1019 ltac:(lia)). pose proof (count_top 1 (M * M) ltac:(lia) ltac:(lra)). lra.
  - exists m. split; [exact E|]. eapply Rle_trans; [exact H|]. unfold root_error. rewrite p50. pose proof (sqrt_eta 1 ltac:(lia)). lra.
Qed.
Lemma dot_double S X : 0 <= S <= 2 ^ 17 -> (dot_error u64 eta64 S X <= IZR S * (powerRZ 2 (-50) * X) + powerRZ 2 (-1000))%R.
Proof.
  intros HS. unfold dot_error. rewrite p50. assert (0 <= IZR S <= 131072)%R by (split; apply IZR_le; lia). pose proof (tiny 0). pose proof eta_pos.
  assert (IZR S * eta64 <= 131072 * eta64)%R by (apply Rmult_le_compat_r; lra). lra.
Qed.
Theorem C119_mvp_double n S (x : Z -> CC) (vr vi : Z -> Z -> R) o oi zr zi p X : 0 < n <= 2 ^ 30 -> 0 <= S <= 2 ^ 17 ->
  flags_right (K := Rops) n S vr vi o oi zr zi -> carray_of (K := Rops) n p ->
  (forall i, 0 <= i < n -> (gsum (K := Rops) S (fun s => modulus (mk Rops (vr s i) (vi s i)) * modulus (x ((i + o s) mod n))) <= X)%R) -> (X <= powerRZ 2 1000)%R ->
  exists z, msg_mvp (K := Fops F) n S (carray n x) (diagonals n S vr o zr) (diagonals n S vi oi zi) p = Ok (carray (K := Rops) n z) /\
    forall i, 0 <= i < n -> (modulus (z i - apply n (cmat (matrix_of (K := Rops) n S vr o) (matrix_of (K := Rops) n S vi oi)) x i)%num <= IZR S * (powerRZ 2 (-50) * X) + powerRZ 2 (-1000))%R.
Proof.
  intros Hn HS HF1 Hp HX Hb. destruct (C119_mvp F u64 eta64 top64 t64 HF n S x vr vi o oi zr zi p X Hn ltac:(lia) (count_u S HS) HF1 Hp HX) as (z & E & H).
  - apply count_top; [lia|]. pose proof (p2_le 1000 1019 ltac:(lia)). lra.
  - exists z. split; [exact E|]. intros i Hi. eapply Rle_trans; [exact (H i Hi)|]. apply dot_double. lia.
Qed.
Theorem C119_matrix_product_double N (A B : Z -> Z -> CC) Cr Ci X : 0 <= N <= 2 ^ 17 -> square (F := R) N Cr -> square (F := R) N Ci ->
  (forall i j, 0 <= i < N -> 0 <= j < N -> (gsum (K := Rops) N (fun k => modulus (A i k) * modulus (B k j)) <= X)%R) -> (X <= powerRZ 2 1000)%R ->
  exists C : Z -> Z -> CC,
    matrix_product (K := Fops F) N (rows N (fun i j => cre Rops (A i j))) (rows N (fun i j => cim Rops (A i j)))
      (rows N (fun i j => cre Rops (B i j))) (rows N (fun i j => cim Rops (B i j))) Cr Ci = Ok (rows N (fun i j => cre Rops (C i j)), rows N (fun i j => cim Rops (C i j))) /\
    forall i j, 0 <= i < N -> 0 <= j < N -> (modulus (C i j - product N A B i j)%num <= IZR N * (powerRZ 2 (-50) * X) + powerRZ 2 (-1000))%R.
Proof.
  intros HN Hr Hi HX Hb. destruct (C119_matrix_product F u64 eta64 top64 t64 HF N A B Cr Ci X ltac:(lia) (count_u N HN) Hr Hi HX) as (C & E & H).
  - apply count_top; [lia|]. pose proof (p2_le 1000 1019 ltac:(lia)). lra.
  - exists C. split; [exact E|]. intros i j Hi' Hj. eapply Rle_trans; [exact (H i j Hi' Hj)|]. apply dot_double. lia.
Qed.
End Double.

(** ** Concrete cases: IEEE double precision, slots (j+1)/3 + i/7 *)
Definition sample (j : Z) : CC := mk Rops (IZR (j + 1) / 3)%R (/ 7)%R.
Lemma sample_bound j : 0 <= j < 4 -> (modulus (sample j) <= 2)%R.
Proof.
  intros Hj. assert (1 <= IZR (j + 1) <= 4)%R by (split; apply IZR_le; lia). eapply Rle_trans; [apply (modulus_comp (sample j) (4 / 3)%R)|lra]; cbn; apply Rabs_le; lra.
Qed.
Lemma small_top x : (x <= 1000)%R -> (x <= top64)%R.
Proof. intros H. pose proof (top64_big 10 ltac:(lia)). change (2 ^ 10) with 1024 in *. lra. Qed.
Lemma blank4 : carray_of (K := Rops) 4 (gfresh R 4, gfresh R 4).
Proof. split; reflexivity. Qed.
Example C118_example : exists s d p, msg_add (K := Fops F64) 4 (carray 4 sample) (carray 4 sample) (gfresh R 4, gfresh R 4) = Ok (carray (K := Rops) 4 s) /\
  msg_sub (K := Fops F64) 4 (carray 4 sample) (carray 4 sample) (gfresh R 4, gfresh R 4) = Ok (carray (K := Rops) 4 d) /\
  msg_mul (K := Fops F64) 4 (carray 4 sample) (carray 4 sample) (gfresh R 4, gfresh R 4) = Ok (carray (K := Rops) 4 p) /\
  forall i, 0 <= i < 4 -> (modulus (s i - (sample i + sample i))%num <= 7 * u64 /\ modulus (d i) <= 2 * eta64 /\ modulus (p i - sample i * sample i)%num <= 19 * u64)%R.
Proof.
  assert (He : (eta64 <= u64 / 1000)%R) by (pose proof (small_eta 0 1 ltac:(lra)); lra). pose proof u_pos as Hu. pose proof eta_pos as He0.
  destruct (C118_add F64 u64 eta64 top64 t64 C87_binary64 4 sample sample (gfresh R 4, gfresh R 4) ltac:(lia) blank4) as (s & E1 & H1).
  { intros i Hi. apply small_top. eapply Rle_trans; [apply modulus_add|]. pose proof (sample_bound i Hi). lra. }
  destruct (C118_sub F64 u64 eta64 top64 t64 C87_binary64 4 sample sample (gfresh R 4, gfresh R 4) ltac:(lia) blank4) as (d & E2 & H2).
  { intros i Hi. apply small_top. eapply Rle_trans; [apply modulus_sub|]. pose proof (sample_bound i Hi). lra. }
  destruct (C118_mul F64 u64 eta64 top64 t64 C87_binary64 4 sample sample (gfresh R 4, gfresh R 4) ltac:(lia) blank4) as (p & E3 & H3).
  { intros i Hi. apply small_top. pose proof (sample_bound i Hi). pose proof (modulus_nonneg (sample i)). nra. }
  exists s, d, p. split; [exact E1|]. split; [exact E2|]. split; [exact E3|]. intros i Hi. pose proof (sample_bound i Hi) as Q. pose proof (modulus_nonneg (sample i)) as Q0.
  specialize (H1 i Hi). specialize (H2 i Hi). specialize (H3 i Hi). split; [|split].
  - eapply Rle_trans; [exact H1|]. assert (u64 * modulus (sample i + sample i)%num <= u64 * 4)%R; [|lra]. apply Rmult_le_compat_l; [lra|]. eapply Rle_trans; [apply modulus_add|]. lra.
  - replace (sample i - sample i)%num with (0%num : RC) in H2 by (apply RC_eq; cbn; ring). rewrite modulus_0, Rmult_0_r in H2. replace (d i - 0)%num with (d i) in H2 by (apply RC_eq; cbn; ring). lra.
  - eapply Rle_trans; [exact H3|]. assert (u64 * (modulus (sample i) * modulus (sample i)) <= u64 * 4)%R; [|lra]. apply Rmult_le_compat_l; [lra|]. nra.
Qed.
Example C118_norm_example : exists r m, f_norm F64 (2 ^ 12) (carray (2 ^ 12) (fun _ => real 1)) = Ok r /\ f_sup_norm F64 (2 ^ 12) (carray (2 ^ 12) (fun _ => real 1)) = Ok m /\
  (Rabs (r - 64) <= powerRZ 2 (-31) /\ Rabs (m - 1) <= powerRZ 2 (-49))%R.
Proof.
  assert (M1 : modulus (real 1) = 1%R) by (rewrite modulus_real; apply Rabs_right; lra).
  destruct (C118_norm_double F64 C87_binary64 (2 ^ 12) (fun _ => real 1) 1 C118_sign_binary64 ltac:(lia)) as (r & E1 & H1).
  { pose proof (p2_le 0 500 ltac:(lia)) as Q. change (powerRZ 2 0) with 1%R in Q. lra. }
  { intros j _. rewrite M1. lra. }
  destruct (C118_sup_norm_double F64 C87_binary64 (2 ^ 12) (fun _ => real 1) 1 C118_sign_binary64 ltac:(lia)) as (m & E2 & H2).
  { split; [lra|]. split; [intros j _; rewrite M1; lra|]. right. exists 0. split; [lia|]. symmetry. exact M1. }
  { pose proof (p2_le 0 500 ltac:(lia)) as Q. change (powerRZ 2 0) with 1%R in Q. lra. }
  exists r, m. split; [exact E1|]. split; [exact E2|]. split.
  - assert (ES : (gsum (K := Rops) (2 ^ 12) (fun _ => modulus (real 1) * modulus (real 1)) = 64 * 64)%R).
    { rewrite M1. rewrite gsum_const_R by lia. change (2 ^ 12) with 4096. lra. }
    cbv zeta in H1. rewrite ES, sqrt_square in H1 by lra. eapply Rle_trans; [exact H1|]. change (IZR (2 ^ 12)) with (IZR (2 ^ 12)). change 64%R with (IZR (2 ^ 6)). rewrite <- !powerRZ_2 by lia. rewrite <- !p2_add. change (12 + (-50 + 6)) with (-32).
    change (-31) with (1 + -32). rewrite p2_add. change (powerRZ 2 1) with (2 * 1)%R. pose proof (p2_le (-500) (-32) ltac:(lia)). lra.
  - eapply Rle_trans; [exact H2|]. change (-49) with (1 + -50). rewrite p2_add. change (powerRZ 2 1) with (2 * 1)%R. pose proof (p2_le (-500) (-50) ltac:(lia)). lra.
Qed.
Example C118_max_error_example : exists a b, f_max_error F64 4 (carray 4 (fun j => real (IZR j / 3))) (carray 4 (fun j => real 0)) = Ok (a, b) /\ (Rabs (a - 1) <= 2 * u64 /\ Rabs b <= eta64)%R.
Proof.
  assert (He : (eta64 <= u64 / 1000)%R) by (pose proof (small_eta 0 1 ltac:(lra)); lra). pose proof u_pos as Hu.
  assert (R3 : forall j, 0 <= j < 4 -> (0 <= IZR j <= 3)%R) by (intros j Hj; split; apply IZR_le; lia).
  destruct (C118_max_error F64 u64 eta64 top64 t64 C87_binary64 4 (fun j => real (IZR j / 3)) (fun j => real 0) 1 0 ltac:(lia)) as (a & b & E & H1 & H2).
  - split; [lra|]. split; [|right; exists 3; split; [lia|]; cbn; rewrite Rabs_right; lra]. intros j Hj. specialize (R3 j Hj). cbn. apply Rabs_le. lra.
  - split; [lra|]. split; [|left; reflexivity]. intros j Hj. cbn. rewrite Rminus_0_r, Rabs_R0. lra.
  - apply small_top. lra.
  - apply small_top. lra.
  - exists a, b. split; [exact E|]. rewrite Rmult_0_r, Rminus_0_r in H2. lra.
Qed.
(** all entries of the factors have modulus at most 2 *)
Example C119_example : exists C : Z -> Z -> CC, let A := fun i k => sample k in let B := fun k j => sample j in
  matrix_product (K := Fops F64) 4 (rows 4 (fun i j => cre Rops (A i j))) (rows 4 (fun i j => cim Rops (A i j))) (rows 4 (fun i j => cre Rops (B i j))) (rows 4 (fun i j => cim Rops (B i j)))
    (repeat (gfresh R 4) 4) (repeat (gfresh R 4) 4) = Ok (rows 4 (fun i j => cre Rops (C i j)), rows 4 (fun i j => cim Rops (C i j))) /\
  forall i j, 0 <= i < 4 -> 0 <= j < 4 -> (modulus (C i j - product 4 A B i j)%num <= powerRZ 2 (-43))%R.
Proof.
  destruct (C119_matrix_product_double F64 C87_binary64 4 (fun i k => sample k) (fun k j => sample j) (repeat (gfresh R 4) 4) (repeat (gfresh R 4) 4) 16 ltac:(lia)) as (C & E & H).
  - split; [reflexivity|]. repeat constructor.
  - split; [reflexivity|]. repeat constructor.
  - intros i j Hi Hj. replace 16%R with (IZR 4 * 4)%R by lra. apply gsum_const_le; [lia|]. intros k Hk. pose proof (sample_bound k Hk). pose proof (sample_bound j Hj). pose proof (modulus_nonneg (sample k)). pose proof (modulus_nonneg (sample j)). replace 4%R with (2 * 2)%R by lra. apply Rmult_le_compat; lra.
  - pose proof (p2_le 4 1000 ltac:(lia)) as Q. rewrite (powerRZ_2 4) in Q by lia. exact Q.
  - exists C. split; [exact E|]. intros i j Hi Hj. eapply Rle_trans; [exact (H i j Hi Hj)|]. change 4%R with (IZR (2 ^ 2)). change 16%R with (IZR (2 ^ 4)). rewrite <- !powerRZ_2 by lia. rewrite <- !p2_add. change (2 + (-50 + 4)) with (-44).
    change (-43) with (1 + -44). rewrite p2_add. change (powerRZ 2 1) with (2 * 1)%R. pose proof (p2_le (-1000) (-44) ltac:(lia)). lra.
Qed.
(** two diagonals, 0 and 3, the second flagged as zero in its imaginary part only *)
Example C119_mvp_example : exists z, let A := matrix_of (K := Rops) 4 2 (fun s i => IZR (s + 1)) (fun s => 3 * s) in let O := matrix_of (K := Rops) 4 2 (fun _ _ => 0%R) (fun s => 3 * s) in
  msg_mvp (K := Fops F64) 4 2 (carray 4 sample) (diagonals 4 2 (fun s i => IZR (s + 1)) (fun s => 3 * s) (fun _ => false)) (diagonals 4 2 (fun _ _ => 0%R) (fun s => 3 * s) (fun s => s =? 1)) (gfresh R 4, gfresh R 4) = Ok (carray (K := Rops) 4 z) /\
  forall i, 0 <= i < 4 -> (modulus (z i - apply 4 (cmat A O) sample i)%num <= powerRZ 2 (-45))%R.
Proof.
  destruct (C119_mvp_double F64 C87_binary64 4 2 sample (fun s i => IZR (s + 1)) (fun _ _ => 0%R) (fun s => 3 * s) (fun s => 3 * s) (fun _ => false) (fun s => s =? 1) (gfresh R 4, gfresh R 4) 8 ltac:(lia) ltac:(lia)) as (z & E & H).
  - intros s Hs. cbn -[Z.mul]. split; [lia|reflexivity].
  - apply blank4.
  - intros i Hi. replace 8%R with (IZR 2 * 4)%R by lra. apply gsum_const_le; [lia|]. intros s Hs. assert (Hm : 0 <= (i + 3 * s) mod 4 < 4) by (apply Z.mod_pos_bound; lia). pose proof (sample_bound _ Hm). pose proof (modulus_nonneg (sample ((i + 3 * s) mod 4))).
    change (mk Rops (IZR (s + 1)) 0%R) with (real (IZR (s + 1))). rewrite modulus_real. assert (0 <= IZR (s + 1) <= 2)%R by (split; apply IZR_le; lia). rewrite Rabs_right by lra. replace 4%R with (2 * 2)%R by lra. apply Rmult_le_compat; lra.
  - pose proof (p2_le 3 1000 ltac:(lia)) as Q. rewrite (powerRZ_2 3) in Q by lia. exact Q.
  - exists z. split; [exact E|]. intros i Hi. eapply Rle_trans; [exact (H i Hi)|]. change 2%R with (IZR (2 ^ 1)) at 1. change 8%R with (IZR (2 ^ 3)). rewrite <- !powerRZ_2 by lia. rewrite <- !p2_add. change (1 + (-50 + 3)) with (-46).
    change (-45) with (1 + -46). rewrite p2_add. change (powerRZ 2 1) with (2 * 1)%R. pose proof (p2_le (-1000) (-46) ltac:(lia)). lra.
Qed.
