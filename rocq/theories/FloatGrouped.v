(** The grouped linear transforms of ciphertexts in floating-point arithmetic. *)
From Coq Require Import ZArith List Bool Lia Reals Lra Ring.
From Verif Require Import Base BaseFacts ZQ RQ RQFacts Conv ConvFacts Core CoreFacts Rot RotFacts GSum Matrix MatrixFacts MatMulFacts DFT DFTTheory DFTFacts FFTFacts SpecZQ SpecPoly SpecScheme SpecMat Properties_Mat SpecDFT SpecEnc SlotFacts
  Encode EncodeFacts Properties_Conv Properties_Core Properties_Rot Properties_Enc Properties_Plain SpecLin LinTrans LinTransFacts LinSlots GroupFacts GroupSlots.
From Verif Require Import Float SpecFloat FloatFacts FloatError FloatNum Properties_Float.
From Verif Require Import SpecFloatLin FloatLin FloatMM FloatGroup FloatSerial.
Import ListNotations.
Open Scope Z_scope.
Add Ring RCfgr : HR.

Section Grouped.
Context (F : fpu) (u eta top t : R) (ar : arithmetic u eta top t (rnd F) (dpi F) (lcos F) (lsin F)).
Context (LOGQ LOGN LOGDELTA RM : Z) (rng : nat -> Z) (s : list Z).
Context (HQ : widths LOGQ) (HQ2 : widths (2 * LOGQ)) (HL : 2 <= LOGN <= 17) (HD : 0 <= LOGDELTA < 64) (Hr : rand_stream RM rng).
Let N := 2 ^ LOGN.
Let n := 2 ^ (LOGN - 1).
Context (Hs : ternary N s).
Let Delta := 2 ^ LOGDELTA.
Let E := noise N (coef s).
Let n_ok : 0 < n <= 2 ^ 30.
Proof. unfold n. split; [apply Z.pow_pos_nonneg; lia|apply Z.pow_le_mono_r; lia]. Qed.

Lemma fgood_bound S D i X Y M a b r M' a' b' r' : (forall d, 0 <= d < D -> M d = M' d) -> (forall d, 0 <= d < D -> a d = a' d) -> (forall d, 0 <= d < D -> b d = b' d) -> (forall d, 0 <= d < D -> r d = r' d) ->
  fgood n S D i X Y M a b r -> fgood n S D i X Y M' a' b' r'.
Proof.
  intros HM Ha Hb Hrr (fr & fi & -> & -> & H). exists fr, fi. split; [auto|]. split; [auto|]. intros k Hk. specialize (H k Hk). rewrite (HM k Hk), (Ha k Hk), (Hb k Hk), (Hrr k Hk) in H. exact H.
Qed.
Lemma f_serial_group B ee rr S G D Br Bi (M M' : Z -> Z -> Z -> CC) (a b r : Z -> R) z0 D0 ct m st pos Act :
  encodes_within F LOGQ LOGN LOGDELTA B ee -> (0 <= ee)%R ->
  0 <= S ^ Z.of_nat G -> fgood n (S ^ Z.of_nat G) (Z.of_nat D) (Z.of_nat D) Br Bi M' (fun d => group_rows G (fun k => a (Z.of_nat k)) (Z.to_nat d)) (fun d => group_entries G (fun k => a (Z.of_nat k)) (fun k => b (Z.of_nat k)) (Z.to_nat d))
    (fun d => group_error u eta S G (fun k => a (Z.of_nat k)) (fun k => r (Z.of_nat k)) (Z.to_nat d)) ->
  (forall d x j, (d < D)%nat -> 0 <= j < n -> apply n (M' (Z.of_nat d)) x j = chain n (fun k => M (Z.of_nat (G * d + k))) G x j) ->
  (forall d, (d < D)%nat -> let e := group_error u eta S G (fun k => a (Z.of_nat k)) (fun k => r (Z.of_nat k)) d in
    (group_entries G (fun k => a (Z.of_nat k)) (fun k => b (Z.of_nat k)) d + e <= B)%R /\ (e <= rr)%R) -> (0 < D0)%R ->
  f_ifft_static F LOGN st -> decrypts LOGQ N ct (coef s) m -> object2 LOGQ N Act ->
  (forall j, 0 <= j < n -> (modulus (slots N D0 m j) <= z0)%R) ->
  let a' := group_rows G (fun k => a (Z.of_nat k)) in
  let dl := (rr + IZR (S ^ Z.of_nat G) * encoded_error N Delta ee)%R in
  let kp d := (IZR N * IZR E / (2 * (IZR Delta ^ d * D0)))%R in
  exists st' pos' Act' w, f_serial_lt F LOGQ LOGN LOGDELTA RM rng (S ^ Z.of_nat G) (Z.of_nat D) st pos Br Bi ct (map Some s) Act = Ok (st', pos', Act') /\ f_ifft_static F LOGN st' /\
    decrypts LOGQ N Act' (coef s) w /\
    forall j, 0 <= j < n -> (modulus (slots N (IZR Delta ^ D * D0) w j) <= size_after a' dl z0 kp D)%R /\
      (modulus (slots N (IZR Delta ^ D * D0) w j - chain n (fun d => M (Z.of_nat d)) (G * D) (slots N D0 m) j)%num <= error_after a' dl z0 kp D)%R.
Proof.
  intros Henc Hee HS HB HM Hb HD0 Hst Hct Hact Hz a' dl kp.
  destruct (f_serial F LOGQ LOGN LOGDELTA RM rng s HQ HQ2 HL HD Hr Hs B ee (S ^ Z.of_nat G) D Br Bi M' _ _ _ rr z0 D0 ct m st pos Act Henc Hee HS HB) as (st' & pos' & Act' & w & E1 & Hst' & Hd & Hw); auto.
  { intros d Hd. rewrite Nat2Z.id. apply Hb. auto. }
  exists st', pos', Act', w. split; [exact E1|]. split; [exact Hst'|]. split; [exact Hd|]. intros j Hj. destruct (Hw j Hj) as [H1 H2].
  assert (Ea : forall d, group_rows G (fun k => a (Z.of_nat k)) (Z.to_nat (Z.of_nat d)) = a' d) by (intros d; rewrite Nat2Z.id; reflexivity).
  assert (Es : forall d, size_after (fun d => group_rows G (fun k => a (Z.of_nat k)) (Z.to_nat (Z.of_nat d))) dl z0 kp d = size_after a' dl z0 kp d)
    by (induction d; cbn [size_after]; auto; rewrite IHd, Ea; reflexivity).
  assert (Ee : forall d, error_after (fun d => group_rows G (fun k => a (Z.of_nat k)) (Z.to_nat (Z.of_nat d))) dl z0 kp d = error_after a' dl z0 kp d)
    by (induction d; cbn [error_after]; auto; rewrite IHd, Es, Ea; reflexivity).
  pose proof n_ok as Hn. split.
  - eapply Rle_trans; [exact H1|]. apply Req_le. apply Es.
  - rewrite <- (chain_group n G (fun d => M (Z.of_nat d)) (fun d => M' (Z.of_nat d)) D); auto; [|lia].
    eapply Rle_trans; [exact H2|]. apply Req_le. apply Ee.
Qed.

Lemma f_grouped_good B ee rr G D S Ar Ai (M : Z -> Z -> Z -> CC) (a b r : Z -> R) z0 D0 ct m st pos Act :
  encodes_within F LOGQ LOGN LOGDELTA B ee -> (0 <= ee)%R ->
  (1 <= G <= 4)%nat -> 0 <= S -> fgood n S (Z.of_nat (G * D)) (Z.of_nat (G * D)) Ar Ai M a b r ->
  (forall d, (d < D)%nat -> group_fits u eta top S G (fun k => a (Z.of_nat k)) (fun k => r (Z.of_nat k)) d) ->
  (forall d, (d < D)%nat -> let e := group_error u eta S G (fun k => a (Z.of_nat k)) (fun k => r (Z.of_nat k)) d in
    (group_entries G (fun k => a (Z.of_nat k)) (fun k => b (Z.of_nat k)) d + e <= B)%R /\ (e <= rr)%R) -> (0 < D0)%R ->
  f_ifft_static F LOGN st -> decrypts LOGQ N ct (coef s) m -> object2 LOGQ N Act ->
  (forall j, 0 <= j < n -> (modulus (slots N D0 m j) <= z0)%R) ->
  let a' := group_rows G (fun k => a (Z.of_nat k)) in
  let dl := (rr + IZR (S ^ Z.of_nat G) * encoded_error N Delta ee)%R in
  let kp d := (IZR N * IZR E / (2 * (IZR Delta ^ d * D0)))%R in
  exists st' pos' Act' w, f_grouped_lt F LOGQ LOGN LOGDELTA RM rng S (Z.of_nat (G * D)) (Z.of_nat G) st pos Ar Ai ct (map Some s) Act = Ok (st', pos', Act') /\ f_ifft_static F LOGN st' /\
    decrypts LOGQ N Act' (coef s) w /\
    forall j, 0 <= j < n -> (modulus (slots N (IZR Delta ^ D * D0) w j) <= size_after a' dl z0 kp D)%R /\
      (modulus (slots N (IZR Delta ^ D * D0) w j - chain n (fun d => M (Z.of_nat d)) (G * D) (slots N D0 m) j)%num <= error_after a' dl z0 kp D)%R.
Proof.
  intros Henc Hee HG HS HA Hf Hb HD0 Hst Hct Hact Hz a' dl kp. pose proof n_ok as Hn.
  assert (HS' : 0 <= S ^ Z.of_nat G) by (apply Z.pow_nonneg; auto).
  assert (Hm : Z.of_nat (G * D) = Z.of_nat G * Z.of_nat D) by lia.
  assert (X1 : S ^ Z.of_nat 1 = S) by (change (Z.of_nat 1) with 1; ring). assert (X2 : S ^ Z.of_nat 2 = S * S) by (change (Z.of_nat 2) with 2; ring).
  assert (X3 : S ^ Z.of_nat 3 = S * (S * S)) by (change (Z.of_nat 3) with 3; ring). assert (X4 : S ^ Z.of_nat 4 = S * (S * (S * S))) by (change (Z.of_nat 4) with 4; ring).
  assert (Hf' : forall d, 0 <= d < Z.of_nat D -> exists k, d = Z.of_nat k /\ group_fits u eta top S G (fun k => a (Z.of_nat k)) (fun k => r (Z.of_nat k)) k) by (intros d Hd; exists (Z.to_nat d); split; [lia|apply Hf; lia]).
  assert (Hf0 : 0 < Z.of_nat D -> group_fits u eta top S G (fun k => a (Z.of_nat k)) (fun k => r (Z.of_nat k)) 0) by (intros; apply Hf; lia).
  assert (G = 1 \/ G = 2 \/ G = 3 \/ G = 4)%nat as [->|[->|[->| ->]]] by lia; unfold f_grouped_lt; fold n; unfold group_fits in Hf', Hf0; cbn [Nat.sub prod_fits] in Hf', Hf0.
  - change (Z.of_nat 1) with 1 in *. subst dl. rewrite Z.pow_1_r in *. cbn [Z.eqb]. replace (Z.of_nat (1 * D)) with (Z.of_nat D) in * by lia.
    pose proof (f_serial_group B ee rr S 1 D Ar Ai M M a b r z0 D0 ct m st pos Act Henc Hee) as T. change (Z.of_nat 1) with 1 in T. rewrite Z.pow_1_r in T. apply T; auto.
    + eapply fgood_bound; [| | | |exact HA]; auto; intros d Hd; unfold group_rows, group_entries, group_error; cbn [rprod prod_error Nat.sub]; rewrite ?Rmult_1_r, ?Rmult_1_l; f_equal; lia.
    + intros d x j Hd Hj. cbn [chain]. replace (1 * d + 0)%nat with d by lia. reflexivity.
  - change (Z.of_nat 2) with 2 in *. change (2 =? 1) with false. change (2 =? 2) with true. cbv iota. rewrite Hm in *.
    destruct (fgroup2_good F u eta top t ar n Hn S HS (Z.of_nat D) ltac:(lia) M a b r Ar Ai HA) as (Br & Bi & E1 & HB).
    { intros H0. rewrite X1 in Hf0. apply Hf0. auto. }
    { intros d Hd. destruct (Hf' d Hd) as (k & -> & _ & _ & T). cbn [rprod prod_error] in T. rewrite Rmult_1_r in T.
      replace (2 * Z.of_nat k + 1) with (Z.of_nat (2 * k + 1)) by lia. replace (2 * Z.of_nat k) with (Z.of_nat (2 * k + 0)) by lia. exact T. }
    rewrite E1. cbn [bind].
    replace (2 * Z.of_nat D / 2) with (Z.of_nat D) by (rewrite Z.mul_comm, Z.div_mul; lia).
    replace (S * S) with (S ^ Z.of_nat 2) in HB |- * by (change (Z.of_nat 2) with 2; ring).
    eapply f_serial_group; eauto.
    + eapply fgood_bound; [| | | |exact HB]; [intros; reflexivity| | |]; intros d Hd; unfold group_rows, group_entries, group_error; cbn [rprod prod_error Nat.sub]; rewrite ?X1, ?Rmult_1_r, ?Rmult_assoc; repeat (f_equal; try lia).
    + intros d x j Hd Hj. cbn [chain]. rewrite apply_product.
      replace (2 * Z.of_nat d + 1) with (Z.of_nat (2 * d + 1)) by lia. replace (2 * Z.of_nat d) with (Z.of_nat (2 * d + 0)) by lia. reflexivity.
  - change (Z.of_nat 3) with 3 in *. change (3 =? 1) with false. change (3 =? 2) with false. change (3 =? 3) with true. cbv iota. rewrite Hm in *.
    destruct (fgroup3_good F u eta top t ar n Hn S HS (Z.of_nat D) ltac:(lia) M a b r Ar Ai HA) as (Br & Bi & E1 & HB).
    { intros H0. rewrite X1 in Hf0. apply Hf0. auto. }
    { intros H0. rewrite X2 in Hf0. apply Hf0. auto. }
    { intros d Hd. destruct (Hf' d Hd) as (k & -> & (_ & _ & T) & _). cbn [rprod prod_error] in T. rewrite Rmult_1_r in T.
      replace (3 * Z.of_nat k + 1) with (Z.of_nat (3 * k + 1)) by lia. replace (3 * Z.of_nat k) with (Z.of_nat (3 * k + 0)) by lia. exact T. }
    { intros d Hd. destruct (Hf' d Hd) as (k & -> & _ & _ & T). cbn [rprod prod_error] in T. rewrite ?X1, ?Rmult_1_r in T.
      replace (3 * Z.of_nat k + 2) with (Z.of_nat (3 * k + 2)) by lia. replace (3 * Z.of_nat k + 1) with (Z.of_nat (3 * k + 1)) by lia. replace (3 * Z.of_nat k) with (Z.of_nat (3 * k + 0)) by lia. exact T. }
    rewrite E1. cbn [bind].
    replace (3 * Z.of_nat D / 3) with (Z.of_nat D) by (rewrite Z.mul_comm, Z.div_mul; lia).
    replace (S * (S * S)) with (S ^ Z.of_nat 3) in HB |- * by (change (Z.of_nat 3) with 3; ring).
    eapply f_serial_group; eauto.
    + eapply fgood_bound; [| | | |exact HB]; [intros; reflexivity| | |]; intros d Hd; unfold group_rows, group_entries, group_error; cbn [rprod prod_error Nat.sub]; rewrite ?X1, ?X2, ?Rmult_1_r, ?Rmult_assoc; repeat (f_equal; try lia).
    + intros d x j Hd Hj. cbn [chain]. rewrite apply_product. apply apply_ext; auto; [intros; repeat (f_equal; try lia)|]. intros k Hk. rewrite apply_product.
      replace (3 * Z.of_nat d + 1) with (Z.of_nat (3 * d + 1)) by lia. replace (3 * Z.of_nat d) with (Z.of_nat (3 * d + 0)) by lia. reflexivity.
  - change (Z.of_nat 4) with 4 in *. change (4 =? 1) with false. change (4 =? 2) with false. change (4 =? 3) with false. change (4 =? 4) with true. cbv iota. rewrite Hm in *.
    destruct (fgroup4_good F u eta top t ar n Hn S HS (Z.of_nat D) ltac:(lia) M a b r Ar Ai HA) as (Br & Bi & E1 & HB).
    { intros H0. rewrite X1 in Hf0. apply Hf0. auto. }
    { intros H0. rewrite X2 in Hf0. apply Hf0. auto. }
    { intros H0. rewrite X3 in Hf0. apply Hf0. auto. }
    { intros d Hd. destruct (Hf' d Hd) as (k & -> & ((_ & _ & T) & _) & _). cbn [rprod prod_error] in T. rewrite Rmult_1_r in T.
      replace (4 * Z.of_nat k + 1) with (Z.of_nat (4 * k + 1)) by lia. replace (4 * Z.of_nat k) with (Z.of_nat (4 * k + 0)) by lia. exact T. }
    { intros d Hd. destruct (Hf' d Hd) as (k & -> & (_ & _ & T) & _). cbn [rprod prod_error] in T. rewrite ?X1, ?Rmult_1_r in T.
      replace (4 * Z.of_nat k + 2) with (Z.of_nat (4 * k + 2)) by lia. replace (4 * Z.of_nat k + 1) with (Z.of_nat (4 * k + 1)) by lia. replace (4 * Z.of_nat k) with (Z.of_nat (4 * k + 0)) by lia. exact T. }
    { intros d Hd. destruct (Hf' d Hd) as (k & -> & _ & _ & T). cbn [rprod prod_error] in T. rewrite ?X1, ?X2, ?Rmult_1_r in T.
      replace (4 * Z.of_nat k + 3) with (Z.of_nat (4 * k + 3)) by lia. replace (4 * Z.of_nat k + 2) with (Z.of_nat (4 * k + 2)) by lia.
      replace (4 * Z.of_nat k + 1) with (Z.of_nat (4 * k + 1)) by lia. replace (4 * Z.of_nat k) with (Z.of_nat (4 * k + 0)) by lia. exact T. }
    rewrite E1. cbn [bind].
    replace (4 * Z.of_nat D / 4) with (Z.of_nat D) by (rewrite Z.mul_comm, Z.div_mul; lia).
    replace (S * (S * (S * S))) with (S ^ Z.of_nat 4) in HB |- * by (change (Z.of_nat 4) with 4; ring).
    eapply f_serial_group; eauto.
    + eapply fgood_bound; [| | | |exact HB]; [intros; reflexivity| | |]; intros d Hd; unfold group_rows, group_entries, group_error; cbn [rprod prod_error Nat.sub]; rewrite ?X1, ?X2, ?X3, ?Rmult_1_r, ?Rmult_assoc; repeat (f_equal; try lia).
    + intros d x j Hd Hj. cbn [chain]. rewrite apply_product. apply apply_ext; auto; [intros; repeat (f_equal; try lia)|]. intros k Hk. rewrite apply_product. apply apply_ext; auto; [intros; repeat (f_equal; try lia)|].
      intros k' Hk'. rewrite apply_product.
      replace (4 * Z.of_nat d + 1) with (Z.of_nat (4 * d + 1)) by lia. replace (4 * Z.of_nat d) with (Z.of_nat (4 * d + 0)) by lia. reflexivity.
Qed.
End Grouped.

(** encode with floating-point arithmetic *)
Lemma encodes_any F u eta top t (ar : arithmetic u eta top t (rnd F) (dpi F) (lcos F) (lsin F)) LOGQ LOGN LOGDELTA B : 1 <= LOGQ -> 2 <= LOGN <= 27 -> 0 <= LOGDELTA < 64 ->
  (table_error u eta t (2 ^ LOGN) <= / 64)%R -> (IZR (2 ^ 66) <= top)%R -> encodable u eta top t LOGQ (2 ^ LOGN) (Z.to_nat (LOGN - 1)) (2 ^ LOGDELTA) B ->
  encodes_within F LOGQ LOGN LOGDELTA B (diag_error u eta t (2 ^ LOGN) (Z.to_nat (LOGN - 1)) B (2 ^ LOGDELTA)).
Proof.
  intros HQ HL HD Hsm Hbig (HB & H1 & H2 & H3) st z m Hst Hz Hm. pose proof (pow2_word LOGDELTA HD).
  destruct (C83_encode F u eta top t ar LOGQ LOGN HQ HL Hsm Hbig (2 ^ LOGDELTA) st z m B (rq_new LOGQ (2 ^ LOGN))) as (st' & pt & c & E1 & E2 & E3 & E4); auto.
  { apply objP_object; auto; [apply Z.pow_nonneg; lia|apply objP_new]. }
  exists st', pt, c. auto.
Qed.
Lemma encodes_double F LOGQ LOGN LOGDELTA B : double F -> 1 <= LOGQ <= 2048 -> 2 <= LOGN <= 17 -> 0 <= LOGDELTA < 64 -> (0 <= B)%R ->
  (B * IZR (2 ^ LOGDELTA) + powerRZ 2 (-41) * (B * IZR (2 ^ LOGDELTA)) + 2 < IZR (2 ^ 64))%R -> (B * IZR (2 ^ LOGDELTA) + powerRZ 2 (-41) * (B * IZR (2 ^ LOGDELTA)) + 2 < IZR (2 ^ LOGQ))%R ->
  encodes_within F LOGQ LOGN LOGDELTA B (powerRZ 2 (-41) * (B * IZR (2 ^ LOGDELTA)) + powerRZ 2 (-900)).
Proof.
  intros HF HQ HL HD HB H2 H3 st z m Hst Hz Hm. pose proof (pow2_word LOGDELTA HD).
  destruct (C83_encode_double F HF LOGQ LOGN HQ HL (2 ^ LOGDELTA) st z m B (rq_new LOGQ (2 ^ LOGN))) as (st' & pt & c & E1 & E2 & E3 & E4); auto.
  { apply objP_object; try lia; apply objP_new. }
  exists st', pt, c. split; [auto|]. split; [auto|]. split; [auto|]. intros i Hi. rewrite <- Rplus_assoc. auto.
Qed.
