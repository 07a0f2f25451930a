(** The grouped linear transforms of ciphertexts and their slots. *)
From Coq Require Import ZArith List Bool Lia Reals Lra Ring.
From Verif Require Import Base BaseFacts RQ Core GSum Matrix MatrixFacts MatMulFacts DFT DFTTheory DFTFacts FFTFacts SpecPoly SpecScheme SpecMat Properties_Mat SpecDFT SpecEnc SlotFacts
  Encode Properties_Conv Properties_Enc Properties_Plain SpecLin LinTrans LinTransFacts LinSlots GroupFacts.
Import ListNotations.
Open Scope Z_scope.
Add Ring RCgs : HR.

Lemma chain_app n M d k z : chain n M (d + k) z = chain n (fun i => M (d + i)%nat) k (chain n M d z).
Proof. induction k; [rewrite Nat.add_0_r; reflexivity|]. rewrite Nat.add_succ_r. cbn [chain]. rewrite IHk. reflexivity. Qed.
Lemma chain_group n G M M' D z : 0 < n -> (forall d x j, (d < D)%nat -> 0 <= j < n -> apply n (M' d) x j = chain n (fun k => M (G * d + k)%nat) G x j) ->
  forall j, 0 <= j < n -> chain n M' D z j = chain n M (G * D) z j.
Proof.
  intros Hn. induction D; intros H j Hj; [rewrite Nat.mul_0_r; reflexivity|].
  replace (G * S D)%nat with (G * D + G)%nat by lia. rewrite chain_app. cbn [chain].
  rewrite (apply_ext n (M' D) (M' D) _ (chain n M (G * D) z) j); auto.
Qed.

Lemma live_zero n S (A : Z -> Z -> CC) o zr zi t j : flags_right (K := Rops) n S (fun t j => cre Rops (A t j)) (fun t j => cim Rops (A t j)) o o zr zi ->
  0 <= t < S -> 0 <= j < n -> live zr zi A t j = A t j.
Proof.
  intros F Ht Hj. unfold live. specialize (F t Ht). destruct (zr t && zi t); auto. destruct (F j Hj) as [E1 E2]. symmetry. apply RC_eq; [exact E1|exact E2].
Qed.

Section Grouped.
Context (LOGQ LOGN LOGDELTA RM : Z) (rnd : nat -> Z) (s : list Z).
Context (HQ : widths LOGQ) (HQ2 : widths (2 * LOGQ)) (HL : 2 <= LOGN <= 17) (HD : 0 <= LOGDELTA < 64) (Hr : rand_stream RM rnd).
Let N := 2 ^ LOGN.
Let n := 2 ^ (LOGN - 1).
Context (Hs : ternary N s).
Let Delta := 2 ^ LOGDELTA.
Let E := noise N (coef s).
Let n_ok : 0 < n <= 2 ^ 30.
Proof. unfold n. split; [apply Z.pow_pos_nonneg; lia|apply Z.pow_le_mono_r; lia]. Qed.

Lemma good_serial S D Ar Ai (M : Z -> Z -> Z -> CC) (a b : Z -> R) z0 D0 ct m st pos Act :
  0 <= S -> good n S (Z.of_nat D) (Z.of_nat D) Ar Ai M a b ->
  (forall d, (d < D)%nat -> bound_small LOGQ LOGDELTA (b (Z.of_nat d))) -> (0 < D0)%R ->
  ifft_static LOGN st -> decrypts LOGQ N ct (coef s) m -> object2 LOGQ N Act ->
  (forall j, 0 <= j < n -> (modulus (slots N D0 m j) <= z0)%R) ->
  let a' d := a (Z.of_nat d) in
  let dl := (IZR S * (IZR N / (2 * IZR Delta)))%R in
  let kp d := (IZR N * IZR E / (2 * (IZR Delta ^ d * D0)))%R in
  exists st' pos' Act' w, serial_lt LOGQ LOGN LOGDELTA RM rnd S (Z.of_nat D) st pos Ar Ai ct (map Some s) Act = Ok (st', pos', Act') /\ ifft_static LOGN st' /\
    decrypts LOGQ N Act' (coef s) w /\
    forall j, 0 <= j < n -> (modulus (slots N (IZR Delta ^ D * D0) w j) <= size_after a' dl z0 kp D)%R /\
      (modulus (slots N (IZR Delta ^ D * D0) w j - chain n (fun d => M (Z.of_nat d)) D (slots N D0 m) j)%num <= error_after a' dl z0 kp D)%R.
Proof.
  intros HS (fr & fi & -> & -> & H) Hb HD0 Hst Hct Hact Hz a' dl kp.
  destruct (finite_choice (fun d (T : (Z -> Z -> CC) * (Z -> Z) * (Z -> bool) * (Z -> bool)) => let '(A, o, zr, zi) := T in
    fr d = diagonals n S (fun t j => cre Rops (A t j)) o zr /\ fi d = diagonals n S (fun t j => cim Rops (A t j)) o zi /\
    flags_right (K := Rops) n S (fun t j => cre Rops (A t j)) (fun t j => cim Rops (A t j)) o o zr zi /\
    (forall i j, 0 <= i < n -> 0 <= j < n -> matrix_of n S A o i j = M d i j) /\
    (forall i, 0 <= i < n -> (gsum (K := Rops) S (fun t => modulus (A t i)) <= a d)%R) /\
    (forall t i, 0 <= t < S -> 0 <= i < n -> (modulus (A t i) <= b d)%R))
    (fun _ _ => 0%num, fun _ => 0, fun _ => false, fun _ => false) (Z.of_nat D) ltac:(lia)) as [T HT].
  { intros d Hd. specialize (H d Hd). destruct (Z.ltb_spec d (Z.of_nat D)); [|lia]. destruct H as (A & o & zr & zi & E1 & F & E2 & B & _ & B' & _).
    exists (A, o, zr, zi). inversion E1. auto 8. }
  pose (A := fun d => fst (fst (fst (T d)))). pose (o := fun d => snd (fst (fst (T d)))). pose (zr := fun d => snd (fst (T d))). pose (zi := fun d => snd (T d)).
  assert (HT' : forall d, 0 <= d < Z.of_nat D -> fr d = diagonals n S (fun t j => cre Rops (A d t j)) (o d) (zr d) /\ fi d = diagonals n S (fun t j => cim Rops (A d t j)) (o d) (zi d) /\
    flags_right (K := Rops) n S (fun t j => cre Rops (A d t j)) (fun t j => cim Rops (A d t j)) (o d) (o d) (zr d) (zi d) /\
    (forall i j, 0 <= i < n -> 0 <= j < n -> matrix_of n S (A d) (o d) i j = M d i j) /\
    (forall i, 0 <= i < n -> (gsum (K := Rops) S (fun t => modulus (A d t i)) <= a d)%R) /\
    (forall t i, 0 <= t < S -> 0 <= i < n -> (modulus (A d t i) <= b d)%R)).
  { intros d Hd. specialize (HT d Hd). unfold A, o, zr, zi. destruct (T d) as [[[? ?] ?] ?]. exact HT. }
  clearbody A o zr zi. clear HT T H.
  assert (Hrow : forall d j, (d < D)%nat -> 0 <= j < n -> (gsum (K := Rops) S (fun t => modulus (live (zr (Z.of_nat d)) (zi (Z.of_nat d)) (A (Z.of_nat d)) t j)) <= a' d)%R).
  { intros d j Hd Hj. destruct (HT' (Z.of_nat d) ltac:(lia)) as (_ & _ & F & _ & B & _). eapply Rle_trans; [|apply (B j Hj)]. apply rsum_le; auto. intros t Ht.
    rewrite (live_zero n S _ (o (Z.of_nat d))) by auto. apply Rle_refl. }
  destruct (serial_slots LOGQ LOGN LOGDELTA RM rnd s HQ HQ2 HL HD Hr Hs S A o zr zi D HS) with (a := a') (z0 := z0) (D0 := D0) (ct := ct) (m := m) (st := st) (pos := pos) (Act := Act)
    as (st' & pos' & Act' & w & E1 & Hst' & Hd & Hw); auto.
  - intros d t Hd Ht Hk. destruct (HT' d Hd) as (_ & _ & F & _). specialize (F t Ht). rewrite Hk in F. lia.
  - intros d t j Hd Ht Hk Hj. destruct (HT' d Hd) as (_ & _ & _ & _ & _ & B). specialize (Hb (Z.to_nat d) ltac:(lia)). rewrite Z2Nat.id in Hb by lia.
    pose proof (B t j Ht Hj) as Hm.
    pose proof (pow2_word LOGDELTA HD) as HDp. assert (HDr : (0 < IZR (2 ^ LOGDELTA))%R) by (apply IZR_lt; lia).
    assert (modulus (A d t j) * IZR (2 ^ LOGDELTA) <= b d * IZR (2 ^ LOGDELTA))%R by (apply Rmult_le_compat_r; lra).
    destruct Hb as [Hb1 Hb2]. split; lra.
  - exists st', pos', Act', w. rewrite !map_range in E1.
    rewrite (tab_ext _ fr (fun d => diagonals n S (fun t j => cre Rops (A d t j)) (o d) (zr d))) by (intros d Hd'; apply HT'; auto).
    rewrite (tab_ext _ fi (fun d => diagonals n S (fun t j => cim Rops (A d t j)) (o d) (zi d))) by (intros d Hd'; apply HT'; auto).
    split; [exact E1|]. split; [exact Hst'|]. split; [exact Hd|]. intros j Hj. destruct (Hw j Hj) as [H1 H2]. split; [exact H1|].
    rewrite (chain_ext n _ (fun d => matrix_of n S (live (zr (Z.of_nat d)) (zi (Z.of_nat d)) (A (Z.of_nat d))) (o (Z.of_nat d))) D _ (slots N D0 m)); auto.
    intros k i i' Hk Hi Hi'. destruct (HT' (Z.of_nat k) ltac:(lia)) as (_ & _ & F & EM & _). rewrite <- EM by auto. unfold matrix_of. apply gsum_ext. intros t Ht.
    rewrite (live_zero n S _ (o (Z.of_nat k))) by auto. reflexivity.
Qed.

Lemma good_bound S D i X Y M a b M' a' b' : (forall d, 0 <= d < D -> M d = M' d) -> (forall d, 0 <= d < D -> a d = a' d) -> (forall d, 0 <= d < D -> b d = b' d) -> good n S D i X Y M a b -> good n S D i X Y M' a' b'.
Proof.
  intros HM Ha Hb (fr & fi & -> & -> & H). exists fr, fi. split; [auto|]. split; [auto|]. intros t Ht. specialize (H t Ht). rewrite (HM t Ht), (Ha t Ht), (Hb t Ht) in H. exact H.
Qed.
Lemma serial_group S G D Br Bi (M M' : Z -> Z -> Z -> CC) (a b : Z -> R) z0 D0 ct m st pos Act :
  0 <= S ^ Z.of_nat G -> good n (S ^ Z.of_nat G) (Z.of_nat D) (Z.of_nat D) Br Bi M' (fun d => group_rows G (fun k => a (Z.of_nat k)) (Z.to_nat d)) (fun d => group_entries G (fun k => a (Z.of_nat k)) (fun k => b (Z.of_nat k)) (Z.to_nat d)) ->
  (forall d x j, (d < D)%nat -> 0 <= j < n -> apply n (M' (Z.of_nat d)) x j = chain n (fun k => M (Z.of_nat (G * d + k))) G x j) ->
  (forall d, (d < D)%nat -> bound_small LOGQ LOGDELTA (group_entries G (fun k => a (Z.of_nat k)) (fun k => b (Z.of_nat k)) d)) -> (0 < D0)%R ->
  ifft_static LOGN st -> decrypts LOGQ N ct (coef s) m -> object2 LOGQ N Act ->
  (forall j, 0 <= j < n -> (modulus (slots N D0 m j) <= z0)%R) ->
  let a' := group_rows G (fun k => a (Z.of_nat k)) in
  let dl := (IZR (S ^ Z.of_nat G) * (IZR N / (2 * IZR Delta)))%R in
  let kp d := (IZR N * IZR E / (2 * (IZR Delta ^ d * D0)))%R in
  exists st' pos' Act' w, serial_lt LOGQ LOGN LOGDELTA RM rnd (S ^ Z.of_nat G) (Z.of_nat D) st pos Br Bi ct (map Some s) Act = Ok (st', pos', Act') /\ ifft_static LOGN st' /\
    decrypts LOGQ N Act' (coef s) w /\
    forall j, 0 <= j < n -> (modulus (slots N (IZR Delta ^ D * D0) w j) <= size_after a' dl z0 kp D)%R /\
      (modulus (slots N (IZR Delta ^ D * D0) w j - chain n (fun d => M (Z.of_nat d)) (G * D) (slots N D0 m) j)%num <= error_after a' dl z0 kp D)%R.
Proof.
  intros HS HB HM Hb HD0 Hst Hct Hact Hz a' dl kp.
  destruct (good_serial (S ^ Z.of_nat G) D Br Bi M' _ _ z0 D0 ct m st pos Act HS HB) as (st' & pos' & Act' & w & E1 & Hst' & Hd & Hw); auto.
  { intros d Hd. rewrite Nat2Z.id. auto. }
  exists st', pos', Act', w. split; [exact E1|]. split; [exact Hst'|]. split; [exact Hd|]. intros j Hj. destruct (Hw j Hj) as [H1 H2].
  assert (Ea : forall d, group_rows G (fun k => a (Z.of_nat k)) (Z.to_nat (Z.of_nat d)) = a' d) by (intros d; rewrite Nat2Z.id; reflexivity).
  assert (Es : forall d, size_after (fun d => group_rows G (fun k => a (Z.of_nat k)) (Z.to_nat (Z.of_nat d))) dl z0 kp d = size_after a' dl z0 kp d)
    by (induction d; cbn [size_after]; auto; rewrite IHd, Ea; reflexivity).
  assert (Ee : forall d, error_after (fun d => group_rows G (fun k => a (Z.of_nat k)) (Z.to_nat (Z.of_nat d))) dl z0 kp d = error_after a' dl z0 kp d)
    by (induction d; cbn [error_after]; auto; rewrite IHd, Es, Ea; reflexivity).
  split.
  - eapply Rle_trans; [exact H1|]. apply Req_le. apply Es.
  - rewrite <- (chain_group n G (fun d => M (Z.of_nat d)) (fun d => M' (Z.of_nat d)) D); auto; [|lia].
    eapply Rle_trans; [exact H2|]. apply Req_le. apply Ee.
Qed.
Lemma grouped_good G D S Ar Ai (M : Z -> Z -> Z -> CC) (a b : Z -> R) z0 D0 ct m st pos Act :
  (1 <= G <= 4)%nat -> 0 <= S -> good n S (Z.of_nat (G * D)) (Z.of_nat (G * D)) Ar Ai M a b ->
  (forall d, (d < D)%nat -> bound_small LOGQ LOGDELTA (group_entries G (fun k => a (Z.of_nat k)) (fun k => b (Z.of_nat k)) d)) -> (0 < D0)%R ->
  ifft_static LOGN st -> decrypts LOGQ N ct (coef s) m -> object2 LOGQ N Act ->
  (forall j, 0 <= j < n -> (modulus (slots N D0 m j) <= z0)%R) ->
  let a' := group_rows G (fun k => a (Z.of_nat k)) in
  let dl := (IZR (S ^ Z.of_nat G) * (IZR N / (2 * IZR Delta)))%R in
  let kp d := (IZR N * IZR E / (2 * (IZR Delta ^ d * D0)))%R in
  exists st' pos' Act' w, grouped_lt LOGQ LOGN LOGDELTA RM rnd S (Z.of_nat (G * D)) (Z.of_nat G) st pos Ar Ai ct (map Some s) Act = Ok (st', pos', Act') /\ ifft_static LOGN st' /\
    decrypts LOGQ N Act' (coef s) w /\
    forall j, 0 <= j < n -> (modulus (slots N (IZR Delta ^ D * D0) w j) <= size_after a' dl z0 kp D)%R /\
      (modulus (slots N (IZR Delta ^ D * D0) w j - chain n (fun d => M (Z.of_nat d)) (G * D) (slots N D0 m) j)%num <= error_after a' dl z0 kp D)%R.
Proof.
  intros HG HS HA Hb HD0 Hst Hct Hact Hz a' dl kp. pose proof n_ok as Hn.
  assert (HS' : 0 <= S ^ Z.of_nat G) by (apply Z.pow_nonneg; auto).
  assert (Hm : Z.of_nat (G * D) = Z.of_nat G * Z.of_nat D) by lia.
  assert (G = 1 \/ G = 2 \/ G = 3 \/ G = 4)%nat as [->|[->|[->| ->]]] by lia; unfold grouped_lt; fold n.
  - change (Z.of_nat 1) with 1 in *. subst dl. rewrite Z.pow_1_r in *. cbn [Z.eqb]. replace (Z.of_nat (1 * D)) with (Z.of_nat D) in * by lia.
    pose proof (serial_group S 1 D Ar Ai M M a b z0 D0 ct m st pos Act) as T. change (Z.of_nat 1) with 1 in T. rewrite Z.pow_1_r in T. apply T; auto.
    + eapply good_bound; [| | |exact HA]; auto; intros d Hd; unfold group_rows, group_entries; cbn [rprod Nat.sub]; rewrite ?Rmult_1_r, ?Rmult_1_l; f_equal; lia.
    + intros d x j Hd Hj. cbn [chain]. replace (1 * d + 0)%nat with d by lia. reflexivity.
  - change (Z.of_nat 2) with 2 in *. change (2 =? 1) with false. change (2 =? 2) with true. cbv iota. rewrite Hm in *.
    destruct (group2_good n Hn S HS (Z.of_nat D) ltac:(lia) M a b Ar Ai HA) as (Br & Bi & E1 & HB). rewrite E1. cbn [bind].
    replace (2 * Z.of_nat D / 2) with (Z.of_nat D) by (rewrite Z.mul_comm, Z.div_mul; lia).
    replace (S * S) with (S ^ Z.of_nat 2) in * by (change (Z.of_nat 2) with 2; ring).
    eapply serial_group; auto.
    + eapply good_bound; [| | |exact HB]; [intros; reflexivity| |]; intros d Hd; unfold group_rows, group_entries; cbn [rprod Nat.sub]; rewrite ?Rmult_1_r, ?Rmult_assoc; repeat (f_equal; try lia).
    + intros d x j Hd Hj. cbn [chain]. rewrite apply_product.
      replace (2 * Z.of_nat d + 1) with (Z.of_nat (2 * d + 1)) by lia. replace (2 * Z.of_nat d) with (Z.of_nat (2 * d + 0)) by lia. reflexivity.
  - change (Z.of_nat 3) with 3 in *. change (3 =? 1) with false. change (3 =? 2) with false. change (3 =? 3) with true. cbv iota. rewrite Hm in *.
    destruct (group3_good n Hn S HS (Z.of_nat D) ltac:(lia) M a b Ar Ai HA) as (Br & Bi & E1 & HB). rewrite E1. cbn [bind].
    replace (3 * Z.of_nat D / 3) with (Z.of_nat D) by (rewrite Z.mul_comm, Z.div_mul; lia).
    replace (S * (S * S)) with (S ^ Z.of_nat 3) in * by (change (Z.of_nat 3) with 3; ring).
    eapply serial_group; auto.
    + eapply good_bound; [| | |exact HB]; [intros; reflexivity| |]; intros d Hd; unfold group_rows, group_entries; cbn [rprod Nat.sub]; rewrite ?Rmult_1_r, ?Rmult_assoc; repeat (f_equal; try lia).
    + intros d x j Hd Hj. cbn [chain]. rewrite apply_product. apply apply_ext; auto; [intros; repeat (f_equal; try lia)|]. intros k Hk. rewrite apply_product.
      replace (3 * Z.of_nat d + 1) with (Z.of_nat (3 * d + 1)) by lia. replace (3 * Z.of_nat d) with (Z.of_nat (3 * d + 0)) by lia. reflexivity.
  - change (Z.of_nat 4) with 4 in *. change (4 =? 1) with false. change (4 =? 2) with false. change (4 =? 3) with false. change (4 =? 4) with true. cbv iota. rewrite Hm in *.
    destruct (group4_good n Hn S HS (Z.of_nat D) ltac:(lia) M a b Ar Ai HA) as (Br & Bi & E1 & HB). rewrite E1. cbn [bind].
    replace (4 * Z.of_nat D / 4) with (Z.of_nat D) by (rewrite Z.mul_comm, Z.div_mul; lia).
    replace (S * (S * (S * S))) with (S ^ Z.of_nat 4) in * by (change (Z.of_nat 4) with 4; ring).
    eapply serial_group; auto.
    + eapply good_bound; [| | |exact HB]; [intros; reflexivity| |]; intros d Hd; unfold group_rows, group_entries; cbn [rprod Nat.sub]; rewrite ?Rmult_1_r, ?Rmult_assoc; repeat (f_equal; try lia).
    + intros d x j Hd Hj. cbn [chain]. rewrite apply_product. apply apply_ext; auto; [intros; repeat (f_equal; try lia)|]. intros k Hk. rewrite apply_product. apply apply_ext; auto; [intros; repeat (f_equal; try lia)|].
      intros k' Hk'. rewrite apply_product.
      replace (4 * Z.of_nat d + 1) with (Z.of_nat (4 * d + 1)) by lia. replace (4 * Z.of_nat d) with (Z.of_nat (4 * d + 0)) by lia. reflexivity.
Qed.
End Grouped.
