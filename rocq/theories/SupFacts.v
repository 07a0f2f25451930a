(** sup_norm, print_max_error and the test messages: C94, C95. *)
From Coq Require Import ZArith List Bool Lia Reals Lra Ring.
From Verif Require Import Base BaseFacts Sums ZQ RQ Util GSum Matrix MatrixFacts MatMulFacts DFT DFTTheory DFTFacts SpecMat SpecDFT SpecEnc SlotFacts Encode Plain PlainFacts Properties_DFT Properties_Mat Properties_Msg Properties_Enc Properties_Plain LinSlots EvalMod
  SpecStat StatFacts Section3 Properties_Stat Properties_MatErr.
From Verif Require Import Section4.
Import ListNotations.
Open Scope Z_scope.
Add Ring RCsup : HR.

(** [m] is the largest of the numbers f 0, ..., f (n-1), or 0 *)
Definition largest (n : Z) (f : Z -> R) (m : R) : Prop :=
  (0 <= m)%R /\ (forall j, 0 <= j < n -> (f j <= m)%R) /\ (m = 0%R \/ exists j, 0 <= j < n /\ m = f j).

Lemma largest_step k f m : 0 <= k -> largest k f m -> largest (k + 1) f (if Rlt_dec m (f k) then f k else m).
Proof.
  intros Hk (H0 & H1 & H2). destruct (Rlt_dec m (f k)) as [L|L].
  - split; [lra|]. split; [|right; exists k; split; [lia|reflexivity]]. intros j Hj. destruct (Z.eq_dec j k) as [->|]; [lra|]. specialize (H1 j ltac:(lia)). lra.
  - split; [lra|]. split; [|destruct H2 as [H2|(j & Hj & E)]; [left; exact H2|right; exists j; split; [lia|exact E]]].
    intros j Hj. destruct (Z.eq_dec j k) as [->|]; [lra|]. apply H1. lia.
Qed.
Lemma largest_0 f : largest 0 f 0%R.
Proof. split; [lra|]. split; [intros; lia|left; reflexivity]. Qed.
Lemma largest_unique n f m m' : largest n f m -> largest n f m' -> m = m'.
Proof.
  intros (A0 & A1 & A2) (B0 & B1 & B2). apply Rle_antisym.
  - destruct A2 as [->|(j & Hj & ->)]; auto.
  - destruct B2 as [->|(j & Hj & ->)]; auto.
Qed.

Theorem C94_sup_norm : forall n (z : Z -> CC), 0 <= n -> exists m, msg_sup_norm n (carray n z) = Ok m /\ largest n (fun j => modulus (z j)) m.
Proof.
  intros n z Hn. unfold msg_sup_norm.
  destruct (for_inv (fun i max => a <- grd (fst (carray (K := Rops) n z)) i ;; b <- grd (snd (carray (K := Rops) n z)) i ;;
      let abs := sqrt (a * a + b * b) in Ok (if Rlt_dec max abs then abs else max)) (fun k m => largest k (fun j => modulus (z j)) m) 0 n 0%R Hn (largest_0 _)) as (m & E & H).
  - intros i m Hi H. eexists. split; [|apply (largest_step i _ m); [lia|exact H]].
    rewrite carray_cvtab. unfold cvtab. cbn [fst snd]. rewrite !grd_gtab by auto. reflexivity.
  - exists m. split; [exact E|exact H].
Qed.
Theorem C94_max_error : forall n (z y : Z -> CC), 0 <= n -> exists er ei, max_error n (carray n z) (carray n y) = Ok (er, ei) /\
  largest n (fun j => Rabs (fst (z j) - fst (y j))) er /\ largest n (fun j => Rabs (snd (z j) - snd (y j))) ei.
Proof.
  intros n z y Hn. unfold max_error.
  match goal with |- exists er ei, for_ 0 n ?b _ = _ /\ _ =>
    destruct (for_inv b (fun k p => largest k (fun j => Rabs (fst (z j) - fst (y j))) (fst p) /\ largest k (fun j => Rabs (snd (z j) - snd (y j))) (snd p)) 0 n (0%R, 0%R) Hn (conj (largest_0 _) (largest_0 _))) as ((er & ei) & E & H) end.
  - intros i (er & ei) Hi [H1 H2]. cbn [fst snd] in H1, H2. exists (if Rlt_dec er (Rabs (fst (z i) - fst (y i))) then Rabs (fst (z i) - fst (y i)) else er, if Rlt_dec ei (Rabs (snd (z i) - snd (y i))) then Rabs (snd (z i) - snd (y i)) else ei)%R. split; [|cbn [fst snd]; split; [apply (largest_step i (fun j => Rabs (fst (z j) - fst (y j))) er); [lia|exact H1]|apply (largest_step i (fun j => Rabs (snd (z j) - snd (y j))) ei); [lia|exact H2]]].
    rewrite !carray_cvtab. unfold cvtab. cbn [fst snd]. rewrite !grd_gtab by auto. reflexivity.
  - exists er, ei. split; [exact E|exact H].
Qed.

(** The two norms *)
Lemma rsum_nonneg n (f : Z -> R) : 0 <= n -> (forall j, 0 <= j < n -> (0 <= f j)%R) -> (0 <= rsum n f)%R.
Proof.
  intros Hn H. apply Rle_trans with (rsum n (fun _ => 0%R)); [rewrite rsum_const by auto; lra|]. apply rsum_le. exact H.
Qed.
Lemma rsum_term n (f : Z -> R) i : 0 <= i < n -> (forall j, 0 <= j < n -> (0 <= f j)%R) -> (f i <= rsum n f)%R.
Proof.
  intros Hi H. rewrite <- (gsum_delta (K := Rops) Rlawful n i f Hi). apply rsum_le. intros j Hj. destruct (Z.eqb_spec j i) as [->|]; [apply Rle_refl|apply H; auto].
Qed.
Theorem C94_norms : forall n (z : Z -> CC), 0 <= n -> exists s m, msg_norm n (carray n z) = Ok s /\ msg_sup_norm n (carray n z) = Ok m /\ (m <= s)%R /\ (s <= sqrt (IZR n) * m)%R.
Proof.
  intros n z Hn. destruct (C94_sup_norm n z Hn) as (m & E & H0 & H1 & H2). exists (sqrt (energy n z)), m. split; [apply msg_norm_ok; auto|]. split; [exact E|].
  assert (SQ : forall w : CC, (0 <= modulus w)%R) by (intros w; unfold modulus; apply sqrt_pos).
  assert (P : (0 <= energy n z)%R) by (unfold energy; apply rsum_nonneg; auto; intros; apply Rmult_le_pos; auto).
  split.
  - rewrite <- (sqrt_square m) by auto. apply sqrt_le_1_alt. destruct H2 as [->|(j & Hj & ->)]; [rewrite Rmult_0_l; exact P|].
    unfold energy. apply (rsum_term n (fun j => modulus (z j) * modulus (z j))%R j); auto. intros; apply Rmult_le_pos; auto.
  - rewrite <- (sqrt_square m) by auto. rewrite <- sqrt_mult; [|apply IZR_le; lia|apply Rmult_le_pos; auto]. apply sqrt_le_1_alt.
    rewrite <- rsum_const by auto. unfold energy. apply rsum_le. intros j Hj. apply Rmult_le_compat; auto.
Qed.

(** slots 3+4i and 1i *)
Example C94_case : msg_sup_norm 2 (carray (K := Rops) 2 (fun j => if j =? 0 then (3%R, 4%R) else (0%R, 1%R))) = Ok 5%R.
Proof.
  destruct (C94_sup_norm 2 (fun j => if j =? 0 then (3%R, 4%R) else (0%R, 1%R)) ltac:(lia)) as (m & -> & H). f_equal. apply (largest_unique _ _ _ _ H). clear m H.
  assert (M5 : modulus (3%R, 4%R) = 5%R). { unfold modulus, cre, cim. cbn [fst snd]. replace (3 * 3 + 4 * 4)%R with (5 * 5)%R by ring. apply sqrt_square. lra. }
  assert (M1 : modulus (0%R, 1%R) = 1%R). { unfold modulus, cre, cim. cbn [fst snd]. replace (0 * 0 + 1 * 1)%R with (1 * 1)%R by ring. apply sqrt_square. lra. }
  split; [lra|]. split.
  - intros j Hj. destruct (j =? 0); [rewrite M5|rewrite M1]; lra.
  - right. exists 0. split; [lia|]. cbn [Z.eqb]. symmetry. exact M5.
Qed.
