(** Means of quadratic forms in uncorrelated errors. *)
From Coq Require Import ZArith List Bool Lia Reals Lra Ring.
From Verif Require Import Base BaseFacts GSum DFT SpecEnc DFTFacts.
From Verif Require Import SpecStat.
Open Scope Z_scope.

Notation rsum := (gsum (K := Rops)).
Lemma rsum_ext n (f g : Z -> R) : (forall i, 0 <= i < n -> f i = g i) -> rsum n f = rsum n g.
Proof. exact (gsum_ext (K := Rops) n f g). Qed.
Lemma rsum_scale n (a : R) (f : Z -> R) : rsum n (fun i => a * f i)%R = (a * rsum n f)%R.
Proof. exact (gsum_scale Rlawful n a f). Qed.
Lemma rsum_scale_r n (a : R) (f : Z -> R) : rsum n (fun i => f i * a)%R = (rsum n f * a)%R.
Proof. exact (gsum_scale_r Rlawful n a f). Qed.
Lemma rsum_add n (f g : Z -> R) : rsum n (fun i => f i + g i)%R = (rsum n f + rsum n g)%R.
Proof. exact (gsum_add Rlawful n f g). Qed.
Lemma rsum_swap n m (f : Z -> Z -> R) : rsum n (fun i => rsum m (f i)) = rsum m (fun j => rsum n (fun i => f i j)).
Proof. exact (gsum_swap Rlawful n m f). Qed.
Lemma rsum_const n (c : R) : 0 <= n -> rsum n (fun _ => c) = (IZR n * c)%R.
Proof.
  intros Hn. apply (GSum.gsum_ind n (fun n => rsum n (fun _ => c) = (IZR n * c)%R)); auto.
  - rewrite gsum_0 by lia. cbn. ring.
  - intros m Hm IH. rewrite gsum_S by lia. rewrite IH, plus_IZR. cbn [oadd Rops]. change (car Rops) with R in *. lra.
Qed.
Lemma rsum_zero n (f : Z -> R) : (forall i, 0 <= i < n -> f i = 0%R) -> rsum n f = 0%R.
Proof. exact (gsum_zero Rlawful n f). Qed.
Lemma rsum_mul n m (f g : Z -> R) : (rsum n f * rsum m g)%R = rsum n (fun i => rsum m (fun j => f i * g j)%R).
Proof. rewrite <- rsum_scale_r. apply rsum_ext. intros i Hi. rewrite rsum_scale. reflexivity. Qed.

Section Mean.
Context {Omega : Type} (I : (Omega -> R) -> Prop) (E : (Omega -> R) -> R) (HE : expectation I E).
Lemma mean_sum n (f : Z -> Omega -> R) : 0 <= n -> (forall i, 0 <= i < n -> I (f i)) ->
  I (fun w => rsum n (fun i => f i w)) /\ E (fun w => rsum n (fun i => f i w)) = rsum n (fun i => E (f i)).
Proof.
  intros Hn H. revert H. apply (GSum.gsum_ind n (fun n => (forall i, 0 <= i < n -> I (f i)) -> I (fun w => rsum n (fun i => f i w)) /\ E (fun w => rsum n (fun i => f i w)) = rsum n (fun i => E (f i)))); auto.
  - intros _. destruct (mean_const I E HE 0%R) as [A B]. destruct (mean_ext I E HE (fun _ => 0%R) (fun w => rsum 0 (fun i => f i w)) A) as [C D]; [intros w; rewrite gsum_0 by lia; reflexivity|].
    split; [exact C|]. rewrite D, B. rewrite gsum_0 by lia. reflexivity.
  - intros m Hm IH H. destruct IH as [A B]; [intros i Hi; apply H; lia|]. destruct (mean_plus I E HE _ _ A (H m ltac:(lia))) as [C D].
    destruct (mean_ext I E HE _ (fun w => rsum (m + 1) (fun i => f i w)) C) as [F G]; [intros w; rewrite gsum_S by lia; reflexivity|].
    split; [exact F|]. rewrite G, D, B. rewrite gsum_S by lia. reflexivity.
Qed.

Context (S N : Z) (HS : 0 <= S) (HN : 0 <= N) (v : R) (e : Omega -> Z -> Z -> R) (He : uncorrelated I E S N v e).
(** the square of a linear form in the errors *)
Lemma mean_square (c : Z -> Z -> R) : 
  let f w := rsum S (fun s => rsum N (fun i => e w s i * c s i)%R) in
  I (fun w => f w * f w)%R /\ E (fun w => f w * f w)%R = (v * rsum S (fun s => rsum N (fun i => c s i * c s i)%R))%R.
Proof.
  intros f. set (g := fun w => rsum S (fun s => rsum S (fun t => rsum N (fun i => rsum N (fun j => (c s i * c t j) * (e w s i * e w t j))%R)))).
  assert (Hg : forall w, g w = (f w * f w)%R).
  { intros w. unfold f, g. rewrite rsum_mul. apply rsum_ext. intros s Hs. apply rsum_ext. intros t Ht. rewrite rsum_mul. apply rsum_ext. intros i Hi.
    apply rsum_ext. intros j Hj. ring. }
  assert (A : I g /\ E g = rsum S (fun s => rsum S (fun t => rsum N (fun i => rsum N (fun j => (c s i * c t j) * (if ((s =? t) && (i =? j))%bool then v else 0))%R)))).
  { unfold g. 
    assert (P4 : forall s t i j, 0 <= s < S -> 0 <= t < S -> 0 <= i < N -> 0 <= j < N -> I (fun w => (c s i * c t j) * (e w s i * e w t j))%R /\
      E (fun w => (c s i * c t j) * (e w s i * e w t j))%R = ((c s i * c t j) * (if ((s =? t) && (i =? j))%bool then v else 0))%R).
    { intros s t i j Hs Ht Hi Hj. destruct (He s i t j Hs Hi Ht Hj) as [A B]. destruct (mean_scale I E HE (c s i * c t j)%R _ A) as [C D]. split; [exact C|]. rewrite D, B. reflexivity. }
    assert (P3 : forall s t i, 0 <= s < S -> 0 <= t < S -> 0 <= i < N -> I (fun w => rsum N (fun j => (c s i * c t j) * (e w s i * e w t j))%R) /\
      E (fun w => rsum N (fun j => (c s i * c t j) * (e w s i * e w t j))%R) = rsum N (fun j => (c s i * c t j) * (if ((s =? t) && (i =? j))%bool then v else 0))%R).
    { intros s t i Hs Ht Hi. destruct (mean_sum N (fun j w => (c s i * c t j) * (e w s i * e w t j))%R HN) as [A B]; [intros j Hj; apply P4; auto|]. split; [exact A|].
      etransitivity; [exact B|]. apply rsum_ext. intros j Hj. apply P4; auto. }
    assert (P2 : forall s t, 0 <= s < S -> 0 <= t < S -> I (fun w => rsum N (fun i => rsum N (fun j => (c s i * c t j) * (e w s i * e w t j))%R)) /\
      E (fun w => rsum N (fun i => rsum N (fun j => (c s i * c t j) * (e w s i * e w t j))%R)) = rsum N (fun i => rsum N (fun j => (c s i * c t j) * (if ((s =? t) && (i =? j))%bool then v else 0))%R)).
    { intros s t Hs Ht. destruct (mean_sum N (fun i w => rsum N (fun j => (c s i * c t j) * (e w s i * e w t j))%R) HN) as [A B]; [intros i Hi; apply P3; auto|]. split; [exact A|].
      etransitivity; [exact B|]. apply rsum_ext. intros i Hi. apply P3; auto. }
    assert (P1 : forall s, 0 <= s < S -> I (fun w => rsum S (fun t => rsum N (fun i => rsum N (fun j => (c s i * c t j) * (e w s i * e w t j))%R))) /\
      E (fun w => rsum S (fun t => rsum N (fun i => rsum N (fun j => (c s i * c t j) * (e w s i * e w t j))%R))) = rsum S (fun t => rsum N (fun i => rsum N (fun j => (c s i * c t j) * (if ((s =? t) && (i =? j))%bool then v else 0))%R))).
    { intros s Hs. destruct (mean_sum S (fun t w => rsum N (fun i => rsum N (fun j => (c s i * c t j) * (e w s i * e w t j))%R)) HS) as [A B]; [intros t Ht; apply P2; auto|]. split; [exact A|].
      etransitivity; [exact B|]. apply rsum_ext. intros t Ht. apply P2; auto. }
    destruct (mean_sum S (fun s w => rsum S (fun t => rsum N (fun i => rsum N (fun j => (c s i * c t j) * (e w s i * e w t j))%R))) HS) as [A B]; [intros s Hs; apply P1; auto|]. split; [exact A|].
    etransitivity; [exact B|]. apply rsum_ext. intros s Hs. apply P1; auto. }
  destruct A as [A B]. destruct (mean_ext I E HE g (fun w => f w * f w)%R A Hg) as [C D]. split; [exact C|]. rewrite D, B.
  rewrite <- rsum_scale. apply rsum_ext. intros s Hs.
  transitivity (rsum N (fun i => rsum N (fun j => (c s i * c s j) * (if (i =? j)%Z then v else 0))%R)).
  { etransitivity; [apply (gsum_single Rlawful S s); auto|].
    - intros t Ht Hne. change (rsum N (fun i => rsum N (fun j => (c s i * c t j * (if (s =? t) && (i =? j) then v else 0))%R)) = 0%R).
      apply rsum_zero. intros i Hi. apply rsum_zero.
      intros j Hj. destruct (Z.eqb_spec s t); [lia|]. cbn. ring.
    - cbv beta. rewrite Z.eqb_refl. reflexivity. }
  rewrite <- rsum_scale. apply rsum_ext. intros i Hi. etransitivity; [apply (gsum_single Rlawful N i); auto|].
  - intros j Hj Hne. change ((c s i * c s j * (if (i =? j)%Z then v else 0))%R = 0%R). destruct (Z.eqb_spec i j); [lia|]. ring.
  - cbv beta. rewrite Z.eqb_refl. change ((c s i * c s i * v)%R = (v * (c s i * c s i))%R). ring.
Qed.

(** the coefficients of the i-th coefficient of a product *)
Definition negrow (N : Z) (p : Z -> R) (i k : Z) : R := if k <=? i then p (i - k) else (- p (N + i - k)%Z)%R.
Lemma negrow_square p i : 0 <= i < N -> rsum N (fun k => negrow N p i k * negrow N p i k)%R = rsum N (fun k => p k * p k)%R.
Proof.
  intros Hi. transitivity (rsum N (fun k => (fun k => p k * p k)%R ((k + (i + 1)) mod N))).
  2:{ exact (gsum_shift Rlawful N (i + 1) (fun k => p k * p k)%R). }
  transitivity (rsum N (fun k => (fun k => (p ((k + (i + 1)) mod N) * p ((k + (i + 1)) mod N))%R) (N - 1 - k))).
  2:{ exact (gsum_rev Rlawful N (fun k => (p ((k + (i + 1)) mod N) * p ((k + (i + 1)) mod N))%R)). }
  apply rsum_ext. intros k Hk. cbv beta. unfold negrow. destruct (Z.leb_spec k i).
  - replace (N - 1 - k + (i + 1)) with (i - k + 1 * N) by lia. rewrite Z.mod_add, Z.mod_small by lia. reflexivity.
  - replace (N - 1 - k + (i + 1)) with (N + i - k) by lia. rewrite Z.mod_small by lia. ring.
Qed.

(** the square sum of e_0 * p_0 + ... + e_(S-1) * p_(S-1) *)
Lemma mean_conv (p : Z -> Z -> R) :
  let f w i := rsum S (fun s => rnegconv N (e w s) (p s) i) in
  I (fun w => rsum N (fun i => f w i * f w i)%R) /\
  E (fun w => rsum N (fun i => f w i * f w i)%R) = (IZR N * v * rsum S (fun s => rsum N (fun k => p s k * p s k)%R))%R.
Proof.
  intros f. pose proof (fun i => mean_square (fun s k => negrow N (p s) i k)) as Q. cbv zeta in Q.
  destruct (mean_sum N (fun i w => f w i * f w i)%R HN) as [A B]; [intros i Hi; apply (Q i)|]. split; [exact A|]. etransitivity; [exact B|].
  transitivity (rsum N (fun _ => v * rsum S (fun s => rsum N (fun k => p s k * p s k)%R))%R).
  - apply rsum_ext. intros i Hi. etransitivity; [exact (proj2 (Q i))|]. apply (f_equal (Rmult v)). apply rsum_ext. intros s Hs. apply negrow_square. auto.
  - rewrite rsum_const by auto. ring.
Qed.
End Mean.
