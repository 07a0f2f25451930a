(** Finite sums indexed by 0 <= i < n over a commutative ring, and their instance for Z. *)
From Coq Require Import ZArith Ring List Bool Lia FinFun.
Open Scope Z_scope.

Section Sum.
  Variables (R : Type) (r0 r1 : R) (radd rmul rsub : R -> R -> R) (ropp : R -> R).
  Variable RT : ring_theory r0 r1 radd rmul rsub ropp eq.
  Add Ring RRing : RT.
  Declare Scope R_sc.
  Notation "x + y" := (radd x y) : R_sc. Notation "x * y" := (rmul x y) : R_sc.
  Notation "x - y" := (rsub x y) : R_sc. Notation "- x" := (ropp x) : R_sc.
  Delimit Scope R_sc with R.

  Fixpoint nsum (n : nat) (f : Z -> R) : R :=
    match n with O => r0 | S n' => (nsum n' f + f (Z.of_nat n'))%R end.
  Definition gsum (n : Z) (f : Z -> R) : R := nsum (Z.to_nat n) f.

  Lemma gsum_nil n f : n <= 0 -> gsum n f = r0.
  Proof. intros. unfold gsum. replace (Z.to_nat n) with O by lia. reflexivity. Qed.

  Lemma gsum_S n f : 0 <= n -> gsum (n + 1) f = (gsum n f + f n)%R.
  Proof.
    intros. unfold gsum. replace (Z.to_nat (n + 1)) with (S (Z.to_nat n)) by lia. cbn [nsum].
    rewrite Z2Nat.id by lia. reflexivity.
  Qed.

  Lemma gsum_ind (P : Z -> Prop) : P 0 -> (forall n, 0 <= n -> P n -> P (n + 1)) -> forall n, 0 <= n -> P n.
  Proof. intros H0 HS n Hn. apply natlike_ind; auto. Qed.

  Lemma gsum_ext n f g : (forall i, 0 <= i < n -> f i = g i) -> gsum n f = gsum n g.
  Proof.
    intros H. destruct (Z_le_gt_dec 0 n) as [Hn|]; [|rewrite !gsum_nil by lia; auto].
    revert H. pattern n. apply gsum_ind; [ | |exact Hn]; clear n Hn.
    - intros. rewrite !gsum_nil by lia. auto.
    - intros n Hn IH H. rewrite !gsum_S by auto. rewrite (H n) by lia. rewrite IH; auto. intros; apply H; lia.
  Qed.

  Lemma gsum_add n f g : gsum n (fun i => f i + g i)%R = (gsum n f + gsum n g)%R.
  Proof.
    destruct (Z_le_gt_dec 0 n) as [Hn|]; [|rewrite !gsum_nil by lia; ring].
    pattern n. apply gsum_ind; [ | |exact Hn]; clear n Hn.
    - rewrite !gsum_nil by lia. ring.
    - intros n Hn IH. rewrite !gsum_S, IH by auto. ring.
  Qed.

  Lemma gsum_scal n c f : gsum n (fun i => c * f i)%R = (c * gsum n f)%R.
  Proof.
    destruct (Z_le_gt_dec 0 n) as [Hn|]; [|rewrite !gsum_nil by lia; ring].
    pattern n. apply gsum_ind; [ | |exact Hn]; clear n Hn.
    - rewrite !gsum_nil by lia. ring.
    - intros n Hn IH. rewrite !gsum_S, IH by auto. ring.
  Qed.

  Lemma gsum_scal_r n c f : gsum n (fun i => f i * c)%R = (gsum n f * c)%R.
  Proof. rewrite (gsum_ext n _ (fun i => c * f i)%R) by (intros; ring). rewrite gsum_scal. ring. Qed.

  Lemma gsum_opp n f : gsum n (fun i => - f i)%R = (- gsum n f)%R.
  Proof. rewrite (gsum_ext n _ (fun i => - r1 * f i)%R) by (intros; ring). rewrite gsum_scal. ring. Qed.

  Lemma gsum_sub n f g : gsum n (fun i => f i - g i)%R = (gsum n f - gsum n g)%R.
  Proof.
    rewrite (gsum_ext n _ (fun i => f i + - g i)%R) by (intros; ring). rewrite gsum_add, gsum_opp. ring.
  Qed.

  Lemma gsum_zero n f : (forall i, 0 <= i < n -> f i = r0) -> gsum n f = r0.
  Proof.
    intros H. rewrite (gsum_ext n f (fun i => r0 * r0)%R) by (intros; rewrite H by auto; ring).
    rewrite gsum_scal. ring.
  Qed.

  Lemma gsum_split m n f : 0 <= m -> 0 <= n -> gsum (m + n) f = (gsum m f + gsum n (fun i => f (m + i)%Z))%R.
  Proof.
    intros Hm Hn. pattern n. apply gsum_ind; [ | |exact Hn]; clear n Hn.
    - rewrite Z.add_0_r. rewrite (gsum_nil 0) by lia. ring.
    - intros n Hn IH. rewrite Z.add_assoc, !gsum_S, IH by lia. ring.
  Qed.

  Lemma gsum_cut m n f : 0 <= m <= n -> gsum n f = (gsum m f + gsum (n - m) (fun i => f (m + i)%Z))%R.
  Proof. intros. rewrite <- gsum_split by lia. f_equal. lia. Qed.

  Lemma gsum_head n f : 0 <= n -> gsum (n + 1) f = (f 0%Z + gsum n (fun i => f (i + 1)%Z))%R.
  Proof.
    intros Hn. rewrite Z.add_comm, gsum_split by lia. f_equal.
    - change 1%Z with (0 + 1)%Z. rewrite gsum_S, gsum_nil by lia. ring.
    - apply gsum_ext. intros. f_equal. lia.
  Qed.

  Lemma gsum_swap m n f : gsum m (fun i => gsum n (fun j => f i j)) = gsum n (fun j => gsum m (fun i => f i j)).
  Proof.
    destruct (Z_le_gt_dec 0 m) as [Hm|].
    - pattern m. apply gsum_ind; [ | |exact Hm]; clear m Hm.
      + rewrite gsum_nil by lia. symmetry. apply gsum_zero. intros. apply gsum_nil. lia.
      + intros m Hm IH. rewrite gsum_S, IH by auto. rewrite <- gsum_add. apply gsum_ext.
        intros. rewrite gsum_S by auto. reflexivity.
    - rewrite gsum_nil by lia. symmetry. apply gsum_zero. intros. apply gsum_nil. lia.
  Qed.

  (** even and odd indices *)
  Lemma gsum_even_odd n f : 0 <= n ->
    gsum (2 * n) f = gsum n (fun i => f (2 * i)%Z + f (2 * i + 1)%Z)%R.
  Proof.
    intros Hn. pattern n. apply gsum_ind; [ | |exact Hn]; clear n Hn.
    - rewrite !gsum_nil by lia. auto.
    - intros n Hn IH. replace (2 * (n + 1)) with (2 * n + 1 + 1) by lia.
      rewrite !gsum_S, IH by lia. ring.
  Qed.

  (** blocks *)
  Lemma gsum_blocks m n f : 0 <= m -> 0 <= n ->
    gsum (m * n) f = gsum m (fun i => gsum n (fun j => f (i * n + j)%Z)).
  Proof.
    intros Hm Hn. pattern m. apply gsum_ind; [ | |exact Hm]; clear m Hm.
    - rewrite !gsum_nil by lia. auto.
    - intros m Hm IH. replace ((m + 1) * n) with (m * n + n) by lia.
      rewrite gsum_split, IH, gsum_S by nia. reflexivity.
  Qed.

  Lemma gsum_single n k f : 0 <= k < n -> (forall i, 0 <= i < n -> i <> k -> f i = r0) -> gsum n f = f k.
  Proof.
    intros Hk H. rewrite (gsum_cut k) by lia. rewrite gsum_zero by (intros; apply H; lia).
    replace (n - k) with ((n - k - 1) + 1) by lia. rewrite gsum_head by lia.
    rewrite gsum_zero by (intros; apply H; lia). rewrite Z.add_0_r. ring.
  Qed.

  Lemma gsum_rev n f : gsum n f = gsum n (fun i => f (n - 1 - i)%Z).
  Proof.
    destruct (Z_le_gt_dec 0 n) as [Hn|]; [|rewrite !gsum_nil by lia; ring].
    revert f. pattern n. apply gsum_ind; [ | |exact Hn]; clear n Hn.
    - intros. rewrite !gsum_nil by lia. auto.
    - intros n Hn IH f. rewrite gsum_S by auto. rewrite gsum_head by auto. rewrite IH.
      rewrite (gsum_ext n (fun i => f (n + 1 - 1 - (i + 1))%Z) (fun i => f (n - 1 - i)%Z)) by (intros; f_equal; lia).
      replace (n + 1 - 1 - 0) with n by lia. ring.
  Qed.

  (** reindexing along a permutation of [0,n) *)
  Fixpoint lsum (l : list Z) (f : Z -> R) : R :=
    match l with nil => r0 | cons x l' => (f x + lsum l' f)%R end.

  Lemma lsum_app l l' f : lsum (l ++ l') f = (lsum l f + lsum l' f)%R.
  Proof. induction l; cbn; [ring|rewrite IHl; ring]. Qed.

  Lemma gsum_lsum n f : gsum n f = lsum (List.map Z.of_nat (List.seq 0 (Z.to_nat n))) f.
  Proof.
    unfold gsum. induction (Z.to_nat n) as [|m IH]; [reflexivity|]. cbn [nsum].
    rewrite List.seq_S, List.map_app, lsum_app, IH. cbn. ring.
  Qed.

  Lemma lsum_remove x l f : List.In x l -> List.NoDup l ->
    lsum l f = (f x + lsum (List.remove Z.eq_dec x l) f)%R.
  Proof.
    intros Hin Hnd. induction Hnd as [|y l Hy Hnd IH]; [destruct Hin|].
    cbn [lsum List.remove].
    destruct (Z.eq_dec x y) as [->|Hne].
    - rewrite List.notin_remove by auto. reflexivity.
    - destruct Hin as [->|Hin]; [contradiction|]. cbn [lsum]. rewrite IH by auto. ring.
  Qed.

  Lemma nodup_remove x (l : list Z) : List.NoDup l -> List.NoDup (List.remove Z.eq_dec x l).
  Proof.
    induction 1 as [|y l Hy Hnd IH]; cbn; [constructor|]. destruct (Z.eq_dec x y); auto.
    constructor; auto. intros Hin. apply List.in_remove in Hin. tauto.
  Qed.

  Lemma lsum_perm l l' f : List.NoDup l -> List.NoDup l' -> (forall x, List.In x l <-> List.In x l') ->
    lsum l f = lsum l' f.
  Proof.
    intros Hnd. revert l'. induction Hnd as [|x l Hx Hnd IH]; intros l' Hnd' H.
    - destruct l' as [|y l']; [reflexivity|]. exfalso. apply (proj2 (H y)). left. auto.
    - rewrite (lsum_remove x l') by (auto; apply H; left; auto). cbn [lsum]. f_equal.
      apply IH; [apply nodup_remove; auto|]. intros y. split.
      + intros Hy. apply List.in_in_remove; [intros ->; contradiction|]. apply H. right. auto.
      + intros Hy. apply List.in_remove in Hy as [Hy Hne]. apply H in Hy as [->|]; [contradiction|auto].
  Qed.

  Lemma lsum_map l g f : lsum (List.map g l) f = lsum l (fun i => f (g i)).
  Proof. induction l; cbn; auto. rewrite IHl. reflexivity. Qed.

  Lemma gsum_reindex n (p : Z -> Z) f :
    (forall i, 0 <= i < n -> 0 <= p i < n) ->
    (forall i j, 0 <= i < n -> 0 <= j < n -> p i = p j -> i = j) ->
    gsum n f = gsum n (fun i => f (p i)).
  Proof.
    intros Hr Hi. rewrite !gsum_lsum, <- (lsum_map _ p).
    set (l := List.map Z.of_nat (List.seq 0 (Z.to_nat n))).
    assert (Hin : forall x, List.In x l <-> 0 <= x < n).
    { intros x. unfold l. rewrite List.in_map_iff. split.
      - intros (i & <- & Hx). apply List.in_seq in Hx. lia.
      - intros Hx. exists (Z.to_nat x). split; [lia|]. apply List.in_seq. lia. }
    assert (Hnd : List.NoDup l).
    { apply FinFun.Injective_map_NoDup; [|apply List.seq_NoDup]. intros a b. lia. }
    assert (Hnd' : List.NoDup (List.map p l)).
    { clear Hr. revert Hnd. assert (Hsub : forall x, List.In x l -> 0 <= x < n) by (intros; apply Hin; auto).
      revert Hsub. generalize l as l0. clear -Hi. induction l0 as [|x l IH]; cbn; [constructor|].
      intros Hsub Hnd. inversion Hnd; subst. constructor; [|apply IH; auto].
      intros Hx. apply List.in_map_iff in Hx as (y & E & Hy). apply Hi in E; auto. subst. contradiction. }
    apply lsum_perm; auto. intros x. split.
    - assert (Hincl : List.incl l (List.map p l)).
      { apply List.NoDup_length_incl; auto; [rewrite List.map_length; auto|].
        intros y Hy. apply List.in_map_iff in Hy as (z & <- & Hz). apply Hin, Hr, Hin. auto. }
      apply Hincl.
    - intros Hx. apply List.in_map_iff in Hx as (y & <- & Hy). apply Hin, Hr, Hin. auto.
  Qed.
End Sum.
Arguments gsum {R}.

(** *** Sums of integers *)
Definition zsum : Z -> (Z -> Z) -> Z := gsum 0 Z.add.

Definition Zr := Zth.
Lemma zsum_nil n f : n <= 0 -> zsum n f = 0. Proof. apply gsum_nil. Qed.
Lemma zsum_S n f : 0 <= n -> zsum (n + 1) f = zsum n f + f n. Proof. apply gsum_S. Qed.
Lemma zsum_ext n f g : (forall i, 0 <= i < n -> f i = g i) -> zsum n f = zsum n g. Proof. apply gsum_ext. Qed.
Lemma zsum_add n f g : zsum n (fun i => f i + g i) = zsum n f + zsum n g. Proof. apply (gsum_add _ _ _ _ _ _ _ Zr). Qed.
Lemma zsum_sub n f g : zsum n (fun i => f i - g i) = zsum n f - zsum n g. Proof. apply (gsum_sub _ _ _ _ _ _ _ Zr). Qed.
Lemma zsum_opp n f : zsum n (fun i => - f i) = - zsum n f. Proof. apply (gsum_opp _ _ _ _ _ _ _ Zr). Qed.
Lemma zsum_scal n c f : zsum n (fun i => c * f i) = c * zsum n f. Proof. apply (gsum_scal _ _ _ _ _ _ _ Zr). Qed.
Lemma zsum_scal_r n c f : zsum n (fun i => f i * c) = zsum n f * c. Proof. apply (gsum_scal_r _ _ _ _ _ _ _ Zr). Qed.
Lemma zsum_zero n f : (forall i, 0 <= i < n -> f i = 0) -> zsum n f = 0. Proof. apply (gsum_zero _ _ _ _ _ _ _ Zr). Qed.
Lemma zsum_split m n f : 0 <= m -> 0 <= n -> zsum (m + n) f = zsum m f + zsum n (fun i => f (m + i)). Proof. apply (gsum_split _ _ _ _ _ _ _ Zr). Qed.
Lemma zsum_cut m n f : 0 <= m <= n -> zsum n f = zsum m f + zsum (n - m) (fun i => f (m + i)). Proof. apply (gsum_cut _ _ _ _ _ _ _ Zr). Qed.
Lemma zsum_head n f : 0 <= n -> zsum (n + 1) f = f 0 + zsum n (fun i => f (i + 1)). Proof. apply (gsum_head _ _ _ _ _ _ _ Zr). Qed.
Lemma zsum_swap m n f : zsum m (fun i => zsum n (fun j => f i j)) = zsum n (fun j => zsum m (fun i => f i j)). Proof. apply (gsum_swap _ _ _ _ _ _ _ Zr). Qed.
Lemma zsum_even_odd n f : 0 <= n -> zsum (2 * n) f = zsum n (fun i => f (2 * i) + f (2 * i + 1)). Proof. apply (gsum_even_odd _ _ _ _ _ _ _ Zr). Qed.
Lemma zsum_blocks m n f : 0 <= m -> 0 <= n -> zsum (m * n) f = zsum m (fun i => zsum n (fun j => f (i * n + j))). Proof. apply (gsum_blocks _ _ _ _ _ _ _ Zr). Qed.
Lemma zsum_single n k f : 0 <= k < n -> (forall i, 0 <= i < n -> i <> k -> f i = 0) -> zsum n f = f k. Proof. apply (gsum_single _ _ _ _ _ _ _ Zr). Qed.
Lemma zsum_rev n f : zsum n f = zsum n (fun i => f (n - 1 - i)). Proof. apply (gsum_rev _ _ _ _ _ _ _ Zr). Qed.
Lemma zsum_reindex n p f : (forall i, 0 <= i < n -> 0 <= p i < n) ->
  (forall i j, 0 <= i < n -> 0 <= j < n -> p i = p j -> i = j) -> zsum n f = zsum n (fun i => f (p i)).
Proof. apply (gsum_reindex _ _ _ _ _ _ _ Zr). Qed.

Lemma zsum_mod q n f g : (forall i, 0 <= i < n -> f i mod q = g i mod q) -> zsum n f mod q = zsum n g mod q.
Proof.
  intros H. destruct (Z_le_gt_dec 0 n) as [Hn|]; [|rewrite !zsum_nil by lia; auto].
  revert H. pattern n. apply natlike_ind; [ | |exact Hn]; clear n Hn.
  - intros. rewrite !zsum_nil by lia. auto.
  - intros n Hn IH H. unfold Z.succ. rewrite !zsum_S by auto. rewrite Zplus_mod, IH, H by (intros; try apply H; lia).
    rewrite <- Zplus_mod. reflexivity.
Qed.

Lemma zsum_bound n f b : 0 <= n -> (forall i, 0 <= i < n -> Z.abs (f i) <= b) -> Z.abs (zsum n f) <= n * b.
Proof.
  intros Hn. pattern n. apply natlike_ind; [ | |exact Hn]; clear n Hn.
  - intros. rewrite zsum_nil by lia. lia.
  - intros n Hn IH H. unfold Z.succ. rewrite zsum_S by auto.
    pose proof (IH ltac:(intros; apply H; lia)). pose proof (H n ltac:(lia)). lia.
Qed.

Lemma zsum_abs n f : Z.abs (zsum n f) <= zsum n (fun i => Z.abs (f i)).
Proof.
  destruct (Z_le_gt_dec 0 n) as [Hn|]; [|rewrite !zsum_nil by lia; lia].
  pattern n. apply natlike_ind; [ | |exact Hn]; clear n Hn.
  - rewrite !zsum_nil by lia. lia.
  - intros n Hn IH. unfold Z.succ. rewrite !zsum_S by auto. lia.
Qed.

Lemma zsum_le n f g : (forall i, 0 <= i < n -> f i <= g i) -> zsum n f <= zsum n g.
Proof.
  intros H. destruct (Z_le_gt_dec 0 n) as [Hn|]; [|rewrite !zsum_nil by lia; lia].
  revert H. pattern n. apply natlike_ind; [ | |exact Hn]; clear n Hn.
  - intros. rewrite !zsum_nil by lia. lia.
  - intros n Hn IH H. unfold Z.succ. rewrite !zsum_S by auto. 
    pose proof (IH ltac:(intros; apply H; lia)). pose proof (H n ltac:(lia)). lia.
Qed.

Lemma zsum_const n c : 0 <= n -> zsum n (fun _ => c) = n * c.
Proof.
  intros Hn. pattern n. apply natlike_ind; [ | |exact Hn]; clear n Hn.
  - rewrite zsum_nil; lia.
  - intros n Hn IH. unfold Z.succ. rewrite zsum_S, IH by auto. lia.
Qed.
