(** How many polynomials give large sums: the method of Chernoff, by counting. *)
From Coq Require Import ZArith List Bool Lia Reals Lra.
From Verif Require Import Base BaseFacts Sums SpecPoly.
From Verif Require Import SpecTail.
Import ListNotations.
Open Scope Z_scope.

(** ** The vectors *)
Lemma residues_in p x : 0 <= p -> In x (residues p) <-> - p <= x < p.
Proof.
  intros Hp. unfold residues. rewrite in_map_iff. split.
  - intros (k & <- & Hk). apply in_seq in Hk. lia.
  - intros H. exists (Z.to_nat (x + p)). split; [lia|]. apply in_seq. lia.
Qed.
Lemma residues_nodup p : NoDup (residues p).
Proof. unfold residues. apply FinFun.Injective_map_NoDup; [|apply seq_NoDup]. intros x y H. lia. Qed.
Lemma residues_length p : length (residues p) = Z.to_nat (2 * p).
Proof. unfold residues. rewrite map_length, seq_length. reflexivity. Qed.
Lemma vectors_in p n a : 0 <= p -> In a (vectors p n) <-> length a = n /\ Forall (fun x => - p <= x < p) a.
Proof.
  intros Hp. revert a. induction n as [|n IH]; intros a; cbn [vectors].
  - split; [intros [<-|[]]; auto|]. intros [H _]. left. symmetry. apply length_zero_iff_nil. exact H.
  - rewrite in_flat_map. split.
    + intros (x & Hx & H). apply in_map_iff in H. destruct H as (l & <- & Hl). apply IH in Hl. apply (residues_in p x Hp) in Hx. destruct Hl as [Hl HF]. split; [cbn; lia|]. constructor; auto.
    + intros [Hl HF]. destruct a as [|x a]; [discriminate|]. inversion_clear HF. exists x. split; [apply residues_in; auto|]. apply in_map. apply IH. split; [cbn in Hl; lia|auto].
Qed.
Lemma vectors_nodup p n : NoDup (vectors p n).
Proof.
  induction n as [|n IH]; cbn [vectors]; [repeat constructor; auto|]. pose proof (residues_nodup p) as Hr. induction Hr as [|x l Hx Hl IHl]; [constructor|]. cbn [flat_map].
  assert (G : forall (A : Type) (l1 l2 : list A), NoDup l1 -> NoDup l2 -> (forall y, In y l1 -> ~ In y l2) -> NoDup (l1 ++ l2)).
  { intros A l1 l2 H1 H2 H. induction H1 as [|z l1 Hz H1 IH1]; auto. cbn. constructor.
    - rewrite in_app_iff. intros [Z0|Z0]; [auto|]. apply (H z); cbn; auto.
    - apply IH1. intros y Hy. apply H. right. exact Hy. }
  apply G; [|exact IHl|].
  - apply FinFun.Injective_map_NoDup; auto. intros a b E. congruence.
  - intros y Hy Hy'. apply in_map_iff in Hy. destruct Hy as (a & <- & _). apply in_flat_map in Hy'. destruct Hy' as (x' & Hx' & Hy'). apply in_map_iff in Hy'. destruct Hy' as (b & E & _). congruence.
Qed.
(** ** Sums over lists *)
Fixpoint rsum {A} (f : A -> R) (l : list A) : R := match l with [] => 0%R | x :: l => (f x + rsum f l)%R end.
Lemma rsum_app {A} (f : A -> R) l1 l2 : rsum f (l1 ++ l2) = (rsum f l1 + rsum f l2)%R.
Proof. induction l1 as [|x l1 IH]; cbn [rsum app]; [lra|rewrite IH; lra]. Qed.
Lemma rsum_map {A B} (g : A -> B) (f : B -> R) l : rsum f (map g l) = rsum (fun x => f (g x)) l.
Proof. induction l as [|x l IH]; cbn [rsum map]; [reflexivity|rewrite IH; reflexivity]. Qed.
Lemma rsum_scal {A} c (f : A -> R) l : rsum (fun x => c * f x)%R l = (c * rsum f l)%R.
Proof. induction l as [|x l IH]; cbn [rsum]; [lra|rewrite IH; lra]. Qed.
Lemma rsum_ext {A} (f g : A -> R) l : (forall x, In x l -> f x = g x) -> rsum f l = rsum g l.
Proof. induction l as [|x l IH]; intros H; cbn [rsum]; [reflexivity|]. rewrite IH by (intros; apply H; right; auto). rewrite H by (left; auto). reflexivity. Qed.
Lemma rsum_nonneg {A} (f : A -> R) l : (forall x, (0 <= f x)%R) -> (0 <= rsum f l)%R.
Proof. intros H. induction l as [|x l IH]; cbn [rsum]; [lra|]. specialize (H x). lra. Qed.
Lemma rsum_one {A} (l : list A) : rsum (fun _ => 1%R) l = INR (length l).
Proof. induction l as [|x l IH]; cbn [rsum length]; [reflexivity|]. rewrite IH, S_INR. lra. Qed.
(** Markov's inequality *)
Lemma markov {A} (p : A -> bool) (f : A -> R) l : (forall x, (0 <= f x)%R) -> (forall x, In x l -> p x = true -> (1 <= f x)%R) -> (INR (length (filter p l)) <= rsum f l)%R.
Proof.
  intros H0 H1. induction l as [|x l IH]; cbn [filter rsum]; [cbn; lra|]. specialize (IH (fun y Hy => H1 y (or_intror Hy))). pose proof (H0 x). destruct (p x) eqn:E; [|lra].
  cbn [length]. rewrite S_INR. specialize (H1 x (or_introl eq_refl) E). lra.
Qed.
(** The sum of products is the product of sums. *)
Fixpoint rprod (n : nat) (f : nat -> R) : R := match n with O => 1%R | S n => (f O * rprod n (fun k => f (S k)))%R end.
Lemma vectors_sum p n : forall phi : nat -> Z -> R,
  rsum (fun a => rprod n (fun k => phi k (nth k a 0))) (vectors p n) = rprod n (fun k => rsum (phi k) (residues p)).
Proof.
  induction n as [|n IH]; intros phi; [cbn; lra|]. cbn [vectors rprod]. rewrite <- (IH (fun k => phi (S k))).
  generalize (residues p). intros l0. induction l0 as [|x l IHl]; cbn [flat_map rsum]; [lra|]. rewrite rsum_app, IHl, rsum_map. cbn [nth]. rewrite rsum_scal. lra.
Qed.
Lemma rprod_ext n : forall f g, (forall k, (k < n)%nat -> f k = g k) -> rprod n f = rprod n g.
Proof. induction n as [|n IH]; intros f g H; cbn [rprod]; [reflexivity|]. rewrite (H O) by lia. rewrite (IH (fun k => f (S k)) (fun k => g (S k))); auto. intros k Hk. apply H. lia. Qed.
Lemma rprod_le n : forall f g, (forall k, (k < n)%nat -> (0 <= f k <= g k)%R) -> (0 <= rprod n f <= rprod n g)%R.
Proof.
  induction n as [|n IH]; intros f g H; cbn [rprod]; [lra|]. destruct (IH (fun k => f (S k)) (fun k => g (S k))) as [H1 H2]; [intros; apply H; lia|]. specialize (H O ltac:(lia)). split; [apply Rmult_le_pos; lra|apply Rmult_le_compat; lra].
Qed.
Lemma rprod_exp n : forall f, rprod n (fun k => exp (f k)) = exp (rsum f (seq 0 n)).
Proof.
  induction n as [|n IH]; intros f; cbn [rprod seq rsum]; [rewrite exp_0; reflexivity|]. rewrite IH, exp_plus. f_equal. f_equal.
  rewrite <- seq_shift, rsum_map. reflexivity.
Qed.
Lemma vectors_count p n : INR (length (vectors p n)) = (IZR (Z.of_nat (length (residues p))) ^ n)%R.
Proof.
  rewrite <- rsum_one, <- INR_IZR_INZ. rewrite <- rsum_one.
  transitivity (rsum (fun a => rprod n (fun k => (fun _ _ => 1%R) k (nth k a 0))) (vectors p n)).
  - apply rsum_ext. intros a _. clear. induction n as [|n IH]; cbn [rprod]; [reflexivity|]. rewrite <- IH. lra.
  - rewrite (vectors_sum p n (fun _ _ => 1%R)). generalize (rsum (fun _ : Z => 1%R) (residues p)). intros r. induction n as [|n IH]; cbn [rprod pow]; [reflexivity|]. rewrite IH. reflexivity.
Qed.

(** ** The exponential moment of a residue *)
(** sum of r^(k-p), k < n *)
Lemma geometric t p n : ((exp t - 1) * rsum (fun x => exp (t * IZR x)) (map (fun k => Z.of_nat k - p)%Z (seq 0 n)) = exp (t * IZR (Z.of_nat n - p)) - exp (t * IZR (- p)))%R.
Proof.
  induction n as [|n IH]; [cbn [seq map rsum]; rewrite Z.sub_0_l; lra|].
  rewrite seq_S, map_app, rsum_app, Rmult_plus_distr_l, IH. cbn [map rsum]. rewrite Nat.add_0_l.
  replace (Z.of_nat (S n) - p) with ((Z.of_nat n - p) + 1) by lia. rewrite (plus_IZR (Z.of_nat n - p) 1). replace (t * (IZR (Z.of_nat n - p) + 1))%R with (t * IZR (Z.of_nat n - p) + t)%R by ring. rewrite exp_plus. ring.
Qed.
(** with t = c / p and q = 2 p: at most q sinh(c)/c e^t, for both signs *)
Definition moment (c : R) (p : Z) : R := ((exp c - exp (- c)) / (2 * c) * exp (c / IZR p))%R.
Lemma moment_pos c p : (0 < c)%R -> (0 < IZR p)%R -> (0 < moment c p)%R.
Proof.
  intros Hc Hp. unfold moment. apply Rmult_lt_0_compat; [|apply exp_pos]. apply Rmult_lt_0_compat; [|apply Rinv_0_lt_compat; lra]. apply Rlt_Rminus. apply exp_increasing. lra.
Qed.
Lemma exp_ge1 x : (1 + x <= exp x)%R.
Proof. destruct (Req_dec x 0) as [->|H]; [rewrite exp_0; lra|]. left. apply exp_ineq1. exact H. Qed.
Lemma residue_sum c p w : (0 < c)%R -> 0 < p -> w = 1 \/ w = -1 ->
  (0 <= rsum (fun x => exp (c / IZR p * (IZR w * IZR x))) (residues p) <= IZR (2 * p) * moment c p)%R.
Proof.
  intros Hc Hp Hw. split; [apply rsum_nonneg; intros; apply Rlt_le, exp_pos|]. apply IZR_lt in Hp. unfold moment. set (t := (c / IZR p)%R).
  assert (Ht : (0 < t)%R) by (apply Rmult_lt_0_compat; [lra|apply Rinv_0_lt_compat; lra]). assert (Hcp : (t * IZR p = c)%R) by (unfold t; field; lra).
  pose proof (exp_ge1 t) as He. pose proof (exp_pos t) as Hep. set (D := (exp c - exp (- c))%R).
  assert (HD : (0 < D)%R) by (unfold D; apply Rlt_Rminus, exp_increasing; lra).
  assert (Hn : Z.of_nat (Z.to_nat (2 * p)) - p = p) by (apply lt_IZR in Hp; lia).
  assert (Hgoal : (IZR (2 * p) * (D / (2 * c) * exp t) = D * exp t / t)%R) by (rewrite mult_IZR; unfold t; field; lra). rewrite Hgoal.
  assert (G : forall S, ((exp t - 1) * S = D * exp t \/ (exp t - 1) * S = D)%R -> (S <= D * exp t / t)%R).
  { intros S HS. assert (HE : (D <= D * exp t)%R) by (rewrite <- (Rmult_1_r D) at 1; apply Rmult_le_compat_l; lra).
    apply (Rmult_le_reg_l t); [lra|]. replace (t * (D * exp t / t))%R with (D * exp t)%R by (field; lra).
    destruct (Rle_or_lt S 0) as [Hs|Hs]; [apply Rle_trans with 0%R; [|lra]; replace 0%R with (t * 0)%R by ring; apply Rmult_le_compat_l; lra|].
    apply Rle_trans with ((exp t - 1) * S)%R; [apply Rmult_le_compat_r; lra|]. destruct HS as [-> | ->]; lra. }
  apply G. destruct Hw as [-> | ->].
  - right. rewrite (rsum_ext _ (fun x => exp (t * IZR x))) by (intros x _; f_equal; ring). unfold residues. rewrite geometric, Hn, opp_IZR. replace (t * - IZR p)%R with (- c)%R by lra. rewrite Hcp. reflexivity.
  - left. rewrite (rsum_ext _ (fun x => exp (- t * IZR x))) by (intros x _; f_equal; ring). pose proof (geometric (- t) p (Z.to_nat (2 * p))) as H. fold (residues p) in H.
    rewrite Hn, opp_IZR in H. replace (- t * - IZR p)%R with c in H by lra. replace (- t * IZR p)%R with (- c)%R in H by lra. set (S := rsum _ _) in *.
    assert (E1 : (exp t * exp (- t) = 1)%R) by (rewrite <- exp_plus, Rplus_opp_r, exp_0; reflexivity).
    assert (E2 : ((exp t * exp (- t) - exp t) * S = exp t * (exp (- c) - exp c))%R) by (rewrite <- H; ring). rewrite E1 in E2. unfold D. lra.
Qed.

(** ** Weighted sums *)
Section Weighted.
Context (p : Z) (Hp : 0 < p) (n : nat) (w : nat -> Z) (Hw : forall k, (k < n)%nat -> w k = -1 \/ w k = 0 \/ w k = 1).
Definition wsum (a : list Z) : R := rsum (fun k => IZR (w k) * IZR (nth k a 0%Z))%R (seq 0 n).
Definition weight : nat := fold_right (fun k m => (if (w k =? 0)%Z then 0 else 1) + m)%nat 0%nat (seq 0 n).
Lemma rprod_weight r : forall m v, (0 <= r)%R -> rprod m (fun k => if v k =? 0 then 1%R else r) = (r ^ fold_right (fun k s => (if (v k =? 0)%Z then 0 else 1) + s)%nat 0%nat (seq 0 m))%R.
Proof.
  induction m as [|m IH]; intros v Hr; cbn [rprod seq fold_right]; [reflexivity|]. rewrite (IH (fun k => v (S k))) by auto. rewrite pow_add.
  assert (E : forall l, fold_right (fun k s => (if (v (S k) =? 0)%Z then 0 else 1) + s)%nat 0%nat l = fold_right (fun k s => (if (v k =? 0)%Z then 0 else 1) + s)%nat 0%nat (map S l)).
  { induction l as [|x l IHl]; cbn [fold_right map]; [reflexivity|]. rewrite IHl. reflexivity. }
  rewrite E, seq_shift. destruct (v O =? 0); cbn [pow]; lra.
Qed.
Lemma rprod_scal c : forall m f, rprod m (fun k => c * f k)%R = (c ^ m * rprod m f)%R.
Proof. induction m as [|m IH]; intros f; cbn [rprod pow]; [lra|]. rewrite (IH (fun k => f (S k))). ring. Qed.
(** Chernoff's bound *)
Lemma chernoff c b : (0 < c)%R ->
  (INR (length (filter (fun a => if Rle_dec (b * IZR (2 * p)) (wsum a) then true else false) (vectors p n))) <= exp (- (2 * c * b)) * moment c p ^ weight * INR (length (vectors p n)))%R.
Proof.
  intros Hc. apply IZR_lt in Hp as Hp'. set (t := (c / IZR p)%R). assert (Ht : (0 < t)%R) by (apply Rmult_lt_0_compat; [lra|apply Rinv_0_lt_compat; lra]).
  eapply Rle_trans; [apply (markov _ (fun a => exp (- (2 * c * b)) * rprod n (fun k => exp (t * (IZR (w k) * IZR (nth k a 0%Z)))))%R)|].
  - intros a. apply Rmult_le_pos; [apply Rlt_le, exp_pos|]. rewrite rprod_exp. apply Rlt_le, exp_pos.
  - intros a _ H. destruct (Rle_dec _ _) as [H'|]; [|discriminate]. rewrite rprod_exp, <- exp_plus, rsum_scal. fold (wsum a). eapply Rle_trans; [|apply exp_ge1].
    apply (Rmult_le_compat_l t) in H'; [|lra]. replace (t * (b * IZR (2 * p)))%R with (2 * c * b)%R in H' by (rewrite mult_IZR; unfold t; field; lra). lra.
  - rewrite rsum_scal. rewrite (vectors_sum p n (fun k x => exp (t * (IZR (w k) * IZR x)))). rewrite (Rmult_assoc (exp _)). apply Rmult_le_compat_l; [apply Rlt_le, exp_pos|].
    rewrite vectors_count, residues_length, Z2Nat.id by lia. pose proof (moment_pos c p Hc Hp') as Hm. unfold weight. rewrite <- rprod_weight by lra. rewrite Rmult_comm, <- rprod_scal.
    apply rprod_le. intros k Hk. destruct (Hw k Hk) as [E|[E|E]]; rewrite E.
    + cbn [Z.eqb]. apply residue_sum; auto.
    + cbn [Z.eqb]. rewrite (rsum_ext _ (fun _ => 1%R)) by (intros x _; rewrite Rmult_0_l, Rmult_0_r, exp_0; reflexivity). rewrite rsum_one, residues_length, INR_IZR_INZ, Z2Nat.id by lia. assert (0 <= IZR (2 * p))%R by (apply IZR_le; lia). lra.
    + cbn [Z.eqb]. apply residue_sum; auto.
Qed.
End Weighted.
