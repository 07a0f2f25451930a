(** Errors of sums of products in floating-point arithmetic. *)
From Coq Require Import ZArith List Bool Lia Reals Lra Ring.
From Verif Require Import Base BaseFacts GSum Matrix MatrixFacts DFT DFTTheory DFTFacts FFTFacts SpecMat SpecDFT SpecEnc SlotFacts LinSlots Properties_Plain.
From Verif Require Import Float SpecFloat FloatFacts FloatError.
Import ListNotations.
Open Scope R_scope.

(** k steps *)
Definition steps {A : Type} (f : Z -> A -> A) (k : Z) (c : A) : A := fold_left (fun c i => f (Z.of_nat i) c) (seq 0 (Z.to_nat k)) c.
Lemma steps_0 {A} (f : Z -> A -> A) c : steps f 0 c = c.
Proof. reflexivity. Qed.
Lemma steps_S {A} (f : Z -> A -> A) k c : (0 <= k)%Z -> steps f (k + 1) c = f k (steps f k c).
Proof.
  intros Hk. unfold steps. replace (Z.to_nat (k + 1)) with (S (Z.to_nat k)) by lia. rewrite seq_S, fold_left_app. cbn [fold_left]. rewrite Nat.add_0_l, Z2Nat.id by lia. reflexivity.
Qed.
Lemma for_steps {A} n (body : Z -> A -> res A) (f : Z -> A -> A) c : (0 <= n)%Z -> (forall k a, (0 <= k < n)%Z -> body k a = Ok (f k a)) -> for_ 0 n body c = Ok (steps f n c).
Proof. intros Hn H. apply (for_closed _ (fun k => steps f k c)); auto. intros k Hk. rewrite H, steps_S by lia. reflexivity. Qed.

(** sums *)
Lemma gsum_nonneg n (f : Z -> R) : (forall k, (0 <= k < n)%Z -> 0 <= f k) -> 0 <= gsum (K := Rops) n f.
Proof.
  destruct (Z_le_gt_dec 0 n) as [Hn|Hn]; [|intros _; rewrite gsum_0 by lia; apply Rle_refl].
  revert Hn. apply (gsum_ind n (fun n => (forall k, (0 <= k < n)%Z -> 0 <= f k) -> 0 <= gsum (K := Rops) n f)).
  - intros _. rewrite gsum_0 by lia. apply Rle_refl.
  - intros m Hm IH H. rewrite gsum_S by lia. assert (0 <= f m) by (apply H; lia). assert (0 <= gsum (K := Rops) m f) by (apply IH; intros k Hk; apply H; lia). change (0 <= gsum (K := Rops) m f + f m). lra.
Qed.
Lemma gsum_mono n m (f : Z -> R) : (0 <= n <= m)%Z -> (forall k, (0 <= k < m)%Z -> 0 <= f k) -> gsum (K := Rops) n f <= gsum (K := Rops) m f.
Proof.
  intros Hn H. replace m with (n + (m - n))%Z by lia. assert (Q : (0 <= m - n)%Z) by lia.
  apply (gsum_ind (m - n) (fun d => gsum (K := Rops) n f <= gsum (K := Rops) (n + d) f)); auto.
  - rewrite Z.add_0_r. apply Rle_refl.
  - intros d Hd IH. rewrite Z.add_assoc, gsum_S by lia. assert (0 <= f (n + d)%Z) by (apply H; lia). change (gsum (K := Rops) n f <= gsum (K := Rops) (n + d) f + f (n + d)%Z). lra.
Qed.
Lemma gsum_le n (f g : Z -> R) : (forall k, (0 <= k < n)%Z -> f k <= g k) -> gsum (K := Rops) n f <= gsum (K := Rops) n g.
Proof.
  intros H. assert (Q : 0 <= gsum (K := Rops) n (fun k => g k - f k)) by (apply gsum_nonneg; intros k Hk; specialize (H k Hk); lra).
  pose proof (gsum_sub (K := Rops) Rlawful n g f) as E. change (gsum (K := Rops) n (fun k => g k - f k) = gsum (K := Rops) n g - gsum (K := Rops) n f) in E. lra.
Qed.
Lemma gsum_rabs n (f : Z -> R) (g : Z -> R) : (0 <= n)%Z -> (forall k, (0 <= k < n)%Z -> Rabs (f k) <= g k) -> Rabs (gsum (K := Rops) n f) <= gsum (K := Rops) n g.
Proof.
  intros Hn. apply (gsum_ind n (fun n => (forall k, (0 <= k < n)%Z -> Rabs (f k) <= g k) -> Rabs (gsum (K := Rops) n f) <= gsum (K := Rops) n g)); auto.
  - intros _. rewrite !gsum_0 by lia. change (Rabs 0 <= 0). rewrite Rabs_R0. lra.
  - intros m Hm IH H. rewrite !gsum_S by lia. assert (Rabs (f m) <= g m) by (apply H; lia). assert (Rabs (gsum (K := Rops) m f) <= gsum (K := Rops) m g) by (apply IH; intros k Hk; apply H; lia).
    change (Rabs (gsum (K := Rops) m f + f m) <= gsum (K := Rops) m g + g m). pose proof (Rabs_triang (gsum (K := Rops) m f) (f m)). lra.
Qed.

(** sums with an error e at each step *)
Lemma acc_real n (f : Z -> R -> R) (d : Z -> R) e Y : (0 <= n)%Z -> 0 <= e -> gsum (K := Rops) n (fun k => Rabs (d k)) + IZR n * e <= Y ->
  (forall k c, (0 <= k < n)%Z -> Rabs c <= Y -> Rabs (f k c - (c + d k)) <= e) ->
  Rabs (steps f n 0 - gsum (K := Rops) n d) <= IZR n * e.
Proof.
  intros Hn He HY Hf.
  assert (Q : (n <= n)%Z -> Rabs (steps f n 0 - gsum (K := Rops) n d) <= IZR n * e); [|apply Q; lia].
  refine (gsum_ind n (fun m => (m <= n)%Z -> Rabs (steps f m 0 - gsum (K := Rops) m d) <= IZR m * e) _ _ Hn).
  - intros _. rewrite steps_0, gsum_0 by lia. change (Rabs (0 - 0) <= 0 * e). rewrite Rminus_0_r, Rabs_R0. lra.
  - intros m Hm IH _. rewrite steps_S, gsum_S by lia. specialize (IH ltac:(lia)). set (c := steps f m 0) in *. set (g := gsum (K := Rops) m d) in *.
    assert (Hg : Rabs g <= gsum (K := Rops) m (fun k => Rabs (d k))) by (apply gsum_rabs; [lia|intros; lra]).
    assert (Hs : gsum (K := Rops) m (fun k => Rabs (d k)) <= gsum (K := Rops) n (fun k => Rabs (d k))) by (apply gsum_mono; [lia|intros; apply Rabs_pos]).
    assert (Hmn : IZR m * e <= IZR n * e) by (apply Rmult_le_compat_r; [lra|apply IZR_le; lia]).
    assert (Hc : Rabs c <= Y). { replace c with ((c - g) + g) by ring. pose proof (Rabs_triang (c - g) g). lra. }
    specialize (Hf m c ltac:(lia) Hc). rewrite plus_IZR. change (Rabs (f m c - (g + d m)) <= (IZR m + 1) * e).
    replace (f m c - (g + d m)) with ((f m c - (c + d m)) + (c - g)) by ring. pose proof (Rabs_triang (f m c - (c + d m)) (c - g)). lra.
Qed.
Lemma acc_complex n (f : Z -> RC -> RC) (d : Z -> RC) e Y : (0 <= n)%Z -> 0 <= e -> gsum (K := Rops) n (fun k => modulus (d k)) + IZR n * e <= Y ->
  (forall k c, (0 <= k < n)%Z -> modulus c <= Y -> modulus (f k c - (c + d k))%num <= e) ->
  modulus (steps f n 0%num - gsum (K := RC) n d : RC)%num <= IZR n * e.
Proof.
  intros Hn He HY Hf.
  assert (Q : (n <= n)%Z -> modulus (steps f n 0%num - gsum (K := RC) n d : RC)%num <= IZR n * e); [|apply Q; lia].
  refine (gsum_ind n (fun m => (m <= n)%Z -> modulus (steps f m 0%num - gsum (K := RC) m d : RC)%num <= IZR m * e) _ _ Hn).
  - intros _. rewrite steps_0, gsum_0 by lia. replace (0%num - 0%num : RC)%num with (0%num : RC) by (apply c_eq; unfold cre, cim; cbn; ring). rewrite modulus_0. lra.
  - intros m Hm IH _. rewrite steps_S, gsum_S by lia. specialize (IH ltac:(lia)). set (c := steps f m 0%num) in *. set (g := gsum (K := RC) m d) in *.
    assert (Hg : modulus g <= gsum (K := Rops) m (fun k => modulus (d k))) by (apply modulus_rsum; [lia|intros; lra]).
    assert (Hs : gsum (K := Rops) m (fun k => modulus (d k)) <= gsum (K := Rops) n (fun k => modulus (d k))) by (apply gsum_mono; [lia|intros; apply modulus_nonneg]).
    assert (Hmn : IZR m * e <= IZR n * e) by (apply Rmult_le_compat_r; [lra|apply IZR_le; lia]).
    assert (Hc : modulus c <= Y). { pose proof (modulus_near c g). lra. }
    specialize (Hf m c ltac:(lia) Hc). rewrite plus_IZR.
    replace (f m c - (g + d m) : RC)%num with ((f m c - (c + d m)) + (c - g) : RC)%num by (apply c_eq; unfold cre, cim; cbn; ring). pose proof (modulus_add (f m c - (c + d m))%num (c - g)%num). lra.
Qed.

Section Dot.
Context (u eta top : R) (rd : R -> R) (Hu : 0 <= u <= / 1024) (He : 0 <= eta <= / 1024).
Context (Hrd : forall x, Rabs x <= top -> Rabs (rd x - x) <= u * Rabs x + eta).

Lemma rd_err x Y : Rabs x <= Y -> Y <= top -> Rabs (rd x - x) <= u * Y + eta.
Proof. intros H1 H2. eapply Rle_trans; [apply Hrd; lra|]. apply Rplus_le_compat_r, Rmult_le_compat_l; lra. Qed.

(** one component of a product of complex numbers *)
Lemma cross_err p q sg Y : sg = 1 \/ sg = -1 -> 0 <= Y -> Rabs p <= Y -> Rabs q <= Y -> Rabs (p + sg * q) <= Y -> 2 * Y + 1 <= top ->
  Rabs (rd (rd p + sg * rd q) - (p + sg * q)) <= 31 / 10 * (u * Y) + 31 / 10 * eta.
Proof.
  intros Hsg HY Hp Hq Hpq Ht. pose proof (small_mul u Y Hu HY) as F1. pose proof (small_mul u (u * Y) Hu ltac:(lra)) as F2. pose proof (small_mul u eta Hu ltac:(lra)) as F3.
  pose proof (rd_err p Y Hp ltac:(lra)) as P1. pose proof (rd_err q Y Hq ltac:(lra)) as Q1.
  eapply Rle_trans; [apply (round_near u eta top rd Hu Hrd _ (p + sg * q) (2 * (u * Y + eta)) Y)|].
  - replace (rd p + sg * rd q - (p + sg * q)) with ((rd p - p) + sg * (rd q - q)) by ring. eapply Rle_trans; [apply Rabs_triang|]. rewrite Rabs_mult.
    replace (Rabs sg) with 1; [lra|]. destruct Hsg as [-> | ->]; unfold Rabs; destruct (Rcase_abs _); lra.
  - exact Hpq.
  - lra.
  - rewrite !Rmult_plus_distr_l. lra.
Qed.
(** the same added to c *)
Lemma cross_acc c p q sg Y : sg = 1 \/ sg = -1 -> 0 <= Y -> Rabs c <= Y -> Rabs p <= Y -> Rabs q <= Y -> Rabs (p + sg * q) <= Y -> 4 * Y + 1 <= top ->
  Rabs (rd (c + rd (rd p + sg * rd q)) - (c + (p + sg * q))) <= 52 / 10 * (u * Y) + 42 / 10 * eta.
Proof.
  intros Hsg HY Hc Hp Hq Hpq Ht. pose proof (small_mul u Y Hu HY) as F1. pose proof (small_mul u (u * Y) Hu ltac:(lra)) as F2. pose proof (small_mul u eta Hu ltac:(lra)) as F3.
  pose proof (cross_err p q sg Y Hsg HY Hp Hq Hpq ltac:(lra)) as C.
  eapply Rle_trans; [apply (round_near u eta top rd Hu Hrd _ (c + (p + sg * q)) (31 / 10 * (u * Y) + 31 / 10 * eta) (2 * Y))|].
  - replace (c + rd (rd p + sg * rd q) - (c + (p + sg * q))) with (rd (rd p + sg * rd q) - (p + sg * q)) by ring. exact C.
  - pose proof (Rabs_triang c (p + sg * q)). lra.
  - lra.
  - rewrite !Rmult_plus_distr_l. lra.
Qed.
(** a product of real numbers added to c *)
Lemma prod_acc c p Y : 0 <= Y -> Rabs c <= Y -> Rabs p <= Y -> 4 * Y + 1 <= top ->
  Rabs (rd (c + rd p) - (c + p)) <= 31 / 10 * (u * Y) + 21 / 10 * eta.
Proof.
  intros HY Hc Hp Ht. pose proof (small_mul u Y Hu HY) as F1. pose proof (small_mul u (u * Y) Hu ltac:(lra)) as F2. pose proof (small_mul u eta Hu ltac:(lra)) as F3.
  eapply Rle_trans; [apply (round_near u eta top rd Hu Hrd _ (c + p) (u * Y + eta) (2 * Y))|].
  - replace (c + rd p - (c + p)) with (rd p - p) by ring. apply rd_err; lra.
  - pose proof (Rabs_triang c p). lra.
  - lra.
  - rewrite !Rmult_plus_distr_l. lra.
Qed.

(** n terms: from the error a u Y + b eta of a step to the total *)
Lemma total_bound (n X a b : R) : 0 <= n -> n * u <= / 1024 -> 0 <= X -> 0 <= a <= 8 -> 0 <= b <= 6 ->
  let Y := 101 / 100 * (X + n * (b * eta)) in
  X + n * (a * (u * Y) + b * eta) <= Y /\ a * (u * Y) + b * eta <= 105 / 100 * a * (u * X) + (b + 1 / 10) * eta /\ 0 <= Y.
Proof.
  intros Hn Hnu HX Ha Hb Y. set (S := X + n * (b * eta)) in *.
  assert (H0 : 0 <= n * (b * eta)) by (apply Rmult_le_pos; [|apply Rmult_le_pos]; lra). assert (HS : 0 <= S) by (unfold S; lra).
  assert (HnuS : n * u * Y <= / 1024 * Y) by (apply Rmult_le_compat_r; [unfold Y; lra|exact Hnu]). assert (Hnu0 : 0 <= n * u) by (apply Rmult_le_pos; lra).
  assert (E1 : a * (n * u * Y) <= 8 * (/ 1024 * Y)) by (apply Rmult_le_compat; [lra|apply Rmult_le_pos; [lra|unfold Y; lra]|lra|exact HnuS]).
  assert (HuX : 0 <= u * X) by (apply Rmult_le_pos; lra).
  assert (Hbe : 0 <= b * eta) by (apply Rmult_le_pos; lra).
  assert (E2 : n * u * (b * eta) <= / 1024 * (b * eta)) by (apply Rmult_le_compat_r; [exact Hbe|exact Hnu]).
  assert (E2' : 0 <= n * u * (b * eta)) by (apply Rmult_le_pos; lra).
  assert (E3 : a * (n * u * (b * eta)) <= 8 * (/ 1024 * (b * eta))) by (apply Rmult_le_compat; lra).
  assert (E4 : b * eta <= 6 * eta) by (apply Rmult_le_compat_r; lra).
  assert (E5 : 0 <= a * (u * X)) by (apply Rmult_le_pos; lra).
  split; [|split].
  - replace (n * (a * (u * Y) + b * eta)) with (a * (n * u * Y) + n * (b * eta)) by ring. unfold Y in *. unfold S in *. lra.
  - replace (a * (u * Y)) with (101 / 100 * (a * (u * X) + a * (n * u * (b * eta)))) by (unfold Y, S; ring). lra.
  - unfold Y. lra.
Qed.
End Dot.
