(** Finite sums over an arbitrary commutative ring, and its complex extension.  Used to reason about the parts of
    the code that compute with doubles, which are modelled in exact arithmetic. *)
From Coq Require Import ZArith List Bool Lia Ring Ring_theory.
From Verif Require Import Base BaseFacts.
Open Scope Z_scope.

(** Arithmetic operations.  The model of code computing with [double] is written for any such record. *)
Record ops : Type := mkops {
  car :> Type;
  o0 : car; o1 : car;
  oadd : car -> car -> car; omul : car -> car -> car; osub : car -> car -> car; oopp : car -> car }.
Arguments o0 {_}. Arguments o1 {_}. Arguments oadd {_}. Arguments omul {_}. Arguments osub {_}. Arguments oopp {_}.
Declare Scope num_scope.
Delimit Scope num_scope with num.
Notation "0" := o0 : num_scope.
Notation "1" := o1 : num_scope.
Notation "a + b" := (oadd a b) : num_scope.
Notation "a * b" := (omul a b) : num_scope.
Notation "a - b" := (osub a b) : num_scope.
Notation "- a" := (oopp a) : num_scope.

(** The operations form a commutative ring. *)
Definition lawful (K : ops) : Prop := ring_theory (@o0 K) o1 oadd omul osub oopp eq.

Definition Zops : ops := mkops Z 0 1 Z.add Z.mul Z.sub Z.opp.
Lemma Zlawful : lawful Zops.
Proof. exact Zth. Qed.

Fixpoint sumn {K : ops} (n : nat) (f : Z -> K) : K :=
  match n with O => 0%num | S m => (sumn m f + f (Z.of_nat m))%num end.
(** sum of [f i] over 0 <= i < n *)
Definition gsum {K : ops} (n : Z) (f : Z -> K) : K := sumn (Z.to_nat n) f.

Section Sums.
Context {K : ops} (HK : lawful K).
Let HR : ring_theory (@o0 K) o1 oadd omul osub oopp eq := HK.
Add Ring Kr : HR.
Open Scope num_scope.

Lemma gsum_0 (n : Z) (f : Z -> K) : (n <= 0)%Z -> gsum n f = 0.
Proof. intros. unfold gsum. replace (Z.to_nat n) with O by lia. reflexivity. Qed.

Lemma gsum_S (n : Z) (f : Z -> K) : (0 <= n)%Z -> gsum (n + 1)%Z f = gsum n f + f n.
Proof.
  intros. unfold gsum. replace (Z.to_nat (n + 1)) with (S (Z.to_nat n)) by lia. cbn [sumn].
  rewrite Z2Nat.id by lia. reflexivity.
Qed.

Lemma gsum_ind (n : Z) (P : Z -> Prop) : P 0%Z -> (forall m, (0 <= m < n)%Z -> P m -> P (m + 1)%Z) -> (0 <= n)%Z -> P n.
Proof.
  intros H0 HS Hn. assert (H : forall m, (0 <= m)%Z -> (m <= n)%Z -> P m).
  { apply (natlike_ind (fun m => (m <= n)%Z -> P m)); auto.
    intros m Hm IH Hl. unfold Z.succ in *. apply HS; [lia|]. apply IH. lia. }
  apply H; lia.
Qed.

Lemma gsum_ext (n : Z) (f g : Z -> K) : (forall i, (0 <= i < n)%Z -> f i = g i) -> gsum n f = gsum n g.
Proof.
  intros H. destruct (Z.le_gt_cases n 0); [rewrite !gsum_0; auto|].
  apply (gsum_ind n (fun n => gsum n f = gsum n g)); [reflexivity| |lia].
  intros m Hm IH. rewrite !gsum_S, IH, H by lia. reflexivity.
Qed.

Lemma gsum_zero (n : Z) (f : Z -> K) : (forall i, (0 <= i < n)%Z -> f i = 0) -> gsum n f = 0.
Proof.
  intros H. destruct (Z.le_gt_cases n 0); [rewrite !gsum_0; auto|].
  apply (gsum_ind n (fun n => gsum n f = 0)); [reflexivity| |lia].
  intros m Hm IH. rewrite !gsum_S, IH, H by lia. ring.
Qed.

Lemma gsum_add (n : Z) (f g : Z -> K) : gsum n (fun i => f i + g i) = gsum n f + gsum n g.
Proof.
  destruct (Z.le_gt_cases n 0); [rewrite !gsum_0; auto; ring|].
  apply (gsum_ind n (fun n => gsum n (fun i => f i + g i) = gsum n f + gsum n g)); [cbn; ring| |lia].
  intros m Hm IH. rewrite !gsum_S, IH by lia. ring.
Qed.

Lemma gsum_sub (n : Z) (f g : Z -> K) : gsum n (fun i => f i - g i) = gsum n f - gsum n g.
Proof.
  destruct (Z.le_gt_cases n 0); [rewrite !gsum_0; auto; ring|].
  apply (gsum_ind n (fun n => gsum n (fun i => f i - g i) = gsum n f - gsum n g)); [cbn; ring| |lia].
  intros m Hm IH. rewrite !gsum_S, IH by lia. ring.
Qed.

Lemma gsum_opp (n : Z) (f : Z -> K) : gsum n (fun i => - f i) = - gsum n f.
Proof.
  destruct (Z.le_gt_cases n 0); [rewrite !gsum_0; auto; ring|].
  apply (gsum_ind n (fun n => gsum n (fun i => - f i) = - gsum n f)); [cbn; ring| |lia].
  intros m Hm IH. rewrite !gsum_S, IH by lia. ring.
Qed.

Lemma gsum_scale (n : Z) (a : K) (f : Z -> K) : gsum n (fun i => a * f i) = a * gsum n f.
Proof.
  destruct (Z.le_gt_cases n 0); [rewrite !gsum_0; auto; ring|].
  apply (gsum_ind n (fun n => gsum n (fun i => a * f i) = a * gsum n f)); [cbn; ring| |lia].
  intros m Hm IH. rewrite !gsum_S, IH by lia. ring.
Qed.

Lemma gsum_scale_r (n : Z) (a : K) (f : Z -> K) : gsum n (fun i => f i * a) = gsum n f * a.
Proof.
  rewrite (gsum_ext n _ (fun i => a * f i)) by (intros; ring). rewrite gsum_scale. ring.
Qed.

Lemma gsum_swap (n m : Z) (f : Z -> Z -> K) : gsum n (fun i => gsum m (f i)) = gsum m (fun j => gsum n (fun i => f i j)).
Proof.
  destruct (Z.le_gt_cases n 0).
  - rewrite gsum_0 by auto. symmetry. apply gsum_zero. intros. apply gsum_0. auto.
  - apply (gsum_ind n (fun n => gsum n (fun i => gsum m (f i)) = gsum m (fun j => gsum n (fun i => f i j)))); [| |lia].
    + rewrite gsum_0 by lia. symmetry. apply gsum_zero. intros. apply gsum_0. lia.
    + intros k Hk IH. rewrite gsum_S, IH by lia. rewrite <- gsum_add. apply gsum_ext. intros. rewrite gsum_S by lia. reflexivity.
Qed.

Lemma gsum_delta (n a : Z) (f : Z -> K) : (0 <= a < n)%Z -> gsum n (fun i => if (i =? a)%Z then f i else 0) = f a.
Proof.
  intros Ha. assert (H : forall m, (0 <= m)%Z ->
    gsum m (fun i => if (i =? a)%Z then f i else 0) = if (a <? m)%Z then f a else 0).
  { apply natlike_ind.
    - rewrite gsum_0 by lia. destruct (Z.ltb_spec a 0); [lia|auto].
    - intros m Hm IH. unfold Z.succ. rewrite gsum_S, IH by lia.
      destruct (Z.ltb_spec a m), (Z.eqb_spec m a), (Z.ltb_spec a (m + 1)); try lia; subst; ring. }
  rewrite H by lia. destruct (Z.ltb_spec a n); [auto|lia].
Qed.

(** same with a predicate that holds at one place only *)
Lemma gsum_single (n a : Z) (f : Z -> K) : (0 <= a < n)%Z -> (forall i, (0 <= i < n)%Z -> i <> a -> f i = 0) -> gsum n f = f a.
Proof.
  intros Ha H. rewrite <- (gsum_delta n a f Ha). apply gsum_ext. intros i Hi.
  destruct (Z.eqb_spec i a); auto.
Qed.

Lemma gsum_split (a b : Z) (f : Z -> K) : (0 <= a)%Z -> (0 <= b)%Z ->
  gsum (a + b)%Z f = gsum a f + gsum b (fun i => f (a + i)%Z).
Proof.
  intros Ha Hb. apply (gsum_ind b (fun b => gsum (a + b)%Z f = gsum a f + gsum b (fun i => f (a + i)%Z))); [| |lia].
  - rewrite Z.add_0_r, (gsum_0 0) by lia. ring.
  - intros m Hm IH. rewrite Z.add_assoc, !gsum_S, IH by lia. ring.
Qed.

Lemma gsum_even_odd (n : Z) (f : Z -> K) : (0 <= n)%Z ->
  gsum (2 * n)%Z f = gsum n (fun k => f (2 * k)%Z + f (2 * k + 1)%Z).
Proof.
  intros Hn. apply (gsum_ind n (fun n => gsum (2 * n)%Z f = gsum n (fun k => f (2 * k)%Z + f (2 * k + 1)%Z))); [reflexivity| |lia].
  intros m Hm IH. replace (2 * (m + 1))%Z with (2 * m + 1 + 1)%Z by lia. rewrite !gsum_S, IH by lia. ring.
Qed.

Lemma gsum_reindex (n : Z) (p q : Z -> Z) (f : Z -> K) :
  (forall i, (0 <= i < n)%Z -> (0 <= p i < n)%Z /\ q (p i) = i) ->
  (forall j, (0 <= j < n)%Z -> (0 <= q j < n)%Z /\ p (q j) = j) ->
  gsum n (fun i => f (p i)) = gsum n f.
Proof.
  intros Hp Hq.
  transitivity (gsum n (fun i => gsum n (fun j => if (j =? p i)%Z then f j else 0))).
  - apply gsum_ext. intros i Hi. symmetry. apply gsum_delta. apply Hp. auto.
  - rewrite gsum_swap. apply gsum_ext. intros j Hj.
    rewrite (gsum_single n (q j)).
    + destruct (Hq j Hj) as [_ ->]. rewrite Z.eqb_refl. reflexivity.
    + apply Hq. auto.
    + intros i Hi Hne. destruct (Z.eqb_spec j (p i)); auto. exfalso. apply Hne.
      subst j. symmetry. apply Hp. auto.
Qed.

Lemma gsum_rev (n : Z) (f : Z -> K) : gsum n (fun i => f (n - 1 - i)%Z) = gsum n f.
Proof. apply gsum_reindex with (q := fun i => (n - 1 - i)%Z); intros; lia. Qed.

(** cyclic shift *)
Lemma gsum_shift (n r : Z) (f : Z -> K) : gsum n (fun i => f ((i + r) mod n)%Z) = gsum n f.
Proof.
  destruct (Z.le_gt_cases n 0); [rewrite !gsum_0; auto|].
  apply (gsum_reindex n (fun i => ((i + r) mod n)%Z) (fun i => ((i - r) mod n)%Z)); intros i Hi.
  - split; [apply Z.mod_pos_bound; lia|]. rewrite Zminus_mod_idemp_l. replace (i + r - r)%Z with i by lia. apply Z.mod_small. lia.
  - split; [apply Z.mod_pos_bound; lia|]. rewrite Zplus_mod_idemp_l. replace (i - r + r)%Z with i by lia. apply Z.mod_small. lia.
Qed.

End Sums.

(** ** Complex numbers over a ring: pairs (real part, imaginary part) *)
Section Complex.
Context (K : ops).
Open Scope num_scope.
Definition cadd (a b : K * K) : K * K := (fst a + fst b, snd a + snd b).
Definition csub (a b : K * K) : K * K := (fst a - fst b, snd a - snd b).
Definition copp (a : K * K) : K * K := (- fst a, - snd a).
Definition cmul (a b : K * K) : K * K := (fst a * fst b - snd a * snd b, fst a * snd b + snd a * fst b).
Definition Cops : ops := mkops (K * K) (0, 0) (1, 0) cadd cmul csub copp.
Definition cconj (a : K * K) : K * K := (fst a, - snd a).
Definition creal (a : K) : K * K := (a, 0).
Definition ci : K * K := (0, 1).
Definition mk (a b : K) : Cops := (a, b).
Definition cre (z : Cops) : K := fst z.
Definition cim (z : Cops) : K := snd z.
End Complex.

Section ComplexFacts.
Context {K : ops} (HK : lawful K).
Let HR2 : ring_theory (@o0 K) o1 oadd omul osub oopp eq := HK.
Add Ring Kr2 : HR2.
Open Scope num_scope.

Lemma c_eq (a b : Cops K) : cre K a = cre K b -> cim K a = cim K b -> a = b.
Proof. destruct a, b. cbn. congruence. Qed.

Lemma Clawful : lawful (Cops K).
Proof.
  constructor; intros; try (apply c_eq; unfold cre, cim; cbn; ring).
Qed.

Lemma gsum_c (n : Z) (f : Z -> Cops K) : gsum n f = mk K (gsum n (fun i => cre K (f i))) (gsum n (fun i => cim K (f i))).
Proof.
  destruct (Z.le_gt_cases n 0); [rewrite !gsum_0; auto|].
  apply (gsum_ind n (fun n => gsum n f = mk K (gsum n (fun i => cre K (f i))) (gsum n (fun i => cim K (f i))))); [reflexivity| |lia].
  intros m Hm IH. rewrite !gsum_S by lia. rewrite IH. reflexivity.
Qed.

Lemma cconj_add (a b : Cops K) : (cconj K (a + b) : Cops K) = (cconj K a : Cops K) + cconj K b.
Proof. apply c_eq; unfold cre, cim; cbn; ring. Qed.
Lemma cconj_mul (a b : Cops K) : (cconj K (a * b) : Cops K) = (cconj K a : Cops K) * cconj K b.
Proof. apply c_eq; unfold cre, cim; cbn; ring. Qed.
Lemma cconj_opp (a : Cops K) : (cconj K (- a) : Cops K) = - (cconj K a : Cops K).
Proof. apply c_eq; unfold cre, cim; cbn; ring. Qed.
Lemma cconj_conj (a : Cops K) : (cconj K (cconj K a) : Cops K) = a.
Proof. apply c_eq; unfold cre, cim; cbn; ring. Qed.
Lemma cconj_sum (n : Z) (f : Z -> Cops K) : (cconj K (gsum n f) : Cops K) = gsum n (fun i => (cconj K (f i) : Cops K)).
Proof.
  destruct (Z.le_gt_cases n 0); [rewrite !gsum_0; auto; apply c_eq; unfold cre, cim; cbn; ring|].
  apply (gsum_ind n (fun n => (cconj K (gsum n f) : Cops K) = gsum n (fun i => (cconj K (f i) : Cops K)))); [| |lia].
  - rewrite !gsum_0 by lia. apply c_eq; unfold cre, cim; cbn; ring.
  - intros m Hm IH. rewrite !gsum_S by lia. rewrite cconj_add, IH. reflexivity.
Qed.
End ComplexFacts.
