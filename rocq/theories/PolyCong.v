(** Z[X]/(X^N+1) modulo an integer M, as a setoid ring. *)
From Coq Require Import ZArith List Bool Lia Znumtheory Setoid Morphisms Ring.
From Verif Require Import Base Sums SpecZQ SpecPoly NTTFacts CRTFacts PolyRing.
Open Scope Z_scope.

Definition padd (a b : Z -> Z) : Z -> Z := fun i => a i + b i.
Definition psub (a b : Z -> Z) : Z -> Z := fun i => a i - b i.
Definition popp (a : Z -> Z) : Z -> Z := fun i => - a i.
Definition pscal (x : Z) (a : Z -> Z) : Z -> Z := fun i => x * a i.
Definition p0 : Z -> Z := fun _ => 0.
Definition p1 : Z -> Z := fun i => if i =? 0 then 1 else 0.

(** Equality of coefficients 0..N-1 modulo M (equality for M = 0). *)
Definition pcong (N M : Z) (a b : Z -> Z) : Prop := forall i, 0 <= i < N -> (M | a i - b i).

Lemma pcong_mod N M a b : 0 < M -> pcong N M a b <-> forall i, 0 <= i < N -> a i mod M = b i mod M.
Proof.
  intros HM. split; intros H i Hi.
  - specialize (H i Hi). destruct H as [z Hz]. replace (a i) with (b i + z * M) by lia. apply Z_mod_plus_full.
  - apply Z.mod_divide; [lia|]. rewrite Zminus_mod, (H i Hi), Z.sub_diag. apply Zmod_0_l.
Qed.
Lemma pcong_peq N M a b : peq N a b -> pcong N M a b.
Proof. intros H i Hi. rewrite (H i Hi), Z.sub_diag. apply Z.divide_0_r. Qed.
Lemma pcong_weaken N M M' a b : (M' | M) -> pcong N M a b -> pcong N M' a b.
Proof. intros Hd H i Hi. eapply Z.divide_trans; eauto. Qed.
Lemma pcong_scale N M x a b : pcong N M a b -> pcong N (x * M) (pscal x a) (pscal x b).
Proof. intros H i Hi. unfold pscal. rewrite <- Z.mul_sub_distr_l. apply Z.mul_divide_mono_l. auto. Qed.
Lemma pcong_unscale N M x a b : x <> 0 -> pcong N (x * M) (pscal x a) (pscal x b) -> pcong N M a b.
Proof.
  intros Hx H i Hi. specialize (H i Hi). unfold pscal in H. rewrite <- Z.mul_sub_distr_l in H. apply Z.mul_divide_cancel_l in H; auto.
Qed.

Section PC.
  Variables N M : Z.
  Hypothesis HN : 1 <= N.

  Lemma pcong_refl a : pcong N M a a.
  Proof. intros i Hi. rewrite Z.sub_diag. apply Z.divide_0_r. Qed.
  Lemma pcong_sym a b : pcong N M a b -> pcong N M b a.
  Proof. intros H i Hi. replace (b i - a i) with (- (a i - b i)) by lia. apply Z.divide_opp_r. auto. Qed.
  Lemma pcong_trans a b c : pcong N M a b -> pcong N M b c -> pcong N M a c.
  Proof. intros H1 H2 i Hi. replace (a i - c i) with ((a i - b i) + (b i - c i)) by lia. apply Z.divide_add_r; auto. Qed.
  Lemma pcong_equiv : Equivalence (pcong N M).
  Proof. split; [exact pcong_refl|exact pcong_sym|exact pcong_trans]. Qed.
  Lemma padd_proper : Proper (pcong N M ==> pcong N M ==> pcong N M) padd.
  Proof. intros a a' Ha b b' Hb i Hi. unfold padd. replace (_ - _) with ((a i - a' i) + (b i - b' i)) by lia. apply Z.divide_add_r; auto. Qed.
  Lemma psub_proper : Proper (pcong N M ==> pcong N M ==> pcong N M) psub.
  Proof. intros a a' Ha b b' Hb i Hi. unfold psub. replace (_ - _) with ((a i - a' i) - (b i - b' i)) by lia. apply Z.divide_sub_r; auto. Qed.
  Lemma popp_proper : Proper (pcong N M ==> pcong N M) popp.
  Proof. intros a a' Ha i Hi. unfold popp. replace (_ - _) with (- (a i - a' i)) by lia. apply Z.divide_opp_r; auto. Qed.
  Lemma pscal_proper : Proper (eq ==> pcong N M ==> pcong N M) pscal.
  Proof. intros x y <- a a' Ha i Hi. unfold pscal. replace (_ - _) with (x * (a i - a' i)) by lia. apply Z.divide_mul_r; auto. Qed.
  Lemma negconv_proper : Proper (pcong N M ==> pcong N M ==> pcong N M) (negconv N).
  Proof.
    clear HN. assert (Hs : forall f, (forall k, 0 <= k < N -> (M | f k)) -> (M | zsum N f)).
    { intros f Hf. destruct (Z_le_gt_dec N 0); [rewrite zsum_nil by lia; apply Z.divide_0_r|].
      apply (zprod_ind (fun n => (M | zsum n f))); try lia.
      - rewrite zsum_nil by lia. apply Z.divide_0_r.
      - intros n Hn IH. rewrite zsum_S by lia. apply Z.divide_add_r; [apply IH; lia|apply Hf; lia]. }
    intros a a' Ha b b' Hb i Hi. unfold negconv. rewrite <- zsum_sub. apply Hs. intros k Hk.
    destruct (Z.leb_spec k i).
    - replace (_ - _) with (b (i - k) * (a k - a' k) + a' k * (b (i - k) - b' (i - k))) by lia.
      apply Z.divide_add_r; apply Z.divide_mul_r; [apply Ha|apply Hb]; lia.
    - replace (_ - _) with ((- b (N + i - k)) * (a k - a' k) + (- a' k) * (b (N + i - k) - b' (N + i - k))) by lia.
      apply Z.divide_add_r; apply Z.divide_mul_r; [apply Ha|apply Hb]; lia.
  Qed.

  Lemma pring : ring_theory p0 p1 padd (negconv N) psub popp (pcong N M).
  Proof.
    split.
    - intros a. apply pcong_peq. intros i Hi. unfold padd, p0. lia.
    - intros a b. apply pcong_peq. intros i Hi. unfold padd. lia.
    - intros a b c. apply pcong_peq. intros i Hi. unfold padd. lia.
    - intros a. apply pcong_peq. apply negconv_one_l. auto.
    - intros a b. apply pcong_peq. apply negconv_comm. auto.
    - intros a b c. apply pcong_peq. intros i Hi. symmetry. apply negconv_assoc; auto.
    - intros a b c. apply pcong_peq. intros i Hi. apply negconv_add_l.
    - intros a b. apply pcong_peq. intros i Hi. unfold padd, psub, popp. lia.
    - intros a. apply pcong_peq. intros i Hi. unfold padd, popp, p0. lia.
  Qed.
  Lemma pring_ext : ring_eq_ext padd (negconv N) popp (pcong N M).
  Proof. split; [exact padd_proper|exact negconv_proper|exact popp_proper]. Qed.
  Lemma pscal_negconv x a : pcong N M (pscal x a) (negconv N (pscal x p1) a).
  Proof.
    apply pcong_peq. intros i Hi. unfold pscal. rewrite negconv_scal_l. f_equal. symmetry. apply negconv_one_l; auto.
  Qed.
End PC.

Global Instance pcong_equiv_i N M : Equivalence (pcong N M) := pcong_equiv N M.
Global Instance padd_proper_i N M : Proper (pcong N M ==> pcong N M ==> pcong N M) padd := padd_proper N M.
Global Instance psub_proper_i N M : Proper (pcong N M ==> pcong N M ==> pcong N M) psub := psub_proper N M.
Global Instance popp_proper_i N M : Proper (pcong N M ==> pcong N M) popp := popp_proper N M.
Global Instance pscal_proper_i N M : Proper (eq ==> pcong N M ==> pcong N M) pscal := pscal_proper N M.
Global Instance negconv_proper_i N M : Proper (pcong N M ==> pcong N M ==> pcong N M) (negconv N) := negconv_proper N M.
