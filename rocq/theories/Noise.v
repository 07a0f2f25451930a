(** Error bounds of rescaling and key switching, on integer coefficient vectors. *)
From Coq Require Import ZArith List Bool Lia Setoid Morphisms Ring.
From Verif Require Import Base BaseFacts ZQ ZQFacts ZQFacts2 Sums SpecPoly SpecScheme NTTFacts CRTFacts PolyRing PolyCong CoreFacts.
Open Scope Z_scope.

Section Noise.
  Variable N : Z.
  Hypothesis HN : 1 <= N.

  Lemma norm1_nonneg s : 0 <= norm1 N s.
  Proof.
    unfold norm1. replace 0 with (zsum N (fun _ => 0)) by (apply zsum_zero; auto). apply zsum_le. intros. apply Z.abs_nonneg.
  Qed.

  Lemma RS_noise fr to s a b : 1 <= to <= fr ->
    let d := fr - to in
    let a' := fun i => rnd_shift fr to (a i) in
    let b' := fun i => rnd_shift fr to (b i) in
    exists e, (forall i, 0 <= i < N -> Z.abs (e i) <= 2 ^ (d - 1) * (1 + norm1 N s)) /\
      forall i, 0 <= i < N -> 2 ^ d * (a' i + negconv N s b' i) = (a i + negconv N s b i) + e i.
  Proof.
    intros Hf d a' b'. set (e0 := fun i => 2 ^ d * a' i - a i). set (e1 := fun i => 2 ^ d * b' i - b i).
    exists (fun i => e0 i + negconv N s e1 i). split.
    - intros i Hi.
      assert (B0 : Z.abs (e0 i) <= 2 ^ (d - 1)) by (apply rnd_shift_err; auto).
      assert (B1 : Z.abs (negconv N s e1 i) <= norm1 N s * 2 ^ (d - 1)).
      { apply negconv_bound1; auto; [|intros; apply rnd_shift_err; auto]. apply Z.pow_nonneg. lia. }
      lia.
    - intros i Hi. rewrite Z.mul_add_distr_l, <- negconv_scal_r.
      rewrite (negconv_sub_r N s (fun i => 2 ^ d * b' i) b i : negconv N s e1 i = _). unfold e0. lia.
  Qed.

  Lemma ks_noise P LOGQ s_fr s_to b a d e B D : 1 <= LOGQ -> P = 2 ^ LOGQ -> 0 <= B -> 0 <= D ->
    (forall i, 0 <= i < N -> Z.abs (e i) <= B) -> (forall i, 0 <= i < N -> Z.abs (d i) <= D) ->
    pcong N (P * P) (padd b (negconv N s_to a)) (padd e (pscal P s_fr)) ->
    let r := fun x i => rnd_shift (2 * LOGQ) LOGQ (negconv N x d i) in
    exists E, (forall i, 0 <= i < N -> 2 * (P * Z.abs (E i)) <= 2 * (N * (B * D)) + P * (1 + norm1 N s_to)) /\
      pcong N P (padd (r b) (negconv N s_to (r a))) (padd (negconv N d s_fr) E).
  Proof.
    intros HQ HP HB HD He Hd Hc r. assert (HPp : 0 < P) by (rewrite HP; apply pow2_pos; lia).
    assert (HP2 : P = 2 * 2 ^ (LOGQ - 1)) by (rewrite HP; apply pow2_half; auto).
    set (e0 := psub (pscal P (r b)) (negconv N b d)). set (e1 := psub (pscal P (r a)) (negconv N a d)).
    assert (He01 : forall x i, 2 * Z.abs (psub (pscal P (r x)) (negconv N x d) i) <= P).
    { intros x i. unfold psub, pscal, r. pose proof (rnd_shift_err (2 * LOGQ) LOGQ (negconv N x d i) ltac:(lia)) as H.
      replace (2 * LOGQ - LOGQ) with LOGQ in H by lia. rewrite <- HP in H. rewrite HP2 at 2. lia. }
    set (w := padd (negconv N d e) (padd e0 (negconv N s_to e1))).
    pose (Rth := pring N (P * P) HN).
    assert (Key : pcong N (P * P) (pscal P (padd (r b) (negconv N s_to (r a)))) (padd (pscal P (negconv N d s_fr)) w)).
    { assert (Ex : forall M x, pcong N M (pscal P (r x)) (padd (negconv N x d) (psub (pscal P (r x)) (negconv N x d)))).
      { intros M x. apply pcong_peq. intros i Hi. unfold padd, psub. lia. }
      transitivity (padd (pscal P (r b)) (negconv N s_to (pscal P (r a)))).
      { apply pcong_peq. intros i Hi. unfold pscal at 1 2, padd at 1 2. rewrite Z.mul_add_distr_l. f_equal.
        symmetry. unfold pscal. apply negconv_scal_r. }
      rewrite (Ex _ b), (Ex _ a). fold e0 e1.
      transitivity (padd (negconv N d (padd b (negconv N s_to a))) (padd e0 (negconv N s_to e1))).
      { apply pcong_peq. intros i Hi. unfold padd. rewrite !negconv_add_r.
        rewrite (negconv_comm N HN b d i Hi).
        assert (E2 : negconv N s_to (negconv N a d) i = negconv N d (negconv N s_to a) i).
        { rewrite <- (negconv_assoc N HN s_to a d i Hi). apply negconv_comm; auto. }
        rewrite E2. lia. }
      rewrite Hc. unfold w. apply pcong_peq. intros i Hi. unfold padd. rewrite negconv_add_r. 
      rewrite (negconv_scal_r N P d s_fr i : negconv N d (pscal P s_fr) i = _). unfold pscal. lia. }
    assert (Hdiv : forall i, 0 <= i < N -> (P | w i)).
    { intros i Hi. specialize (Key i Hi). unfold pscal, padd in Key.
      destruct Key as [z Hz]. exists ((r b i + negconv N s_to (r a) i) - negconv N d s_fr i - z * P). lia. }
    exists (fun i => w i / P).
    assert (HwE : forall i, 0 <= i < N -> P * (w i / P) = w i).
    { intros i Hi. destruct (Hdiv i Hi) as [z Hz]. rewrite Hz, Z.div_mul by lia. lia. }
    split.
    - intros i Hi. replace (P * Z.abs (w i / P)) with (Z.abs (w i)) by (rewrite <- (HwE i Hi) at 1; rewrite Z.abs_mul; lia).
      assert (W1 : Z.abs (negconv N d e i) <= N * (D * B)) by (apply negconv_bound; auto).
      assert (W2 : 2 * Z.abs (e0 i) <= P) by apply He01.
      assert (W3 : Z.abs (negconv N s_to e1 i) <= norm1 N s_to * 2 ^ (LOGQ - 1)).
      { apply negconv_bound1; auto; [apply Z.pow_nonneg; lia|]. intros k Hk. pose proof (He01 a k). fold e1 in H. lia. }
      unfold w, padd. lia.
    - apply (pcong_unscale N P P); [lia|]. etransitivity; [exact Key|]. apply pcong_peq. intros i Hi. unfold pscal, padd.
      fold (padd (negconv N d e) (padd e0 (negconv N s_to e1)) i). fold w. rewrite Z.mul_add_distr_l, HwE by auto. reflexivity.
  Qed.
End Noise.
