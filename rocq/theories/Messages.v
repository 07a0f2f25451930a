(** The messages and matrices of setup.h: C95. *)
From Coq Require Import ZArith List Bool Lia Reals Lra Ring.
From Verif Require Import Base BaseFacts Sums ZQ RQ Util GSum Matrix MatrixFacts MatMulFacts DFT DFTTheory DFTFacts SpecMat SpecDFT SpecEnc SlotFacts Encode Properties_Msg EvalMod StatFacts ConvFacts Properties_Stat Properties_Mat Properties_MatErr Properties_Enc.
From Verif Require Import Section4.
Import ListNotations.
Open Scope Z_scope.

Lemma msg_ext n (f g : Z -> CC) : (forall i, 0 <= i < n -> f i = g i) -> carray (K := Rops) n f = carray n g.
Proof. intros H. rewrite !carray_cvtab. unfold cvtab. f_equal; apply gtab_ext; intros i Hi; rewrite H by auto; reflexivity. Qed.

(** the point of the circle of radius 1/sqrt 2 at the angle x *)
Definition circle (x : R) : CC := (cos x / sqrt 2, sin x / sqrt 2)%R.
Lemma circle_modulus x : (modulus (circle x) = / sqrt 2)%R.
Proof.
  assert (S : (0 < sqrt 2)%R) by (apply sqrt_lt_R0; lra).
  unfold modulus, circle, cre, cim. cbn [fst snd]. replace (cos x / sqrt 2 * (cos x / sqrt 2) + sin x / sqrt 2 * (sin x / sqrt 2))%R with (/ sqrt 2 * / sqrt 2)%R.
  - apply sqrt_square. apply Rlt_le, Rinv_0_lt_compat, S.
  - pose proof (sin2_cos2 x) as H. unfold Rsqr in H. unfold Rdiv. replace (cos x * / sqrt 2 * (cos x * / sqrt 2) + sin x * / sqrt 2 * (sin x * / sqrt 2))%R with ((sin x * sin x + cos x * cos x) * (/ sqrt 2 * / sqrt 2))%R by ring. rewrite H. ring.
Qed.

(** set_test_message writes every entry, whatever the array held; the entries lie on the circle of radius 1/sqrt 2 *)
Theorem C95_test_message : forall n p, 0 <= n -> carray_of (K := Rops) n p ->
  set_test_message n p = Ok (carray (K := Rops) n (fun j => circle (IZR j / IZR n * PI_macro))) /\
  forall j, (modulus (circle (IZR j / IZR n * PI_macro)) = / sqrt 2)%R.
Proof.
  intros n p Hn Hp. split; [|intros; apply circle_modulus]. unfold set_test_message. apply (msg_loop (K := Rops)); auto.
  intros i a b Hi. cbv zeta. rewrite gwr_tab by auto. cbn [bind]. rewrite gwr_tab by auto. reflexivity.
Qed.

(** set_evalmod_message: numbers I + 1/10000 with integers 0 <= I <= 23, the inputs EvalMod<K=24> takes *)
Theorem C95_evalmod_message : forall n p, 0 <= n -> carray_of (K := Rops) n p ->
  set_evalmod_message n p = Ok (carray (K := Rops) n (fun j => ((IZR (j mod 24) + / 10000)%R, 0%R))) /\ forall j, 0 <= j mod 24 <= 23.
Proof.
  intros n p Hn Hp. split; [|intros j; pose proof (Z.mod_pos_bound j 24); lia]. unfold set_evalmod_message.
  rewrite (msg_loop (K := Rops) n _ (fun j => ((1 / 10000 + IZR (Z.rem j 24))%R, 0%R)) p Hn Hp).
  - f_equal. apply msg_ext. intros j Hj. rewrite Z.rem_mod_nonneg by lia. f_equal. unfold Rdiv. ring.
  - intros i a b Hi. rewrite gwr_tab by auto. cbn [bind]. rewrite gwr_tab by auto. reflexivity.
Qed.

(** set_test_matrix: the real parts are the sines; the imaginary parts stay what they were *)
Theorem C95_test_matrix : forall n K (z : Z -> Z -> CC), 0 <= n -> 0 <= K -> K * n < 2 ^ 31 ->
  set_test_matrix n K (tab K (fun k => carray (K := Rops) n (z k))) = Ok (tab K (fun k => carray (K := Rops) n (fun i => ((sin (IZR (k * i) / IZR n * PI_macro) / sqrt 2)%R, snd (z k i))))).
Proof.
  intros n K z Hn HK HKn. unfold set_test_matrix.
  set (f := fun k i => (sin (IZR (k * i) / IZR n * PI_macro) / sqrt 2)%R).
  rewrite (for_closed _ (fun k => tab K (fun k' => carray (K := Rops) n (fun i => (if k' <? k then f k' i else fst (z k' i), snd (z k' i))))) _ _ _ (tab K (fun k => carray (K := Rops) n (fun i => (f k i, snd (z k i)))))); auto; try lia.
  - apply tab_ext. intros k Hk. apply msg_ext. intros i Hi. destruct (Z.ltb_spec k 0); [lia|]. apply surjective_pairing.
  - apply tab_ext. intros k Hk. apply msg_ext. intros i Hi. destruct (Z.ltb_spec k K); [reflexivity|lia].
  - intros k Hk.
    apply (for_closed _ (fun i => tab K (fun k' => carray (K := Rops) n (fun j => (if (k' <? k) || ((k' =? k) && (j <? i)) then f k' j else fst (z k' j), snd (z k' j)))))); auto.
    + apply tab_ext. intros k' Hk'. apply msg_ext. intros j Hj. destruct (Z.ltb_spec j 0); [lia|]. rewrite andb_false_r, orb_false_r. reflexivity.
    + apply tab_ext. intros k' Hk'. apply msg_ext. intros j Hj. replace (k' <? k + 1) with ((k' <? k) || (k' =? k) && (j <? n)); [reflexivity|].
      destruct (Z.ltb_spec j n); [|lia]. destruct (Z.ltb_spec k' k), (Z.eqb_spec k' k), (Z.ltb_spec k' (k + 1)); try lia; reflexivity.
    + intros i Hi. rewrite int_ok by (assert (0 <= k * i < K * n) by nia; lia). cbn [bind]. cbv zeta. rewrite lget_tab by lia. cbn [bind].
      rewrite carray_cvtab. unfold cvtab at 1. unfold gtab at 1. rewrite gwr_tab by lia. cbn [bind]. rewrite lset_tab by lia. cbn [bind]. rewrite lget_tab by lia. cbn [bind]. rewrite Z.eqb_refl.
      rewrite gwr_tab by lia. cbn [bind]. rewrite lset_tab by lia. apply f_equal. apply tab_ext. intros k' Hk'. destruct (Z.eqb_spec k' k) as [->|Hne].
      * rewrite carray_cvtab. unfold cvtab, cre, cim. cbn [fst snd]. cbn [andb]. apply f_equal2; [|reflexivity]. apply tab_ext. intros j Hj. destruct (Z.eqb_spec j i) as [->|Hj'].
        -- destruct (Z.ltb_spec i (i + 1)); [|lia]. rewrite orb_true_r. reflexivity.
        -- replace (j <? i + 1) with (j <? i); [reflexivity|]. destruct (Z.ltb_spec j i), (Z.ltb_spec j (i + 1)); try lia; reflexivity.
      * apply msg_ext. intros j Hj. reflexivity.
Qed.

(** The entries were meant to lie on the circle, as those of set_test_message do; the second assignment overwrites the first.  The matrix of
    freshly constructed messages has a zero entry. *)
Theorem C95_test_matrix_refuted : exists n K, 0 < n /\ 0 < K /\ K * n < 2 ^ 31 /\
  exists w : Z -> Z -> CC, set_test_matrix n K (tab K (fun k => carray (K := Rops) n (fun _ => (0%R, 0%R)))) = Ok (tab K (fun k => carray (K := Rops) n (w k))) /\
  exists k i, 0 <= k < K /\ 0 <= i < n /\ w k i = (0%R, 0%R) /\ (modulus (w k i) <> / sqrt 2)%R.
Proof.
  exists 256, 3. split; [lia|]. split; [lia|]. split; [lia|].
  exists (fun k i => ((sin (IZR (k * i) / IZR 256 * PI_macro) / sqrt 2)%R, 0%R)). split; [apply (C95_test_matrix 256 3 (fun _ _ => (0%R, 0%R))); lia|].
  exists 0, 5. split; [lia|]. split; [lia|].
  assert (E : (sin (IZR (0 * 5) / IZR 256 * PI_macro) / sqrt 2 = 0)%R).
  { replace (IZR (0 * 5) / IZR 256 * PI_macro)%R with 0%R; [rewrite sin_0; unfold Rdiv; ring|]. replace (0 * 5) with 0 by lia. unfold Rdiv. ring. }
  rewrite E. split; [reflexivity|]. unfold modulus, cre, cim. cbn [fst snd]. replace (0 * 0 + 0 * 0)%R with 0%R by ring. rewrite sqrt_0.
  assert (0 < sqrt 2)%R by (apply sqrt_lt_R0; lra). pose proof (Rinv_0_lt_compat _ H). lra.
Qed.

(** the fields of LOGN = 9: 256 slots, freshly constructed messages *)
Example C95_case : (exists p, msg_new (K := Rops) 256 = Ok p /\ set_test_message 256 p = Ok (carray (K := Rops) 256 (fun j => circle (IZR j / 256 * PI_macro)))) /\ circle 0 = ((1 / sqrt 2)%R, 0%R).
Proof.
  split.
  - exists (carray (K := Rops) 256 (fun _ => (0%R, 0%R))). split; [apply (C68_new (K := Rops)); lia|]. apply (C95_test_message 256); [lia|apply carray_of_carray].
  - unfold circle. rewrite cos_0, sin_0. f_equal. unfold Rdiv. ring.
Qed.
