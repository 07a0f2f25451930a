(** The remaining assertions on offsets and sizes: the complex MatMul (C48), RemoveClutter (C65), the groups and the
    offsets in floating-point arithmetic (C46, C64). *)
From Coq Require Import ZArith List Bool Lia Reals.
From Verif Require Import Base BaseFacts ZQ RQ Conv Util Core Rot GSum Matrix MatrixFacts MatMulFacts SpecMat Properties_Mat DFT Encode LinTrans Bootstrap Float FloatLin.
Import ListNotations.
Open Scope Z_scope.

Section Assert.
Context {K : ops}.

(** If the complex MatMul returns, the real and the imaginary part have the same offset at every pair of diagonals
    that is not skipped. *)
Theorem C48_matmul2_offsets N S1 S2 (ar ai br bi : Z -> Z -> K) oar oai obr obi zar zai zbr zbi Cr Ci r :
  0 <= S1 -> 0 <= S2 ->
  matmul2 N S1 S2 (diagonals N S1 ar oar zar) (diagonals N S1 ai oai zai) (diagonals N S2 br obr zbr) (diagonals N S2 bi obi zbi) Cr Ci = Ok r ->
  forall s1 s2, 0 <= s1 < S1 -> 0 <= s2 < S2 -> zar s1 && zai s1 = false -> zbr s2 && zbi s2 = false ->
  oar s1 = oai s1 /\ obr s2 = obi s2.
Proof.
  intros H1 H2 E. rewrite !diagonals_sdi in E. unfold matmul2 in E.
  destruct (sd_setzero N (S1 * S2) Cr) as [Cr0| | |]; try discriminate E. cbn [bind] in E.
  destruct (sd_setzero N (S1 * S2) Ci) as [Ci0| | |]; try discriminate E. cbn [bind] in E.
  match type of E with bind ?x _ = _ => destruct x as [w| | |] eqn:Ef; try discriminate E end. clear E.
  intros s1 s2 Hs1 Hs2 Ha Hb. revert s1 Hs1 Ha s2 Hs2 Hb.
  refine (for_inv_partial _ (fun k _ => forall s1, 0 <= s1 < k -> zar s1 && zai s1 = false -> forall s2, 0 <= s2 < S2 -> zbr s2 && zbi s2 = false -> oar s1 = oai s1 /\ obr s2 = obi s2) 0 S1 _ _ _ _ _ Ef); [lia|intros; lia|].
  intros k w1 w2 Hk IH Ek s1 Hs1 Ha. destruct (Z.eq_dec s1 k) as [->|]; [|apply IH; auto; lia]. clear IH Ef.
  destruct w1 as [[Cr1 Ci1] count].
  refine (for_inv_partial _ (fun k2 _ => forall s2, 0 <= s2 < k2 -> zbr s2 && zbi s2 = false -> oar k = oai k /\ obr s2 = obi s2) 0 S2 _ _ _ _ _ Ek); [lia|intros; lia|].
  intros k2 v1 v2 Hk2 IH E2 s2 Hs2 Hb. destruct (Z.eq_dec s2 k2) as [->|]; [|apply IH; auto; lia]. clear IH Ek.
  destruct v1 as [[Cr2 Ci2] count2]. cbv beta iota in E2.
  rewrite !get_zero_sdi, !get_off_sdi in E2 by lia. cbn [bind] in E2.
  destruct (zar k), (zai k); try discriminate Ha; destruct (zbr k2), (zbi k2); try discriminate Hb; cbn [bind] in E2;
  (destruct (Z.eqb_spec (oar k) (oai k)) as [e1|]; [|discriminate E2]); cbn [assert_ bind] in E2;
  (destruct (Z.eqb_spec (obr k2) (obi k2)) as [e2|]; [|discriminate E2]); auto.
Qed.

(** RemoveClutter must drop something. *)
Theorem C65_remove_clutter_sizes N S1 S2 (A B : sd K) : S1 <= S2 -> sd_remove_clutter N S1 S2 A B = Abort.
Proof. intros H. unfold sd_remove_clutter. destruct (Z.ltb_spec S2 S1); [lia|reflexivity]. Qed.
End Assert.

(** ** The same checks in floating-point arithmetic *)
Section Float.
Context (F : fpu).

(** If linear_transform returns, the real and the imaginary part of every diagonal have the same offset, whether the
    diagonal is skipped or not. *)
Theorem C107_offsets LOGQ LOGN LOGDELTA RM rng S (vr vi : Z -> Z -> R) o p f g ct sk st pos Act w : 0 <= S ->
  f_linear_transform F LOGQ LOGN LOGDELTA RM rng S st pos (diagonals (F := Rops) (2 ^ (LOGN - 1)) S vr o f) (diagonals (F := Rops) (2 ^ (LOGN - 1)) S vi p g) ct sk Act = Ok w ->
  forall t, 0 <= t < S -> o t = p t.
Proof.
  intros HS E. unfold f_linear_transform in E.
  match type of E with bind ?x _ = _ => destruct x as [A0| | |]; try discriminate E end. cbn [bind] in E.
  refine (for_inv_partial _ (fun k _ => forall t, 0 <= t < k -> o t = p t) 0 S _ _ _ _ _ E); [lia|intros; lia|].
  intros k w1 w2 Hk IH E2. destruct w1 as [[st1 pos1] Act1]. unfold f_lt_step in E2. rewrite !diagonals_sdi, !get_off_sdi in E2 by auto. cbn [bind] in E2.
  destruct (Z.eqb_spec (o k) (p k)) as [He|He]; [|discriminate E2]. intros t Ht. destruct (Z.eq_dec t k) as [->|]; auto. apply IH; lia.
Qed.

(** The number of matrices must be a multiple of the size of the groups, and that size at most 4. *)
Theorem C108_group_assert LOGQ LOGN LOGDELTA RM rng S D G st pos Ar Ai ct s Act :
  G < 1 \/ 4 < G \/ D mod G <> 0 -> f_grouped_lt F LOGQ LOGN LOGDELTA RM rng S D G st pos Ar Ai ct s Act = Abort.
Proof.
  intros H. unfold f_grouped_lt, f_group2, f_group3, f_group4.
  destruct (Z.eqb_spec G 1) as [->|]; [rewrite Z.mod_1_r in H; lia|].
  destruct (Z.eqb_spec G 2) as [->|]; [destruct (Z.eqb_spec (D mod 2) 0); [lia|reflexivity]|].
  destruct (Z.eqb_spec G 3) as [->|]; [destruct (Z.eqb_spec (D mod 3) 0); [lia|reflexivity]|].
  destruct (Z.eqb_spec G 4) as [->|]; [destruct (Z.eqb_spec (D mod 4) 0); [lia|reflexivity]|].
  reflexivity.
Qed.
End Float.

(** Seven matrices in groups of three: refused *)
Example C108_group_assert_case F st Ar Ai ct s Act : f_grouped_lt F 64 8 30 32767 (fun _ => 5) 3 7 3 st 0 Ar Ai ct s Act = Abort.
Proof. apply C108_group_assert. right. right. vm_compute. discriminate. Qed.
(** Offsets of the first matrix 3 and 2, of the second one 3 and 2 or 3 and 1: the product is computed only if the parts
    agree, or if the diagonals that differ are flagged in both parts. *)
Example C48_offsets_case :
  let A f := diagonals (F := Zops) 4 2 (fun s i => 10 * s + i + 1) (fun s => 3 - s) f in
  let B f := diagonals (F := Zops) 4 2 (fun s i => 10 * s + i + 1) (fun s => 3 - 2 * s) f in
  let no := fun _ : Z => false in let snd_ := fun s => s =? 1 in
  matmul2 4 2 2 (A no) (A no) (A no) (B no) (sd_new Z 4 4) (sd_new Z 4 4) = Abort /\
  (exists r, matmul2 4 2 2 (A no) (A no) (A snd_) (B snd_) (sd_new Z 4 4) (sd_new Z 4 4) = Ok r) /\
  sd_remove_clutter 4 2 2 (A no) (sd_new Z 4 2) = Abort.
Proof. split; [vm_compute; reflexivity|]. split; [eexists; vm_compute; reflexivity|]. apply C65_remove_clutter_sizes. lia. Qed.
