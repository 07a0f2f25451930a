(** C48: the complex MatMul aborts exactly when the offsets of the two parts differ at a pair of diagonals that is not skipped. *)
From Coq Require Import ZArith List Bool Lia.
From Verif Require Import Base BaseFacts GSum Matrix MatrixFacts MatMulFacts SpecMat Properties_Mat Properties_MatAssert2.
Import ListNotations.
Open Scope Z_scope.

(** A loop each of whose steps does what another loop does or aborts *)
Lemma for_or_abort {St} (body body' : Z -> St -> res St) lo hi A :
  (forall s w, lo <= s < hi -> body s w = body' s w \/ body s w = Abort) ->
  for_ lo hi body A = for_ lo hi body' A \/ for_ lo hi body A = Abort.
Proof.
  destruct (Z.le_gt_cases lo hi) as [Hle|Hgt]; [|intros _; left; rewrite !for_nil by lia; reflexivity].
  intros H. assert (G : forall k, 0 <= k -> lo + k <= hi -> for_ lo (lo + k) body A = for_ lo (lo + k) body' A \/ for_ lo (lo + k) body A = Abort).
  { intros k Hk. pattern k. apply natlike_ind; [| |exact Hk].
    - intros _. left. rewrite !for_nil by lia. reflexivity.
    - intros j Hj IH Hb. rewrite (for_split body lo (lo + j)), (for_split body' lo (lo + j)) by lia.
      destruct IH as [E|E]; [lia| |rewrite E; right; reflexivity]. rewrite E. destruct (for_ lo (lo + j) body' A) as [w| | |]; auto. cbn [bind].
      rewrite !for_step by lia. destruct (H (lo + j) w ltac:(lia)) as [E2|E2]; rewrite E2; [|right; reflexivity].
      left. destruct (body' (lo + j) w) as [w2| | |]; auto. cbn [bind]. rewrite !for_nil by lia. reflexivity. }
  specialize (G (hi - lo) ltac:(lia) ltac:(lia)). replace (lo + (hi - lo)) with hi in G by lia. exact G.
Qed.

Section Assert.
Context {K : ops} (HK : lawful K).

Theorem C48_matmul2_mismatch N S1 S2 (ar ai br bi : Z -> Z -> K) oar oai obr obi zar zai zbr zbi (Cr Ci : sd K) s1 s2 :
  0 < N <= 2 ^ 30 -> flags_right N S1 ar ai oar oar zar zai -> flags_right N S2 br bi obr obr zbr zbi ->
  shape N (S1 * S2) Cr -> shape N (S1 * S2) Ci ->
  0 <= s1 < S1 -> 0 <= s2 < S2 -> zar s1 && zai s1 = false -> zbr s2 && zbi s2 = false ->
  oar s1 <> oai s1 \/ obr s2 <> obi s2 ->
  matmul2 N S1 S2 (diagonals N S1 ar oar zar) (diagonals N S1 ai oai zai) (diagonals N S2 br obr zbr) (diagonals N S2 bi obi zbi) Cr Ci = Abort.
Proof.
  intros HN F1 F2 HCr HCi Hs1 Hs2 Ha Hb Hne.
  destruct (C48_matmul_complex HK N S1 S2 ar ai oar oar zar zai br bi obr obr zbr zbi Cr Ci HN ltac:(lia) ltac:(lia) F1 F2 HCr HCi) as (vr & vi & o & z & E & _).
  pose proof (C48_matmul2_offsets N S1 S2 ar ai br bi oar oai obr obi zar zai zbr zbi Cr Ci) as HO.
  assert (G : matmul2 N S1 S2 (diagonals N S1 ar oar zar) (diagonals N S1 ai oai zai) (diagonals N S2 br obr zbr) (diagonals N S2 bi obi zbi) Cr Ci =
              matmul2 N S1 S2 (diagonals N S1 ar oar zar) (diagonals N S1 ai oar zai) (diagonals N S2 br obr zbr) (diagonals N S2 bi obr zbi) Cr Ci \/
              matmul2 N S1 S2 (diagonals N S1 ar oar zar) (diagonals N S1 ai oai zai) (diagonals N S2 br obr zbr) (diagonals N S2 bi obi zbi) Cr Ci = Abort).
  { clear. rewrite !diagonals_sdi. unfold matmul2.
    destruct (sd_setzero N (S1 * S2) Cr) as [Cr0| | |]; auto. cbn [bind]. destruct (sd_setzero N (S1 * S2) Ci) as [Ci0| | |]; auto. cbn [bind].
    match goal with |- bind (for_ 0 S1 ?b ?A) _ = bind (for_ 0 S1 ?b' _) _ \/ _ => destruct (for_or_abort b b' 0 S1 A) as [E|E] end;
      [|rewrite E; left; reflexivity|rewrite E; right; reflexivity].
    intros k [[Cr1 Ci1] count] Hk. apply for_or_abort. intros k2 [[Cr2 Ci2] count2] Hk2. cbv beta iota.
    rewrite !get_zero_sdi, !get_off_sdi by lia. cbn [bind]. rewrite !Z.eqb_refl.
    destruct (zar k), (zai k); cbn [bind]; try (left; reflexivity); destruct (zbr k2), (zbi k2); cbn [bind]; try (left; reflexivity);
    (destruct (oar k =? oai k); cbn [assert_ bind]; [|right; reflexivity]); (destruct (obr k2 =? obi k2); cbn [assert_ bind]; [|right; reflexivity]); left; reflexivity. }
  destruct G as [G|G]; [|exact G]. exfalso. rewrite E in G. destruct (HO _ ltac:(lia) ltac:(lia) G s1 s2 Hs1 Hs2 Ha Hb). lia.
Qed.
End Assert.

(** Offsets 3 and 2 of the real parts; the imaginary part of the second matrix has 3 and 1 *)
Example C48_mismatch_case :
  let v := fun s i => 10 * s + i + 1 in let no := fun _ : Z => false in
  matmul2 (K := Zops) 4 2 2 (diagonals (F := Zops) 4 2 v (fun s => 3 - s) no) (diagonals (F := Zops) 4 2 v (fun s => 3 - s) no)
    (diagonals (F := Zops) 4 2 v (fun s => 3 - s) no) (diagonals (F := Zops) 4 2 v (fun s => 3 - 2 * s) no) (sd_new Z 4 4) (sd_new Z 4 4) = Abort.
Proof.
  cbv zeta. assert (Fl : forall v, flags_right (K := Zops) 4 2 v v (fun s => 3 - s) (fun s => 3 - s) (fun _ => false) (fun _ => false)).
  { intros v s Hs. cbn [andb]. split; [lia|reflexivity]. }
  apply (C48_matmul2_mismatch Zlawful) with (s1 := 0) (s2 := 1); try apply Fl; try lia; try reflexivity;
  (split; [reflexivity|]; split; [|split; reflexivity]; repeat constructor).
Qed.
