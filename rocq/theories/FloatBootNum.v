(** Size of the errors of CoeffToSlot and SlotToCoeff in double precision for rings of dimension up to 2^17. *)
From Coq Require Import ZArith Lia Reals Lra.
From Verif Require Import Base Util EncodeFacts SpecLin BootSlots.
From Verif Require Import Float SpecFloat FloatError Binary64 FloatNum Properties_Float.
From Verif Require Import SpecFloatLin SpecFloatBoot.
Open Scope R_scope.

Lemma u_small : 0 < u64 <= / 9007199254740992.
Proof. pose proof u_pos as H. change (2 ^ 53)%Z with 9007199254740992%Z in H. exact H. Qed.
Lemma eta_u k : (0 <= k)%Z -> (k <= 1000)%Z -> IZR (2 ^ k) * eta64 <= u64.
Proof. intros H1 H2. apply eta_scaled; lia. Qed.
Lemma mm_num (S1 S2 : Z) a1 a2 r1 r2 A1 A2 C1 C2 : (0 <= S1)%Z -> (0 <= S2)%Z -> 0 <= a1 <= A1 -> 0 <= a2 <= A2 -> 0 <= r1 <= C1 * u64 -> 0 <= r2 <= C2 * u64 ->
  A1 <= 1024 -> A2 <= 1024 -> C1 <= 1000000 -> C2 <= 1000000 ->
  0 <= mm_error u64 eta64 S1 S2 a1 r1 a2 r2 <= (C1 * (A2 + / 1000) + A1 * C2 + IZR S1 * IZR S2 * (18 * (A1 * A2 + (A1 + A2 + 1) / 1000) + 10)) * u64.
Proof.
  intros H1 H2 Ha1 Ha2 Hr1 Hr2 B1 B2 B3 B4. pose proof u_small as Hu. pose proof eta_pos as He. pose proof (eta_u 3 ltac:(lia) ltac:(lia)) as He8. change (2 ^ 3)%Z with 8%Z in He8.
  apply IZR_le in H1, H2. set (s1 := IZR S1) in *. set (s2 := IZR S2) in *. assert (Hs : 0 <= s1 * s2) by (apply Rmult_le_pos; auto).
  assert (R1 : r1 <= / 1000) by nra. assert (R2 : r2 <= / 1000) by nra.
  unfold mm_error, mm_round. fold s1 s2.
  assert (X0 : 0 <= (a1 + r1) * (a2 + r2)) by (apply Rmult_le_pos; lra).
  assert (X1 : (a1 + r1) * (a2 + r2) <= A1 * A2 + (A1 + A2 + 1) / 1000).
  { apply Rle_trans with ((A1 + / 1000) * (A2 + / 1000)); [apply Rmult_le_compat; lra|]. lra. }
  assert (Y1 : 0 <= r1 * (a2 + r2) <= C1 * (A2 + / 1000) * u64).
  { split; [apply Rmult_le_pos; lra|]. replace (C1 * (A2 + / 1000) * u64) with (C1 * u64 * (A2 + / 1000)) by ring. apply Rmult_le_compat; lra. }
  assert (Y2 : 0 <= a1 * r2 <= A1 * C2 * u64) by (split; [apply Rmult_le_pos; lra|rewrite Rmult_assoc; apply Rmult_le_compat; lra]).
  set (X := (a1 + r1) * (a2 + r2)) in *. set (XB := A1 * A2 + (A1 + A2 + 1) / 1000) in *. clearbody X XB.
  assert (Y3 : 0 <= 9 * u64 * (2 * X + 1) + 6 * eta64 <= (18 * XB + 10) * u64).
  { assert (0 <= u64 * X <= u64 * XB) by (split; [apply Rmult_le_pos; lra|apply Rmult_le_compat_l; lra]). lra. }
  assert (Y4 : 0 <= s1 * s2 * (9 * u64 * (2 * X + 1) + 6 * eta64) <= s1 * s2 * ((18 * XB + 10) * u64)) by (split; [apply Rmult_le_pos; lra|apply Rmult_le_compat_l; lra]).
  split; [lra|]. replace (s1 * s2 * ((18 * XB + 10) * u64)) with (s1 * s2 * (18 * XB + 10) * u64) in Y4 by ring. lra.
Qed.
Lemma mm_fits (S1 S2 : Z) x y : IZR S1 * IZR S2 <= 1000 -> 0 <= x <= 1024 -> 0 <= y <= 1024 -> IZR S1 * IZR S2 * (18 * u64 + 6 * eta64) <= 1 /\ 8 * (x * y) + 5 <= top64.
Proof.
  intros Hs Hx Hy. pose proof u_small as Hu. pose proof eta_pos as He. pose proof (eta_u 3 ltac:(lia) ltac:(lia)) as He8. change (2 ^ 3)%Z with 8%Z in He8. split.
  - apply Rle_trans with (1000 * (18 * u64 + 6 * eta64)); [apply Rmult_le_compat_r; lra|lra].
  - pose proof (top64_big 64 ltac:(lia)) as T. change (2 ^ 64)%Z with 18446744073709551616%Z in T. assert (x * y <= 1024 * 1024) by (apply Rmult_le_compat; lra). lra.
Qed.

Section Num.
Context (LOGN : Z) (HL : (2 <= LOGN <= 17)%Z).
Lemma num_stc_row : 0 <= stc_row_error u64 eta64 t64 LOGN <= 104 * u64.
Proof. pose proof (num_table LOGN HL) as H. pose proof u_small. unfold stc_row_error. lra. Qed.
Lemma num_factor p : 0 <= p <= 2 * u64 -> 0 <= factor_error u64 eta64 p LOGN <= 10 * u64.
Proof.
  intros Hp. pose proof u_small. pose proof eta_pos as He. pose proof (eta_u 6 ltac:(lia) ltac:(lia)) as H6. change (2 ^ 6)%Z with 64%Z in H6. unfold factor_error.
  assert (HN17 : IZR LOGN <= 17) by (apply IZR_le; lia). assert (HN2 : 2 <= IZR LOGN) by (apply IZR_le; lia).
  assert (0 <= (3 * IZR LOGN + 1) * eta64 <= 52 * eta64) by (split; [apply Rmult_le_pos; lra|apply Rmult_le_compat_r; lra]). lra.
Qed.
Lemma num_cts_row p : 0 <= p <= 2 * u64 -> 0 <= cts_row_error u64 eta64 t64 p LOGN <= 160 * u64.
Proof.
  intros Hp. pose proof (num_table LOGN HL) as H. pose proof (num_factor p Hp). pose proof u_small. pose proof eta_pos as He. pose proof (eta_u 0 ltac:(lia) ltac:(lia)) as He1. change (2 ^ 0)%Z with 1%Z in He1.
  unfold cts_row_error. lra.
Qed.
Lemma row_le1 : 0 <= Rpower 2 (- / IZR (LOGN - 1)) <= 1.
Proof.
  split; [apply Rlt_le, exp_pos|]. pose proof (cts_row_le (Z.to_nat (LOGN - 1)) ltac:(lia)) as B. rewrite INR_IZR_INZ, Z2Nat.id in B by lia. exact B.
Qed.

(** products of up to four matrices *)
Lemma prod_num G x r A C (E1 E2 E3 : R) : (1 <= G <= 4)%nat -> 0 <= x <= A -> 0 <= r <= C * u64 -> 1 <= A <= 2 -> 0 <= C <= 1000 ->
  C * (A + / 1000) + A * C + 9 * (18 * (A * A + (A + A + 1) / 1000) + 10) <= E1 ->
  C * (A * A + / 1000) + A * E1 + 27 * (18 * (A * (A * A) + (A + A * A + 1) / 1000) + 10) <= E2 ->
  C * (A * (A * A) + / 1000) + A * E2 + 81 * (18 * (A * (A * (A * A)) + (A + A * (A * A) + 1) / 1000) + 10) <= E3 -> C <= E1 -> E1 <= E2 -> E2 <= E3 -> E3 <= 1000000 ->
  0 <= group_error u64 eta64 3 G (fun _ => x) (fun _ => r) 0 <= E3 * u64 /\ group_fits u64 eta64 top64 3 G (fun _ => x) (fun _ => r) 0.
Proof.
  intros HG Hx Hr HA HC Q1 Q2 Q3 L1 L2 L3 L4. pose proof u_small as Hu.
  assert (P2 : 0 <= x * x <= A * A) by (split; [apply Rmult_le_pos; lra|apply Rmult_le_compat; lra]).
  assert (P3 : 0 <= x * (x * x) <= A * (A * A)) by (split; [apply Rmult_le_pos; lra|apply Rmult_le_compat; lra]).
  assert (A2 : A * A <= 4) by nra. assert (A3 : A * (A * A) <= 8) by nra.
  pose (e1 := mm_error u64 eta64 3 (3 ^ Z.of_nat 1) x r (rprod 1 (fun _ => x)) r).
  assert (B1 : 0 <= e1 <= E1 * u64).
  { unfold e1. cbn [rprod]. rewrite Rmult_1_r. change (3 ^ Z.of_nat 1)%Z with 3%Z. pose proof (mm_num 3 3 x x r r A A C C ltac:(lia) ltac:(lia) Hx Hx Hr Hr ltac:(lra) ltac:(lra) ltac:(lra) ltac:(lra)) as M. split; [lra|].
    eapply Rle_trans; [apply (proj2 M)|]. apply Rmult_le_compat_r; lra. }
  pose (e2 := mm_error u64 eta64 3 (3 ^ Z.of_nat 2) x r (rprod 2 (fun _ => x)) e1).
  assert (B2 : 0 <= e2 <= E2 * u64).
  { unfold e2. cbn [rprod]. rewrite Rmult_1_r. change (3 ^ Z.of_nat 2)%Z with 9%Z. pose proof (mm_num 3 9 x (x * x) r e1 A (A * A) C E1 ltac:(lia) ltac:(lia) Hx P2 Hr B1 ltac:(lra) ltac:(lra) ltac:(lra) ltac:(lra)) as M. split; [lra|].
    eapply Rle_trans; [apply (proj2 M)|]. apply Rmult_le_compat_r; lra. }
  pose (e3 := mm_error u64 eta64 3 (3 ^ Z.of_nat 3) x r (rprod 3 (fun _ => x)) e2).
  assert (B3 : 0 <= e3 <= E3 * u64).
  { unfold e3. cbn [rprod]. rewrite Rmult_1_r. change (3 ^ Z.of_nat 3)%Z with 27%Z. pose proof (mm_num 3 27 x (x * (x * x)) r e2 A (A * (A * A)) C E2 ltac:(lia) ltac:(lia) Hx P3 Hr B2 ltac:(lra) ltac:(lra) ltac:(lra) ltac:(lra)) as M. split; [lra|].
    eapply Rle_trans; [apply (proj2 M)|]. apply Rmult_le_compat_r; lra. }
  assert (Bu : forall k, k <= 1000000 -> k * u64 <= 1) by (intros k Hk; apply Rle_trans with (1000000 * u64); [apply Rmult_le_compat_r; lra|lra]).
  pose proof (Bu E1 ltac:(lra)). pose proof (Bu E2 ltac:(lra)). pose proof (Bu E3 ltac:(lra)). pose proof (Bu C ltac:(lra)).
  assert (M1 : E1 * u64 <= E3 * u64) by (apply Rmult_le_compat_r; lra). assert (M2 : E2 * u64 <= E3 * u64) by (apply Rmult_le_compat_r; lra). assert (M0 : C * u64 <= E3 * u64) by (apply Rmult_le_compat_r; lra).
  assert (F1 : IZR 3 * IZR (3 ^ Z.of_nat 1) * (18 * u64 + 6 * eta64) <= 1 /\ 8 * ((x + r) * (rprod 1 (fun _ => x) + r)) + 5 <= top64).
  { apply mm_fits; cbn [rprod]; rewrite ?Rmult_1_r; [change (3 ^ Z.of_nat 1)%Z with 3%Z|..]; lra. }
  assert (F2 : IZR 3 * IZR (3 ^ Z.of_nat 2) * (18 * u64 + 6 * eta64) <= 1 /\ 8 * ((x + r) * (rprod 2 (fun _ => x) + e1)) + 5 <= top64).
  { apply mm_fits; cbn [rprod]; rewrite ?Rmult_1_r; [change (3 ^ Z.of_nat 2)%Z with 9%Z|..]; lra. }
  assert (F3 : IZR 3 * IZR (3 ^ Z.of_nat 3) * (18 * u64 + 6 * eta64) <= 1 /\ 8 * ((x + r) * (rprod 3 (fun _ => x) + e2)) + 5 <= top64).
  { apply mm_fits; cbn [rprod]; rewrite ?Rmult_1_r; [change (3 ^ Z.of_nat 3)%Z with 27%Z|..]; lra. }
  unfold group_error, group_fits. assert (G = 1 \/ G = 2 \/ G = 3 \/ G = 4)%nat as [->|[->|[->| ->]]] by lia; cbn [Nat.sub prod_error prod_fits]; fold e1; fold e2; fold e3.
  - split; [lra|exact I].
  - split; [lra|]. split; [exact I|exact F1].
  - split; [lra|]. split; [split; [exact I|exact F1]|exact F2].
  - split; [lra|]. split; [split; [split; [exact I|exact F1]|exact F2]|exact F3].
Qed.
Lemma p40 : powerRZ 2 (-40) = 8192 * u64.
Proof. pose proof (u_is 13 ltac:(lia)) as H. change (2 ^ 13)%Z with 8192%Z in H. rewrite H. reflexivity. Qed.
Lemma p37 : powerRZ 2 (-37) = 65536 * u64.
Proof. pose proof (u_is 16 ltac:(lia)) as H. change (2 ^ 16)%Z with 65536%Z in H. rewrite H. reflexivity. Qed.
Lemma num_cts_group p G : (1 <= G <= 4)%nat -> 0 <= p <= 2 * u64 -> 0 <= cts_group_error u64 eta64 t64 p LOGN G <= powerRZ 2 (-40) /\ cts_group_fits u64 eta64 top64 t64 p LOGN G.
Proof.
  intros HG Hp. rewrite p40. unfold cts_group_error, cts_group_fits.
  pose proof (prod_num G _ _ 1 160 600 1600 4100 HG row_le1 (num_cts_row p Hp) ltac:(lra) ltac:(lra) ltac:(lra) ltac:(lra) ltac:(lra) ltac:(lra) ltac:(lra) ltac:(lra) ltac:(lra)) as [H1 H2].
  split; [|exact H2]. pose proof u_small. lra.
Qed.
Lemma num_stc_group G : (1 <= G <= 4)%nat -> 0 <= stc_group_error u64 eta64 t64 LOGN G <= powerRZ 2 (-37) /\ stc_group_fits u64 eta64 top64 t64 LOGN G.
Proof.
  intros HG. rewrite p37. unfold stc_group_error, stc_group_fits.
  pose proof (prod_num G 2 _ 2 104 1200 7000 40000 HG ltac:(lra) num_stc_row ltac:(lra) ltac:(lra) ltac:(lra) ltac:(lra) ltac:(lra) ltac:(lra) ltac:(lra) ltac:(lra) ltac:(lra)) as [H1 H2].
  split; [|exact H2]. pose proof u_small. lra.
Qed.
End Num.
