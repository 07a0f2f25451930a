(** Size of the error bounds in double precision for rings of dimension up to 2^17. *)
From Coq Require Import ZArith Lia Reals Lra.
From Verif Require Import Base Util EncodeFacts.
From Verif Require Import Float SpecFloat FloatError Binary64.
Open Scope R_scope.

Lemma eta_scaled k j : (j - 1075 <= k)%Z -> (0 <= j)%Z -> IZR (2 ^ j) * eta64 <= powerRZ 2 k.
Proof. intros H Hj. unfold eta64. rewrite <- powerRZ_2 by auto. rewrite <- p2_add. apply p2_le. lia. Qed.
Lemma u_is k : (0 <= k)%Z -> IZR (2 ^ k) * u64 = powerRZ 2 (k - 53).
Proof. intros Hk. unfold u64. rewrite <- powerRZ_2 by auto. rewrite <- p2_add. f_equal. Qed.
Lemma u_pos : 0 < u64 <= / IZR (2 ^ 53).
Proof. split; [apply p2_pos|]. unfold u64. change (-53)%Z with (Z.opp 53). rewrite powerRZ_neg', powerRZ_2 by lia. apply Rle_refl. Qed.
Lemma eta_pos : 0 < eta64.
Proof. apply p2_pos. Qed.

Lemma pow_growth h k : 0 <= h -> INR k * h <= 1 -> (1 + h) ^ k <= 1 + INR k * h + (INR k * h) ^ 2.
Proof.
  intros Hh. induction k as [|k IH]; intros Hk; [cbn; lra|]. rewrite S_INR in *. cbn [pow]. pose proof (pos_INR k) as Pk.
  assert (Hk' : 0 <= INR k * h) by (apply Rmult_le_pos; auto). specialize (IH ltac:(lra)). set (x := INR k * h) in *.
  apply Rle_trans with ((1 + h) * (1 + x + x ^ 2)); [apply Rmult_le_compat_l; lra|].
  replace ((INR k + 1) * h) with (x + h) in * by (unfold x; ring). assert (h * (x * x) <= h * x). { apply Rmult_le_compat_l; auto. rewrite <- (Rmult_1_r x) at 3. apply Rmult_le_compat_l; lra. }
  assert (0 <= h * h) by (apply Rmult_le_pos; auto). nra.
Qed.

Lemma num_uB B : 0 <= B -> 0 <= u64 * B <= B / 9007199254740992.
Proof.
  intros HB. pose proof u_pos as Hu. change (2 ^ 53)%Z with 9007199254740992%Z in *. split; [apply Rmult_le_pos; lra|]. unfold Rdiv. rewrite (Rmult_comm B). apply Rmult_le_compat_r; lra.
Qed.
Lemma num_etaB B : 0 <= B -> 0 <= eta64 * B <= u64 * B.
Proof. intros HB. pose proof eta_pos. split; [apply Rmult_le_pos; lra|]. apply Rmult_le_compat_r; auto. apply p2_le. lia. Qed.

Section Num.
Context (LOGN : Z) (HL : (2 <= LOGN <= 17)%Z).
Let N := (2 ^ LOGN)%Z.
Let n := (2 ^ (LOGN - 1))%Z.
Let L := Z.to_nat (LOGN - 1).
Let la := lambda u64 eta64 t64 N.

Lemma num_N : 4 <= IZR N <= 131072.
Proof. split; apply IZR_le; unfold N; [change 4%Z with (2 ^ 2)%Z|change 131072%Z with (2 ^ 17)%Z]; apply Z.pow_le_mono_r; lia. Qed.
Lemma num_n : 2 <= IZR n <= 65536.
Proof. split; apply IZR_le; unfold n; [change 2%Z with (2 ^ 1)%Z at 1|change 65536%Z with (2 ^ 16)%Z]; apply Z.pow_le_mono_r; lia. Qed.
Lemma num_Nn : IZR N = 2 * IZR n.
Proof. rewrite <- mult_IZR. f_equal. unfold N, n. rewrite <- Z.pow_succ_r by lia. f_equal. lia. Qed.
Lemma num_nL : IZR n = 2 ^ L.
Proof. unfold n, L. rewrite pow_IZR. f_equal. f_equal. lia. Qed.
Lemma num_table : 0 <= table_error u64 eta64 t64 N <= 23 * u64.
Proof.
  pose proof num_N as HN. pose proof eta_pos. pose proof u_pos. unfold table_error.
  assert (Et : t64 = 2 * u64). { pose proof (u_is 1 ltac:(lia)) as E. change (2 ^ 1)%Z with 2%Z in E. rewrite E. reflexivity. }
  assert (IZR N * eta64 <= 131072 * eta64) by (apply Rmult_le_compat_r; lra). assert (0 <= IZR N * eta64) by (apply Rmult_le_pos; lra).
  assert (IZR (2 ^ 19) * eta64 <= u64) by (apply eta_scaled; lia). change (2 ^ 19)%Z with 524288%Z in *. rewrite Et. lra.
Qed.
Lemma num_small : table_error u64 eta64 t64 N <= / 64.
Proof. pose proof num_table. pose proof u_pos. change (2 ^ 53)%Z with 9007199254740992%Z in *. lra. Qed.
Lemma num_lambda : 0 <= la <= 158 * u64.
Proof. pose proof num_table. pose proof u_pos. unfold la, lambda. lra. Qed.
Lemma num_power : 2 ^ L <= (2 + la) ^ L <= 2 ^ L * (1 + 1265 * u64).
Proof.
  pose proof num_lambda as Hl. pose proof u_pos as Hu. change (2 ^ 53)%Z with 9007199254740992%Z in *.
  assert (P : 0 < 2 ^ L) by (apply pow_lt; lra). split; [apply pow_incr; lra|].
  replace (2 + la) with (2 * (1 + la / 2)) by field. rewrite Rpow_mult_distr. apply Rmult_le_compat_l; [lra|].
  assert (HLn : INR L <= 16). { unfold L. rewrite INR_IZR_INZ. apply IZR_le. rewrite Z2Nat.id by lia. lia. }
  pose proof (pos_INR L). assert (Hx : 0 <= INR L * (la / 2) <= 16 * (79 * u64)) by (split; [apply Rmult_le_pos; lra|apply Rmult_le_compat; lra]).
  eapply Rle_trans; [apply pow_growth; lra|]. set (x := INR L * (la / 2)) in *. clearbody x.
  assert (x ^ 2 <= u64 * (1 / 2)). { replace (x ^ 2) with (x * x) by ring. apply Rle_trans with (16 * (79 * u64) * (16 * (79 * u64))); [apply Rmult_le_compat; lra|].
    replace (16 * (79 * u64) * (16 * (79 * u64))) with (u64 * (1597696 * u64)) by ring. apply Rmult_le_compat_l; lra. }
  lra.
Qed.
Lemma num_fft_error B : 0 <= B -> fft_error u64 eta64 t64 N L B <= IZR n * (1265 * (u64 * B)) + 4194304 * eta64.
Proof.
  intros HB. pose proof num_power as [P1 P2]. pose proof u_pos as Hu. pose proof eta_pos as He. pose proof num_n as Hn. change (2 ^ 53)%Z with 9007199254740992%Z in *.
  unfold fft_error. fold la. rewrite num_nL in *. set (p := 2 ^ L) in *. set (q := (2 + la) ^ L) in *.
  assert (A1 : (q - p) * B <= p * (1265 * u64) * B) by (apply Rmult_le_compat_r; lra).
  assert (A2 : (q - 1) * (32 * eta64) <= 131072 * (32 * eta64)). { apply Rmult_le_compat_r; [lra|]. assert (p * (1265 * u64) <= 65536 * (1265 * u64)) by (apply Rmult_le_compat_r; lra). lra. }
  lra.
Qed.
Lemma num_fft_size B : 0 <= B -> fft_size u64 eta64 t64 N L B <= IZR n * (B + 1265 * (u64 * B)) + 4194304 * eta64.
Proof.
  intros HB. pose proof num_power as [P1 P2]. pose proof u_pos as Hu. pose proof eta_pos as He. pose proof num_n as Hn. change (2 ^ 53)%Z with 9007199254740992%Z in *.
  unfold fft_size. fold la. rewrite num_nL in *. set (p := 2 ^ L) in *. set (q := (2 + la) ^ L) in *.
  rewrite Rmult_plus_distr_l. apply Rplus_le_compat.
  - apply Rle_trans with (p * (1 + 1265 * u64) * B); [apply Rmult_le_compat_r; lra|]. lra.
  - apply Rle_trans with (131072 * (32 * eta64)); [|lra]. apply Rmult_le_compat_r; [lra|]. assert (p * (1265 * u64) <= 65536 * (1265 * u64)) by (apply Rmult_le_compat_r; lra). lra.
Qed.
Lemma num_size_top B : 0 <= B -> B <= powerRZ 2 1000 -> 4 * fft_size u64 eta64 t64 N L B + 1 <= top64.
Proof.
  intros HB HT. pose proof (num_fft_size B HB) as S. pose proof (num_uB B HB) as U. pose proof num_n as Hn. pose proof eta_pos as He.
  assert (E1 : eta64 <= 1 / 4194304). { pose proof (eta_scaled 0 22 ltac:(lia) ltac:(lia)) as E. change (2 ^ 22)%Z with 4194304%Z in E. change (powerRZ 2 0) with 1 in E. lra. }
  assert (M : IZR n * (B + 1265 * (u64 * B)) <= 65536 * (2 * B)) by (apply Rmult_le_compat; lra).
  assert (T : 1048576 * powerRZ 2 1000 <= top64). { replace 1048576 with (powerRZ 2 20) by (rewrite powerRZ_2 by lia; reflexivity). rewrite <- p2_add. apply p2_le. lia. }
  assert (P : 1024 <= powerRZ 2 1000). { replace 1024 with (powerRZ 2 10) by (rewrite powerRZ_2 by lia; reflexivity). apply p2_le. lia. }
  lra.
Qed.
Lemma num_ifft_error B : 0 <= B -> ifft_error u64 eta64 t64 N L B <= 1269 * (u64 * B) + 8388608 * eta64.
Proof.
  intros HB. pose proof (num_fft_error B HB) as E. pose proof (num_fft_size B HB) as S. pose proof u_pos as Hu. pose proof eta_pos as He. pose proof num_n as Hn. change (2 ^ 53)%Z with 9007199254740992%Z in *.
  unfold ifft_error. rewrite <- num_nL. pose proof (num_uB B HB) as U.
  assert (M : u64 * fft_size u64 eta64 t64 N L B <= u64 * (IZR n * (B + 1265 * (u64 * B)) + 4194304 * eta64)) by (apply Rmult_le_compat_l; lra).
  set (fs := u64 * fft_size u64 eta64 t64 N L B) in *. set (fe := fft_error u64 eta64 t64 N L B) in *.
  assert (K : fe + 3 * fs <= IZR n * (1269 * (u64 * B) + 4194304 * eta64)).
  { assert (u64 * (u64 * B) <= 1 / 9007199254740992 * (u64 * B)) by (apply Rmult_le_compat_r; lra).
    assert (u64 * eta64 <= 1 / 9007199254740992 * eta64) by (apply Rmult_le_compat_r; lra).
    assert (IZR n * (u64 * (u64 * B)) <= IZR n * (1 / 9007199254740992 * (u64 * B))) by (apply Rmult_le_compat_l; lra).
    assert (0 <= IZR n * (u64 * B)) by (apply Rmult_le_pos; lra). assert (2 * eta64 <= IZR n * eta64) by (apply Rmult_le_compat_r; lra). lra. }
  replace (3 * u64 * fft_size u64 eta64 t64 N L B) with (3 * fs) by (unfold fs; ring).
  apply Rle_trans with (IZR n * (1269 * (u64 * B) + 4194304 * eta64) / IZR n + 2 * eta64).
  - apply Rplus_le_compat_r. unfold Rdiv. apply Rmult_le_compat_r; auto. apply Rlt_le, Rinv_0_lt_compat. lra.
  - replace (IZR n * (1269 * (u64 * B) + 4194304 * eta64) / IZR n) with (1269 * (u64 * B) + 4194304 * eta64) by (field; lra). lra.
Qed.
Lemma num_encode_error B Delta : 0 <= B -> (0 < Delta < 2 ^ 64)%Z ->
  encode_error u64 eta64 (ifft_error u64 eta64 t64 N L B) B Delta <= 2545 * (u64 * B) * IZR Delta + powerRZ 2 (-900).
Proof.
  intros HB HD. pose proof (num_ifft_error B HB) as E. pose proof (num_uB B HB) as U. pose proof (num_etaB B HB) as U2. pose proof eta_pos as He.
  assert (HD1 : 1 <= IZR Delta <= 18446744073709551616) by (split; apply IZR_le; lia). unfold encode_error.
  assert (M : IZR Delta * (2 * ifft_error u64 eta64 t64 N L B + 3 * (u64 + eta64) * B) <= IZR Delta * (2544 * (u64 * B) + 16777216 * eta64)) by (apply Rmult_le_compat_l; lra).
  assert (M2 : IZR Delta * eta64 <= 18446744073709551616 * eta64) by (apply Rmult_le_compat_r; lra).
  pose proof (eta_scaled (-900) 90 ltac:(lia) ltac:(lia)) as ES. change (2 ^ 90)%Z with 1237940039285380274899124224%Z in ES.
  assert (0 <= u64 * B * IZR Delta) by (apply Rmult_le_pos; lra). lra.
Qed.
End Num.
