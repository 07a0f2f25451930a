(** C120 in double precision, with concrete cases. *)
From Coq Require Import ZArith List Bool Lia Reals Lra Ring.
From Verif Require Import Base BaseFacts GSum Matrix MatrixFacts MatMulFacts DFT DFTTheory DFTFacts FFTFacts SpecMat Properties_Mat Properties_Msg SpecDFT SpecEnc SlotFacts
  Properties_Plain SpecLin LinTrans LinSlots Properties_DFT SupFacts EncodeFacts.
From Verif Require Import Float SpecFloat FloatFacts FloatError Binary64 FloatNum Properties_Float.
From Verif Require Import FloatDot FloatMsg SpecFloatMsg FloatMsgFacts FloatDirect Properties_FloatDFT.
Import ListNotations.
Open Scope Z_scope.

Section Double.
Context (F : fpu) (HF : double F) (LOGN : Z) (HL : 2 <= LOGN <= 17).
Let n := 2 ^ (LOGN - 1).
Let N := 2 ^ LOGN.
Let L := Z.to_nat (LOGN - 1).
Let HL27 : 2 <= LOGN <= 27.
Proof. lia. Qed.
Let R_n : (2 <= IZR n <= 65536)%R.
Proof. exact (num_n LOGN HL). Qed.
Let R_N : (IZR N = 2 * IZR n)%R.
Proof. exact (num_Nn LOGN HL). Qed.
Let R_tab : (0 <= table_error u64 eta64 t64 N <= 23 * u64)%R.
Proof. exact (num_table LOGN HL). Qed.
Let E2n : 2 * n = N.
Proof. symmetry. exact (N2 LOGN HL27). Qed.
Let Hu_n : (IZR n * u64 <= / 1024)%R.
Proof. rewrite Rmult_comm. pose proof (num_uB (IZR n) ltac:(lra)). lra. Qed.
Let Hu_N : (IZR N * u64 <= / 1024)%R.
Proof. rewrite Rmult_comm. pose proof (num_uB (IZR N) ltac:(lra)). lra. Qed.

Lemma num_dft_error X : (0 <= X)%R -> (0 <= dft_error u64 eta64 t64 N X <= u64 * ((5 * IZR N + 35) * X) + 524288 * eta64)%R.
Proof.
  intros HX. unfold dft_error. pose proof (num_uB X HX) as HU. pose proof eta_pos. pose proof u_pos.
  assert (0 <= table_error u64 eta64 t64 N * X <= 23 * u64 * X)%R by (split; [apply Rmult_le_pos; lra|apply Rmult_le_compat_r; lra]).
  assert (0 <= IZR N * (u64 * X))%R by (apply Rmult_le_pos; lra). assert (0 <= IZR N * eta64 <= 131072 * eta64)%R by (split; [apply Rmult_le_pos; lra|apply Rmult_le_compat_r; lra]). split; nra.
Qed.
Lemma small_eta X : (0 <= X)%R -> (0 <= 1000000000 * (eta64 * X) <= u64 * X)%R.
Proof.
  intros HX. pose proof eta_pos. assert (1000000000 * eta64 <= u64)%R.
  { assert (E : (1000000000 <= IZR (2 ^ 60))%R) by (apply IZR_le; vm_compute; discriminate). pose proof (eta_scaled (-1000) 60 ltac:(lia) ltac:(lia)). assert (1000000000 * eta64 <= IZR (2 ^ 60) * eta64)%R by (apply Rmult_le_compat_r; lra).
    pose proof (p2_le (-1000) (-53) ltac:(lia)). unfold u64. lra. }
  split; [apply Rmult_le_pos; [lra|apply Rmult_le_pos; lra]|]. replace (1000000000 * (eta64 * X))%R with (1000000000 * eta64 * X)%R by ring. apply Rmult_le_compat_r; lra.
Qed.
Lemma num_idft_error B : (0 <= B)%R -> (idft_error u64 eta64 t64 n (IZR n * B) <= u64 * ((9 * IZR n + 42) * B) + 4000000 * eta64)%R.
Proof.
  intros HB. unfold idft_error, dot_error. rewrite E2n. cbv zeta. pose proof (num_uB B HB) as HU. pose proof (small_eta B HB) as HE. pose proof eta_pos as He. pose proof u_pos as Hu.
  set (E := (IZR n * (8 * u64 * (IZR n * B) + 7 * eta64) + 3 / 2 * table_error u64 eta64 t64 N * (IZR n * B))%R).
  set (T := table_error u64 eta64 t64 N) in *.
  assert (HT : (0 <= T * B <= 23 * u64 * B)%R) by (split; [apply Rmult_le_pos; lra|apply Rmult_le_compat_r; lra]).
  assert (EE : E = (IZR n * (8 * IZR n * (u64 * B) + 7 * eta64 + 3 / 2 * (T * B)))%R) by (unfold E; ring).
  assert (Hn0 : (IZR n <> 0)%R) by lra.
  assert (ED : ((11 / 10 * E + 3 * u64 * (IZR n * B)) / IZR n = 11 / 10 * (8 * IZR n * (u64 * B) + 7 * eta64 + 3 / 2 * (T * B)) + 3 * (u64 * B))%R) by (rewrite EE; field; exact Hn0).
  rewrite ED. assert (Hnu : (IZR n * (u64 * B) <= 65536 * (u64 * B))%R) by (apply Rmult_le_compat_r; lra). assert (Hnu0 : (0 <= IZR n * (u64 * B))%R) by (apply Rmult_le_pos; lra).
  assert (EB : (E <= 65536 * (B + eta64 * 7))%R).
  { rewrite EE. apply Rmult_le_compat; [lra| |lra|]; [lra|]. lra. }
  assert (He1 : (eta64 <= 1)%R). { pose proof (p2_le (-1075) 0 ltac:(lia)). change (powerRZ 2 0) with 1%R in *. unfold eta64. lra. }
  assert (H2 : (2 * eta64 * (IZR n * B + E + 1) <= 2 * eta64 * (131072 * B + 458753))%R).
  { apply Rmult_le_compat_l; [lra|]. assert (IZR n * B <= 65536 * B)%R by (apply Rmult_le_compat_r; lra). lra. }
  replace (2 * eta64 * (131072 * B + 458753))%R with (262144 * (eta64 * B) + 917506 * eta64)%R in H2 by ring. lra.
Qed.
Lemma top_room X : (X <= powerRZ 2 1019)%R -> (5 * X + IZR N + 1 <= top64)%R.
Proof.
  intros HX. assert (E : (top64 = 16 * powerRZ 2 1019)%R). { unfold top64. change 1023 with (4 + 1019). rewrite p2_add. change (powerRZ 2 4) with (2 * (2 * (2 * (2 * 1))))%R. ring. }
  pose proof (p2_le 30 1019 ltac:(lia)) as Q. rewrite (powerRZ_2 30) in Q by lia. change (2 ^ 30) with 1073741824 in Q. lra.
Qed.
Lemma scale_1000 k B : 0 <= k -> (IZR 0 <= B <= powerRZ 2 1000)%R -> forall c, (0 <= c <= IZR (2 ^ k))%R -> (c * B <= powerRZ 2 (k + 1000))%R.
Proof. intros Hk HB c Hc. rewrite p2_add, powerRZ_2 by auto. apply Rmult_le_compat; lra. Qed.

Theorem C120_dft_double (m : Z -> R) X zr zi : cells n zr -> cells n zi -> (gsum (K := Rops) N (fun k => Rabs (m k)) <= X)%R -> (X <= powerRZ 2 1000)%R ->
  exists z, f_dft F N (array N m) zr zi = Ok (carray (K := Rops) n z) /\ forall j, 0 <= j < n -> (modulus (z j - slot N m j)%num <= powerRZ 2 (-53) * ((5 * IZR N + 35) * X) + powerRZ 2 (-1000))%R.
Proof.
  intros Hr Hi HX Ht. assert (HX0 : (0 <= X)%R) by (eapply Rle_trans; [|exact HX]; apply gsum_nonneg; intros; apply Rabs_pos).
  destruct (C120_dft F u64 eta64 top64 t64 HF LOGN HL27 (num_small LOGN HL) m X zr zi Hr Hi Hu_N HX) as (z & E & H).
  - apply top_room. pose proof (p2_le 1000 1019 ltac:(lia)). lra.
  - exists z. split; [exact E|]. intros j Hj. eapply Rle_trans; [exact (H j Hj)|]. pose proof (num_dft_error X HX0). pose proof (tiny 0). pose proof eta_pos. fold N. fold u64. lra.
Qed.
Theorem C120_idft_double (z : Z -> CC) (m : Z -> R) B arr : cells N arr -> (forall j, 0 <= j < n -> slot N m j = z j) ->
  (0 <= B <= powerRZ 2 1000)%R -> (forall j, 0 <= j < n -> (modulus (z j) <= B)%R) ->
  exists m', f_idft F N (fst (carray n z)) (snd (carray n z)) arr = Ok (array N m') /\ forall i, 0 <= i < N -> (Rabs (m' i - m i) <= powerRZ 2 (-53) * ((9 * IZR n + 42) * B) + powerRZ 2 (-1000))%R.
Proof.
  intros Ha Hs HB Hz. assert (Hn0 : 0 <= n) by (apply le_IZR; lra).
  assert (Q : (IZR n * B <= powerRZ 2 (16 + 1000))%R) by (apply scale_1000; [lia|lra|change (2 ^ 16) with 65536; lra]).
  destruct (C120_idft F u64 eta64 top64 t64 HF LOGN HL27 (num_small LOGN HL) z m (IZR n * B) arr Ha Hu_n Hs) as (m' & E & H).
  - apply gsum_const_le; auto.
  - fold n. pose proof (top_room (IZR n * B)). pose proof (p2_le (16 + 1000) 1019 ltac:(lia)). lra.
  - exists m'. split; [exact E|]. intros i Hi. eapply Rle_trans; [exact (H i Hi)|]. pose proof (num_idft_error B ltac:(lra)). pose proof (tiny 0). pose proof eta_pos. fold n. fold u64. lra.
Qed.
Theorem C120_idft_ifft_double st (z : Z -> CC) B arr arr2 : f_ifft_static F LOGN st -> cells N arr -> cells N arr2 ->
  (0 <= B <= powerRZ 2 1000)%R -> (forall j, 0 <= j < n -> (modulus (z j) <= B)%R) ->
  exists m1 st' m2, f_idft F N (fst (carray n z)) (snd (carray n z)) arr = Ok (array N m1) /\ f_ifft F LOGN st (fst (carray n z)) (snd (carray n z)) arr2 = Ok (st', array N m2) /\
    forall i, 0 <= i < N -> (Rabs (m1 i - m2 i) <= powerRZ 2 (-53) * ((9 * IZR n + 1400) * B) + powerRZ 2 (-1000))%R.
Proof.
  intros Hst Ha Ha2 HB Hz. assert (Q : (IZR n * B <= powerRZ 2 (16 + 1000))%R) by (apply scale_1000; [lia|lra|change (2 ^ 16) with 65536; lra]).
  destruct (C120_idft_ifft F u64 eta64 top64 t64 HF LOGN HL27 (num_small LOGN HL) st z B arr arr2 Hst Ha Ha2 Hu_n ltac:(lra) Hz) as (m1 & st' & m2 & E1 & E2 & H).
  - fold n. pose proof (top_room (IZR n * B)). pose proof (p2_le (16 + 1000) 1019 ltac:(lia)). lra.
  - apply (num_size_top LOGN HL); lra.
  - exists m1, st', m2. split; [exact E1|]. split; [exact E2|]. intros i Hi. eapply Rle_trans; [exact (H i Hi)|]. pose proof (num_idft_error B ltac:(lra)). pose proof (num_ifft_error LOGN HL B ltac:(lra)). pose proof (tiny 0). pose proof eta_pos. pose proof (num_uB B ltac:(lra)). fold n. fold u64. lra.
Qed.
Theorem C120_dft_fft_double st (m : Z -> R) A zr zi zr2 zi2 : f_fft_static F LOGN st -> cells n zr -> cells n zi -> cells n zr2 -> cells n zi2 ->
  (0 <= A <= powerRZ 2 900)%R -> (forall i, 0 <= i < N -> (Rabs (m i) <= A)%R) ->
  exists z1 st' z2, f_dft F N (array N m) zr zi = Ok (carray (K := Rops) n z1) /\ f_fft F LOGN st (array N m) zr2 zi2 = Ok (st', carray (K := Rops) n z2) /\
    forall j, 0 <= j < n -> (modulus (z1 j - z2 j)%num <= powerRZ 2 (-53) * (IZR N * (5 * IZR N + 1000) * A) + powerRZ 2 (-1000))%R.
Proof.
  intros Hst Hr Hi Hr2 Hi2 HA Hm. assert (Hn0 : 0 <= n) by (apply le_IZR; lra).
  assert (HA' : (0 <= A <= powerRZ 2 1000)%R) by (pose proof (p2_le 900 1000 ltac:(lia)); lra).
  assert (Q : (IZR N * A <= powerRZ 2 (17 + 1000))%R) by (apply scale_1000; [lia|lra|change (2 ^ 17) with 131072; lra]).
  assert (HB : (1415 / 1000 * A <= powerRZ 2 1000)%R). { change 1000 with (100 + 900) at 2. rewrite p2_add. apply Rmult_le_compat; try lra. pose proof (p2_le 1 100 ltac:(lia)) as Q1. change (powerRZ 2 1) with (2 * 1)%R in Q1. lra. }
  destruct (C120_dft_fft F u64 eta64 top64 t64 HF LOGN HL27 (num_small LOGN HL) st m (IZR N * A) (1415 / 1000 * A) zr zi zr2 zi2 Hst Hr Hi Hr2 Hi2 Hu_N) as (z1 & st' & z2 & E1 & E2 & H).
  - apply gsum_const_le; [fold N; lia|exact Hm].
  - apply top_room. pose proof (p2_le (17 + 1000) 1019 ltac:(lia)). lra.
  - lra.
  - intros l Hl. fold n in Hl |- *. apply modulus_comp; [exact (Hm l ltac:(lia))|exact (Hm (l + n) ltac:(lia))].
  - apply (num_size_top LOGN HL); lra.
  - exists z1, st', z2. split; [exact E1|]. split; [exact E2|]. intros j Hj. eapply Rle_trans; [exact (H j Hj)|]. fold N n L.
    assert (HNA : (0 <= IZR N * A)%R) by (apply Rmult_le_pos; lra). pose proof (num_dft_error (IZR N * A) HNA). pose proof (num_fft_error LOGN HL (1415 / 1000 * A) ltac:(lra)) as Q2. fold N n L in Q2. pose proof (tiny 0). pose proof eta_pos. pose proof (num_uB A ltac:(lra)). fold u64.
    assert (HU : (0 <= IZR n * (u64 * A))%R) by (apply Rmult_le_pos; lra). rewrite R_N in *. lra.
Qed.
Theorem C120_roundtrip_double (m : Z -> R) X zr zi arr : cells n zr -> cells n zi -> cells N arr ->
  (gsum (K := Rops) N (fun k => Rabs (m k)) <= X)%R -> (X <= powerRZ 2 900)%R ->
  exists z m', f_dft F N (array N m) zr zi = Ok z /\ f_idft F N (fst z) (snd z) arr = Ok (array N m') /\
    forall i, 0 <= i < N -> (Rabs (m' i - m i) <= powerRZ 2 (-53) * ((10 * IZR N + 80) * X) + powerRZ 2 (-1000))%R.
Proof.
  intros Hr Hi Ha HX Ht. assert (HX0 : (0 <= X)%R) by (eapply Rle_trans; [|exact HX]; apply gsum_nonneg; intros; apply Rabs_pos).
  pose proof (num_dft_error X HX0) as He. pose proof (num_uB X HX0) as HU. pose proof eta_pos as He0. pose proof u_pos as Hu0. pose proof (tiny 0) as Ht0.
  set (e := dft_error u64 eta64 t64 N X) in *.
  assert (HNU : (0 <= IZR N * (u64 * X) <= 131072 * (u64 * X))%R) by (split; [apply Rmult_le_pos; lra|apply Rmult_le_compat_r; lra]).
  assert (He2 : (e <= X / 1000000 + 524288 * eta64)%R) by lra.
  assert (Heta1 : (524288 * eta64 <= 1)%R). { pose proof (p2_le (-1000) 0 ltac:(lia)). change (powerRZ 2 0) with 1%R in *. lra. }
  assert (HXe : (0 <= X + e <= powerRZ 2 1000)%R). { split; [lra|]. pose proof (p2_le 0 900 ltac:(lia)) as Q0. change (powerRZ 2 0) with 1%R in Q0. assert (Q : (4 * powerRZ 2 900 <= powerRZ 2 1000)%R). { change 4%R with (IZR (2 ^ 2)). rewrite <- powerRZ_2 by lia. rewrite <- p2_add. apply p2_le. lia. } lra. }
  assert (Q : (IZR n * (X + e) <= powerRZ 2 (16 + 1000))%R) by (apply scale_1000; [lia|lra|change (2 ^ 16) with 65536; lra]).
  destruct (C120_roundtrip F u64 eta64 top64 t64 HF LOGN HL27 (num_small LOGN HL) m X zr zi arr Hr Hi Ha Hu_N HX) as (z & m' & E1 & E2 & H).
  - fold n N e. apply top_room. pose proof (p2_le (16 + 1000) 1019 ltac:(lia)). lra.
  - exists z, m'. split; [exact E1|]. split; [exact E2|]. intros i Hii. eapply Rle_trans; [exact (H i Hii)|]. fold n N e. pose proof (num_idft_error (X + e) ltac:(lra)) as Q3. fold u64.
    assert (H3 : (u64 * ((9 * IZR n + 42) * e) <= (9 * IZR n + 42) * u64 * (X / 1000000) + 600000 * u64 * (524288 * eta64))%R).
    { replace (u64 * ((9 * IZR n + 42) * e))%R with ((9 * IZR n + 42) * u64 * e)%R by ring. apply Rle_trans with ((9 * IZR n + 42) * u64 * (X / 1000000 + 524288 * eta64))%R.
      - apply Rmult_le_compat_l; [apply Rmult_le_pos; lra|lra].
      - assert ((9 * IZR n + 42) * u64 * (524288 * eta64) <= 600000 * u64 * (524288 * eta64))%R; [|lra]. apply Rmult_le_compat_r; [lra|]. apply Rmult_le_compat_r; lra. }
    assert (H4 : (600000 * u64 * (524288 * eta64) <= 524288 * eta64)%R). { rewrite <- (Rmult_1_l (524288 * eta64)) at 2. apply Rmult_le_compat_r; [lra|]. pose proof (num_uB 1 ltac:(lra)). lra. }
    rewrite R_N in *. nra.
Qed.
Theorem C120_fft_ifft_double st st2 (z : Z -> CC) B arr zr zi : f_ifft_static F LOGN st -> f_fft_static F LOGN st2 -> cells N arr -> cells n zr -> cells n zi ->
  (0 <= B <= powerRZ 2 900)%R -> (forall j, 0 <= j < n -> (modulus (z j) <= B)%R) ->
  exists st' m st2' z', f_ifft F LOGN st (fst (carray n z)) (snd (carray n z)) arr = Ok (st', m) /\ f_fft F LOGN st2 m zr zi = Ok (st2', carray (K := Rops) n z') /\
    forall j, 0 <= j < n -> (modulus (z' j - z j)%num <= powerRZ 2 (-53) * (5000 * IZR n * B) + powerRZ 2 (-1000))%R.
Proof.
  intros Hst Hst2 Ha Hr Hi HB Hz. pose proof (num_uB B ltac:(lra)) as HU. pose proof eta_pos as He0. pose proof u_pos as Hu0. pose proof (tiny 0) as Ht0.
  pose proof (num_ifft_error LOGN HL B ltac:(lra)) as He. fold N n L in He. set (e := ifft_error u64 eta64 t64 N L B) in *.
  assert (He0' : (0 <= e)%R).
  { unfold e, ifft_error. assert (P : (2 ^ L <= (2 + lambda u64 eta64 t64 N) ^ L)%R) by exact (proj1 (num_power LOGN HL)). assert (P1 : (1 <= 2 ^ L)%R) by (apply pow_R1_Rle; lra).
    assert (P2 : (0 <= fft_error u64 eta64 t64 N L B)%R) by (unfold fft_error; apply Rplus_le_le_0_compat; apply Rmult_le_pos; lra).
    assert (P3 : (0 <= fft_size u64 eta64 t64 N L B)%R) by (unfold fft_size; apply Rmult_le_pos; lra).
    apply Rplus_le_le_0_compat; [|lra]. apply Rmult_le_pos; [|left; apply Rinv_0_lt_compat; lra]. apply Rplus_le_le_0_compat; [exact P2|]. apply Rmult_le_pos; [lra|exact P3]. }
  assert (Heta1 : (8388608 * eta64 <= 1)%R). { pose proof (p2_le (-1000) 0 ltac:(lia)). change (powerRZ 2 0) with 1%R in *. lra. }
  assert (HB' : (0 <= 3 / 2 * (B + e) <= powerRZ 2 1000)%R).
  { split; [lra|]. pose proof (p2_le 0 900 ltac:(lia)) as Q0. change (powerRZ 2 0) with 1%R in Q0. assert (Q : (4 * powerRZ 2 900 <= powerRZ 2 1000)%R). { change 4%R with (IZR (2 ^ 2)). rewrite <- powerRZ_2 by lia. rewrite <- p2_add. apply p2_le. lia. } lra. }
  assert (HB0 : (0 <= B <= powerRZ 2 1000)%R) by (pose proof (p2_le 900 1000 ltac:(lia)); lra).
  destruct (C120_fft_ifft F u64 eta64 top64 t64 HF LOGN HL27 (num_small LOGN HL) st st2 z B arr zr zi Hst Hst2 Ha Hr Hi ltac:(lra) Hz) as (st' & m & st2' & z' & E1 & E2 & H).
  - apply (num_size_top LOGN HL); lra.
  - fold N L e. apply (num_size_top LOGN HL); lra.
  - exists st', m, st2', z'. split; [exact E1|]. split; [exact E2|]. intros j Hj. eapply Rle_trans; [exact (H j Hj)|]. fold N n L e.
    pose proof (num_fft_error LOGN HL (3 / 2 * (B + e)) ltac:(lra)) as Q. fold N n L in Q. fold u64.
    assert (HU2 : (0 <= IZR n * (u64 * B))%R) by (apply Rmult_le_pos; lra).
    assert (H1 : (IZR n * e <= IZR n * (1269 * (u64 * B) + 8388608 * eta64))%R) by (apply Rmult_le_compat_l; lra).
    assert (H2 : (IZR n * eta64 <= 65536 * eta64)%R) by (apply Rmult_le_compat_r; lra).
    assert (H3 : (IZR n * (u64 * e) <= IZR n * e / 1000000)%R). { replace (IZR n * e / 1000000)%R with (IZR n * (e / 1000000))%R by field. apply Rmult_le_compat_l; [lra|]. pose proof (num_uB e He0'). lra. }
    pose proof (eta_scaled (-1000) 60 ltac:(lia) ltac:(lia)) as Q4. change (2 ^ 60) with 1152921504606846976 in Q4. rewrite R_N. lra.
Qed.
End Double.

(** ** Concrete cases: N = 2^13, IEEE double precision, the constant polynomial 1, whose slots are all 1 *)
Lemma one_sum : (gsum (K := Rops) (2 ^ 13) (fun k => Rabs (one k)) <= 1)%R.
Proof.
  rewrite (gsum_single Rlawful (2 ^ 13) 0); [|lia|].
  - unfold one. cbn. rewrite Rabs_right; lra.
  - intros i Hi Hne. unfold one. destruct (Z.eqb_spec i 0); [lia|]. cbn. apply Rabs_R0.
Qed.
Lemma one_900 : (1 <= powerRZ 2 900)%R.
Proof. apply (p2_le 0 900). lia. Qed.
Example C120_example : exists z m', f_dft F64 (2 ^ 13) (array (2 ^ 13) one) (gfresh R (2 ^ 12)) (gfresh R (2 ^ 12)) = Ok z /\ f_idft F64 (2 ^ 13) (fst z) (snd z) (gfresh R (2 ^ 13)) = Ok (array (2 ^ 13) m') /\
  forall i, 0 <= i < 2 ^ 13 -> (Rabs (m' i - one i) <= powerRZ 2 (-36))%R.
Proof.
  destruct (C120_roundtrip_double F64 C87_binary64 13 ltac:(lia) one 1 (gfresh R (2 ^ 12)) (gfresh R (2 ^ 12)) (gfresh R (2 ^ 13)) ltac:(apply repeat_length) ltac:(apply repeat_length) ltac:(apply repeat_length) one_sum one_900) as (z & m' & E1 & E2 & H).
  exists z, m'. split; [exact E1|]. split; [exact E2|]. intros i Hi. eapply Rle_trans; [exact (H i Hi)|].
  apply Rle_trans with (powerRZ 2 (-53) * IZR (2 ^ 17))%R.
  - change (2 ^ 13) with 8192. change (2 ^ 17) with 131072. pose proof (p2_pos (-53)). pose proof (p2_le (-1000) (-53) ltac:(lia)). lra.
  - rewrite <- powerRZ_2 by lia. rewrite <- p2_add. apply p2_le. lia.
Qed.
Example C120_fft_ifft_example : exists st' m st2' z', f_ifft F64 13 None (fst (carray (2 ^ 12) (fun _ => real 1))) (snd (carray (2 ^ 12) (fun _ => real 1))) (gfresh R (2 ^ 13)) = Ok (st', m) /\
  f_fft F64 13 None m (gfresh R (2 ^ 12)) (gfresh R (2 ^ 12)) = Ok (st2', carray (K := Rops) (2 ^ 12) z') /\ forall j, 0 <= j < 2 ^ 12 -> (modulus (z' j - real 1)%num <= powerRZ 2 (-28))%R.
Proof.
  destruct (C120_fft_ifft_double F64 C87_binary64 13 ltac:(lia) None None (fun _ => real 1) 1 (gfresh R (2 ^ 13)) (gfresh R (2 ^ 12)) (gfresh R (2 ^ 12)) ltac:(constructor) ltac:(constructor) ltac:(apply repeat_length) ltac:(apply repeat_length) ltac:(apply repeat_length)) as (st' & m & st2' & z' & E1 & E2 & H).
  - pose proof one_900. lra.
  - intros j _. rewrite modulus_real, Rabs_right; lra.
  - exists st', m, st2', z'. split; [exact E1|]. split; [exact E2|]. intros j Hj. eapply Rle_trans; [exact (H j Hj)|].
    apply Rle_trans with (powerRZ 2 (-53) * IZR (2 ^ 25))%R.
    + change (2 ^ (13 - 1)) with 4096. change (2 ^ 25) with 33554432. pose proof (p2_pos (-53)). pose proof (p2_le (-1000) (-53) ltac:(lia)). lra.
    + rewrite <- powerRZ_2 by lia. rewrite <- p2_add. apply p2_le. lia.
Qed.
Example C120_agree_example : exists m1 st' m2, f_idft F64 (2 ^ 13) (fst (carray (2 ^ 12) (fun _ => real 1))) (snd (carray (2 ^ 12) (fun _ => real 1))) (gfresh R (2 ^ 13)) = Ok (array (2 ^ 13) m1) /\
  f_ifft F64 13 None (fst (carray (2 ^ 12) (fun _ => real 1))) (snd (carray (2 ^ 12) (fun _ => real 1))) (gfresh R (2 ^ 13)) = Ok (st', array (2 ^ 13) m2) /\ forall i, 0 <= i < 2 ^ 13 -> (Rabs (m1 i - m2 i) <= powerRZ 2 (-37))%R.
Proof.
  destruct (C120_idft_ifft_double F64 C87_binary64 13 ltac:(lia) None (fun _ => real 1) 1 (gfresh R (2 ^ 13)) (gfresh R (2 ^ 13)) ltac:(constructor) ltac:(apply repeat_length) ltac:(apply repeat_length) one_1000) as (m1 & st' & m2 & E1 & E2 & H).
  - intros j _. rewrite modulus_real, Rabs_right; lra.
  - exists m1, st', m2. split; [exact E1|]. split; [exact E2|]. intros i Hi. eapply Rle_trans; [exact (H i Hi)|].
    apply Rle_trans with (powerRZ 2 (-53) * IZR (2 ^ 16))%R.
    + change (2 ^ (13 - 1)) with 4096. change (2 ^ 16) with 65536. pose proof (p2_pos (-53)). pose proof (p2_le (-1000) (-53) ltac:(lia)). lra.
    + rewrite <- powerRZ_2 by lia. rewrite <- p2_add. apply p2_le. lia.
Qed.
