(** One comparison of end_to_end_test.cpp in double precision. *)
From Coq Require Import ZArith List Bool Lia Reals Lra Ring.
From Verif Require Import Base BaseFacts Sums ZQ ZQFacts ZQFacts2 RQ RQFacts Conv Rot Util GSum Core CoreFacts Matrix MatrixFacts MatMulFacts
  DFT DFTTheory DFTFacts FFTFacts SpecZQ SpecPoly SpecPolyFacts SpecScheme ConvFacts SpecMat Properties_Mat Properties_Msg SpecDFT Properties_DFT SpecEnc Properties_Core Properties_Rot Properties_Conv
  GroupFacts SlotFacts Encode EncodeFacts Plain BootFacts Properties_Enc Properties_Plain SpecLin LinTrans LinTransFacts LinSlots GroupSlots SpecBoot BootSlots PlainFacts SpecStat StatFacts Section3 Properties_Stat Properties_MatErr Properties_Serial
  Properties_Lin Properties_Boot Poly EvalMod SpecMod EvalModFacts PiBound EvalModBound Properties_EvalMod SpecPipe Pipeline PipeFacts Properties_Pipe Bootstrap SpecEval EvalFacts Section4 SupFacts MeasFacts Measure UtilFacts Properties_ZQ CtsMeasure CtsProps Messages SupRatio TestProg TestLayers TestLinT TestBoot TestBootP TestE2E.
From Verif Require Import Float SpecFloat FloatNum Binary64 Properties_Float SpecFloatLin FloatLin FloatSerial FloatGrouped SpecFloatBoot FloatBoot FloatBootSlots FloatBootNum Properties_FloatLin FloatMod SpecFloatMod FloatModFacts FloatModBound Properties_FloatMod.
From Verif Require Import SpecTail Tail TailFacts TailNum Properties_Tail SpecFloatPipe FloatPipeFacts FloatPipe Properties_FloatPipe FloatDot FloatMsg SpecFloatMsg Properties_FloatMsg Properties_FloatMsg2 Properties_FloatTail.
From Verif Require Import FloatSetup Properties_FloatSetup FloatTestBoot Properties_FloatTestBoot FloatTests.
From Verif Require Import FloatTestE2E.
Import ListNotations.
Open Scope Z_scope.
Add Ring RCfe2e : HR.

(** what the numbers a stage is compared with may be off *)
Definition want_off (LD : Z) : R := (powerRZ 2 (-50) * (IZR (2 ^ 64) / IZR (2 ^ LD)) + powerRZ 2 (-1000))%R.
(** what the printed number may be off, for slots of size 24 up to the error [e], in units of the scale [2^LD] *)
Definition stage_off (N LD : Z) (q e : R) : R := (powerRZ 2 (-42) * (IZR (N + 1) * (q / IZR (2 ^ LD) * (24 + e)) + IZR (2 ^ 66) / IZR (2 ^ LD) + 1))%R.
(** the same in units of q, with the error *)
Definition stage_e (N LD : Z) (q e : R) : R := (e + IZR (2 ^ LD) / q * stage_off N LD q e)%R.

Section Numbers.
Context (F : fpu) (HF : double F).
Let Hu : (0 <= u64 <= / 1024)%R := ar_u _ _ _ _ _ _ _ _ HF.
Let He : (0 <= eta64 <= / 1024)%R := ar_eta _ _ _ _ _ _ _ _ HF.
Let Hr : forall x, (Rabs x <= top64 -> Rabs (rnd F x - x) <= u64 * Rabs x + eta64)%R := ar_rnd _ _ _ _ _ _ _ _ HF.
Local Notation W64 := 18446744073709551616%R.

Lemma low64_size v : Z.abs (low64 v) < 2 ^ 64.
Proof. unfold low64. pose proof (Z.mod_pos_bound (Z.abs v) (2 ^ 64) ltac:(lia)). destruct (Z.sgn_spec v) as [[_ ->]|[[_ ->]|[_ ->]]]; lia. Qed.
Lemma low64_real v : (Rabs (IZR (low64 v)) <= W64)%R.
Proof. rewrite <- abs_IZR. apply IZR_le. pose proof (low64_size v). change (2 ^ 64) with 18446744073709551616 in *. lia. Qed.
Lemma f_zq_low Q v : 1 <= Q -> - 2 ^ (Q - 1) <= v < 2 ^ (Q - 1) ->
  exists x, f_zq_double F Q (rep Q v) = Ok x /\ (Rabs (x - IZR (low64 v)) <= u64 * W64 + eta64)%R.
Proof.
  intros HQ Hv. pose proof (zq_double_ok Q v HQ Hv) as E. unfold zq_double, zq_to_double_int in E. unfold f_zq_double.
  destruct (zq_copy Q (zq_new Q) (rep Q v)) as [val| | |]; try discriminate E. cbn [bind] in E |- *.
  destruct (zq_is_big Q val) as [b| | |]; try discriminate E. cbn [bind] in E |- *.
  destruct (if b then zq_negate Q val else Ok val) as [v2| | |]; try discriminate E. cbn [bind] in E |- *.
  destruct (rd v2 0) as [w| | |]; try discriminate E. cbn [bind] in E |- *. cbv zeta. injection E as E. eexists. split; [reflexivity|].
  pose proof (low64_real v) as L. assert (T : (W64 <= top64)%R) by (apply (top64_big 64); lia). rewrite <- E in L |- *.
  assert (L' : (Rabs (IZR w) <= W64)%R) by (destruct b; [rewrite opp_IZR, Rabs_Ropp in L|]; exact L).
  replace (Rabs ((if b then (- rnd F (IZR w))%R else rnd F (IZR w)) - IZR (if b then - w else w))) with (Rabs (rnd F (IZR w) - IZR w)).
  2:{ destruct b; [|reflexivity]. rewrite opp_IZR, <- Rabs_Ropp. f_equal. ring. }
  eapply Rle_trans; [apply Hr; lra|]. apply Rplus_le_compat_r, Rmult_le_compat_l; lra.
Qed.
Lemma f_quot x a X b LD : 0 <= LD <= 60 -> (Rabs (x - a) <= b)%R -> (Rabs a <= X)%R -> (X + b <= IZR (2 ^ 100))%R -> 
  exists y, f_div F x (rnd F (IZR (2 ^ LD))) = Ok y /\ (Rabs (y - a / IZR (2 ^ LD)) <= (b + u64 * (X + b)) / IZR (2 ^ LD) + eta64)%R.
Proof.
  intros HLD Hx Ha Hb. assert (D1 : 1 <= 2 ^ LD <= 2 ^ 60) by (split; [pose proof (Z.pow_pos_nonneg 2 LD); lia|apply Z.pow_le_mono_r; lia]).
  assert (T : (IZR (2 ^ 100) <= top64)%R) by (apply top64_big; lia). change (2 ^ 100) with 1267650600228229401496703205376 in *. change (2 ^ 60) with 1152921504606846976 in D1.
  assert (ED : rnd F (IZR (2 ^ LD)) = IZR (2 ^ LD)).
  { pose proof (ar_exact _ _ _ _ _ _ _ _ HF 1 LD ltac:(lia) ltac:(lia)) as E. rewrite !Rmult_1_l in E. apply E. rewrite Rabs_right by (apply Rle_ge, IZR_le; lia). apply Rle_trans with (IZR 1152921504606846976); [apply IZR_le; lia|lra]. }
  rewrite ED. assert (DR : (1 <= IZR (2 ^ LD))%R) by (apply IZR_le; lia). set (D := IZR (2 ^ LD)) in *. unfold f_div. destruct (Req_EM_T D 0); [lra|]. eexists. split; [reflexivity|].
  assert (ID : (0 < / D <= 1)%R). { split; [apply Rinv_0_lt_compat; lra|]. rewrite <- Rinv_1. apply Rinv_le_contravar; lra. }
  assert (XB : (Rabs x <= X + b)%R). { replace x with (a + (x - a))%R by ring. eapply Rle_trans; [apply Rabs_triang|]. lra. }
  assert (P : (0 <= X + b)%R) by (eapply Rle_trans; [apply Rabs_pos|exact XB]).
  assert (E1 : (Rabs (x / D) <= (X + b) / D)%R) by (unfold Rdiv; rewrite Rabs_mult, (Rabs_right (/ D)) by lra; apply Rmult_le_compat_r; lra).
  assert (E2 : ((X + b) / D <= X + b)%R) by (unfold Rdiv; rewrite <- (Rmult_1_r (X + b)) at 2; apply Rmult_le_compat_l; lra).
  pose proof (rd_err u64 eta64 top64 (rnd F) Hu Hr _ _ E1 ltac:(lra)) as E3.
  assert (E4 : (Rabs (x / D - a / D) <= b / D)%R). { replace (x / D - a / D)%R with ((x - a) * / D)%R by (field; lra). rewrite Rabs_mult, (Rabs_right (/ D)) by lra. apply Rmult_le_compat_r; lra. }
  replace (rnd F (x / D) - a / D)%R with ((rnd F (x / D) - x / D) + (x / D - a / D))%R by ring. eapply Rle_trans; [apply Rabs_triang|].
  replace ((b + u64 * (X + b)) / D + eta64)%R with (u64 * ((X + b) / D) + eta64 + b / D)%R by (field; lra). lra.
Qed.
Lemma p50_8 : powerRZ 2 (-50) = (8 * u64)%R. Proof. rewrite p50. ring. Qed.
Lemma small_off LD b c : 0 <= LD <= 60 -> (b <= c * (u64 * W64) + 10 * eta64)%R -> (c <= 8)%R -> (b / IZR (2 ^ LD) + eta64 <= want_off LD)%R.
Proof.
  intros HLD Hb Hc. unfold want_off. rewrite p50_8. assert (D1 : 1 <= 2 ^ LD) by (pose proof (Z.pow_pos_nonneg 2 LD); lia). assert (DR : (1 <= IZR (2 ^ LD))%R) by (apply IZR_le; lia). set (D := IZR (2 ^ LD)) in *.
  assert (ID : (0 < / D <= 1)%R). { split; [apply Rinv_0_lt_compat; lra|]. rewrite <- Rinv_1. apply Rinv_le_contravar; lra. }
  change (IZR (2 ^ 64)) with W64. pose proof u_pos. pose proof eta_pos. assert (UW : (0 <= u64 * W64)%R) by (apply Rmult_le_pos; lra).
  assert (B2 : (b <= 8 * (u64 * W64) + 10 * eta64)%R) by (assert (c * (u64 * W64) <= 8 * (u64 * W64))%R by (apply Rmult_le_compat_r; lra); lra).
  assert (B3 : (b / D <= (8 * (u64 * W64) + 10 * eta64) / D)%R) by (apply Rmult_le_compat_r; lra).
  assert (B4 : (10 * eta64 * / D <= 10 * eta64 * 1)%R) by (apply Rmult_le_compat_l; lra).
  replace ((8 * (u64 * W64) + 10 * eta64) / D)%R with (8 * u64 * (W64 / D) + 10 * eta64 * / D)%R in B3 by (field; lra). pose proof (tiny 0). lra.
Qed.
Lemma f_coeff_off Q LD v : 1 <= Q -> 0 <= LD <= 60 -> - 2 ^ (Q - 1) <= v < 2 ^ (Q - 1) ->
  exists y, f_coeff_double F Q LD (rep Q v) = Ok y /\ (Rabs (y - IZR (low64 v) / IZR (2 ^ LD)) <= want_off LD)%R.
Proof.
  intros HQ HLD Hv. unfold f_coeff_double. destruct (f_zq_low Q v HQ Hv) as (x & E & Hx). rewrite E. cbn [bind]. pose proof u_small as US. pose proof (eta_u 10 ltac:(lia) ltac:(lia)) as Heu. change (2 ^ 10) with 1024 in Heu.
  destruct (f_quot x _ _ _ LD HLD Hx (low64_real v)) as (y & E2 & Hy). { change (2 ^ 100) with 1267650600228229401496703205376. lra. }
  exists y. split; [exact E2|]. eapply Rle_trans; [exact Hy|]. apply (small_off LD _ 3 HLD); [|lra]. pose proof eta_pos.
  assert (u64 * (u64 * W64) <= / 1024 * (u64 * W64))%R by (apply Rmult_le_compat_r; lra). assert (u64 * eta64 <= / 1024 * eta64)%R by (apply Rmult_le_compat_r; lra). lra.
Qed.
Lemma f_diff_off Q Q' LD v v' : 1 <= Q -> 1 <= Q' -> 0 <= LD <= 60 -> - 2 ^ (Q - 1) <= v < 2 ^ (Q - 1) -> - 2 ^ (Q' - 1) <= v' < 2 ^ (Q' - 1) ->
  exists y, (x <- f_zq_double F Q (rep Q v) ;; w <- f_zq_double F Q' (rep Q' v') ;; f_div F (rnd F (x - w)) (rnd F (IZR (2 ^ LD)))) = Ok y /\
    (Rabs (y - (IZR (low64 v) - IZR (low64 v')) / IZR (2 ^ LD)) <= want_off LD)%R.
Proof.
  intros HQ HQ' HLD Hv Hv'. destruct (f_zq_low Q v HQ Hv) as (x & E & Hx). destruct (f_zq_low Q' v' HQ' Hv') as (w & E' & Hw). rewrite E, E'. cbn [bind]. pose proof u_small as US. pose proof (eta_u 10 ltac:(lia) ltac:(lia)) as Heu. change (2 ^ 10) with 1024 in Heu. pose proof eta_pos.
  pose proof (low64_real v) as L. pose proof (low64_real v') as L'. set (a := IZR (low64 v)) in *. set (a' := IZR (low64 v')) in *. assert (T : (IZR (2 ^ 100) <= top64)%R) by (apply top64_big; lia). change (2 ^ 100) with 1267650600228229401496703205376 in T.
  assert (A : (Rabs (a - a') <= 2 * W64)%R). { apply abs_inv in L, L'. apply Rabs_le. lra. }
  assert (D : (Rabs (x - w - (a - a')) <= 2 * (u64 * W64 + eta64))%R). { apply abs_inv in Hx, Hw. apply Rabs_le. lra. }
  assert (XW : (Rabs (x - w) <= 2 * W64 + 2 * (u64 * W64 + eta64))%R). { apply abs_inv in A, D. apply Rabs_le. lra. }
  pose proof (rd_err u64 eta64 top64 (rnd F) Hu Hr _ _ XW ltac:(lra)) as E3.
  assert (U1 : (u64 * (u64 * W64) <= / 1024 * (u64 * W64))%R) by (apply Rmult_le_compat_r; lra). assert (U2 : (u64 * eta64 <= / 1024 * eta64)%R) by (apply Rmult_le_compat_r; lra).
  assert (D2 : (Rabs (rnd F (x - w) - (a - a')) <= 5 * (u64 * W64) + 5 * eta64)%R). { apply abs_inv in D, E3. apply Rabs_le. lra. }
  destruct (f_quot _ _ _ _ LD HLD D2 A) as (y & E2 & Hy). { change (2 ^ 100) with 1267650600228229401496703205376. lra. }
  exists y. split; [exact E2|]. eapply Rle_trans; [exact Hy|]. apply (small_off LD _ 8 HLD); [|lra]. lra.
Qed.

(** the difference of two messages and its sup norm *)
Lemma f_side n (z' y : Z -> CC) (v' v : Z -> R) p Y V dz dv : keeps_sign (rnd F) -> 0 <= n -> carray_of (K := Rops) n p ->
  (forall j, 0 <= j < n -> (modulus (z' j - y j)%num <= dz)%R /\ (Rabs (v' j - v j) <= dv)%R /\ (modulus (y j) <= Y)%R /\ (Rabs (v j) <= V)%R) -> (0 <= Y)%R -> (0 <= V)%R -> (0 <= dz)%R -> (0 <= dv)%R -> (Y + V + dz + dv <= powerRZ 2 400)%R ->
  let off := (dz + dv + powerRZ 2 (-48) * (Y + V + dz + dv + 1))%R in
  exists d m, msg_sub (K := Fops F) n (carray n z') (carray n (fun j => real (v' j))) p = Ok (carray (K := Rops) n d) /\ f_sup_norm F n (carray (K := Rops) n d) = Ok m /\
    (forall j, 0 <= j < n -> (modulus (y j - real (v j))%num <= m + off)%R) /\
    (forall b, (0 <= b)%R -> (forall j, 0 <= j < n -> (modulus (y j - real (v j))%num <= b)%R) -> (m <= b + off)%R).
Proof.
  intros Hk Hn Hp H HY HV Hdz Hdv HX off. set (X := (Y + V + dz + dv)%R) in *.
  assert (P400 : (powerRZ 2 400 <= top64)%R) by (apply Rle_trans with (IZR (2 ^ 400)); [rewrite powerRZ_2 by lia; lra|apply top64_big; lia]).
  assert (near : forall j, 0 <= j < n -> (modulus ((z' j - real (v' j)) - (y j - real (v j)))%num <= dz + dv)%R /\ (modulus (z' j - real (v' j))%num <= X)%R).
  { intros j Hj. destruct (H j Hj) as (H1 & H2 & H3 & H4).
    assert (A : (modulus ((z' j - real (v' j)) - (y j - real (v j)))%num <= dz + dv)%R).
    { replace ((z' j - real (v' j)) - (y j - real (v j)))%num with ((z' j - y j) - real (v' j - v j))%num by (rewrite <- real_minus; ring). eapply Rle_trans; [apply modulus_sub|]. rewrite modulus_real. lra. }
    split; [exact A|]. eapply Rle_trans; [apply (modulus_near _ (y j - real (v j))%num)|]. pose proof (modulus_sub (y j) (real (v j))) as T. rewrite modulus_real in T. unfold X. unfold RC in *. lra. }
  destruct (C118_sub F u64 eta64 top64 t64 HF n z' (fun j => real (v' j)) p Hn Hp) as (d & E1 & Hd). { intros j Hj. destruct (near j Hj) as [_ B]. lra. }
  destruct (C94_sup_norm n d Hn) as (M & _ & LM).
  assert (UX : (0 <= u64 * X)%R) by (apply Rmult_le_pos; [pose proof u_pos; lra|unfold X; lra]).
  assert (dn : forall j, 0 <= j < n -> (modulus (d j - (z' j - real (v' j)))%num <= 3 / 2 * (u64 * X + eta64))%R).
  { intros j Hj. destruct (near j Hj) as [_ B]. eapply Rle_trans; [apply (Hd j Hj)|]. assert (u64 * modulus (z' j - real (v' j))%num <= u64 * X)%R by (apply Rmult_le_compat_l; [pose proof u_pos; lra|exact B]). lra. }
  assert (near2 : forall j, 0 <= j < n -> (modulus (d j - (y j - real (v j)))%num <= dz + dv + 3 / 2 * (u64 * X + eta64))%R).
  { intros j Hj. destruct (near j Hj) as [A _]. specialize (dn j Hj). replace (d j - (y j - real (v j)))%num with ((d j - (z' j - real (v' j))) + ((z' j - real (v' j)) - (y j - real (v j))))%num by ring. eapply Rle_trans; [apply modulus_add|]. unfold RC in *. lra. }
  pose proof u_small as US. pose proof eta_pos as EP. pose proof (eta_u 10 ltac:(lia) ltac:(lia)) as Heu. change (2 ^ 10) with 1024 in Heu.
  assert (U1 : (u64 * X <= / 1024 * X)%R) by (apply Rmult_le_compat_r; [unfold X; lra|lra]).
  assert (MB : (0 <= M <= 2 * X + 1)%R).
  { split; [apply LM|]. destruct LM as (_ & _ & [->|(j & Hj & ->)]); [unfold X; lra|]. eapply Rle_trans; [apply (modulus_near _ (z' j - real (v' j))%num)|]. specialize (dn j Hj). destruct (near j Hj) as [_ B]. unfold RC in *. lra. }
  assert (P401 : (2 * powerRZ 2 400 + 1 <= powerRZ 2 500)%R). { pose proof (p2_le 402 500 ltac:(lia)) as T. change 402 with (2 + 400) in T. rewrite p2_add in T. change (powerRZ 2 2) with (2 * (2 * 1))%R in T. pose proof (p2_le 0 400 ltac:(lia)) as T2. change (powerRZ 2 0) with 1%R in T2. lra. }
  destruct (C118_sup_norm_double F HF n d M Hk Hn LM ltac:(lra)) as (m & E2 & Hm).
  exists d, m. split; [exact E1|]. split; [exact E2|].
  assert (P48 : powerRZ 2 (-48) = (32 * u64)%R). { change (-48) with (2 + -50). rewrite p2_add, p50. change (powerRZ 2 2) with (2 * (2 * 1))%R. ring. }
  assert (MM : (powerRZ 2 (-50) * M <= 8 * u64 * (2 * X + 1))%R) by (rewrite p50_8; apply Rmult_le_compat_l; lra).
  pose proof (tiny 0) as TN.
  assert (P500 : (powerRZ 2 (-500) <= u64)%R) by (unfold u64; apply p2_le; lia).
  assert (OFF : (dz + dv + 3 / 2 * (u64 * X + eta64) + (powerRZ 2 (-50) * M + powerRZ 2 (-500)) <= off)%R). { unfold off. fold X. rewrite P48. lra. }
  apply abs_inv in Hm. split.
  - intros j Hj. destruct LM as (_ & LB & _). specialize (LB j Hj). cbv beta in LB. specialize (near2 j Hj).
    replace (y j - real (v j))%num with (d j - (d j - (y j - real (v j))))%num by ring. eapply Rle_trans; [apply modulus_sub|]. unfold RC in *. lra.
  - intros b Hb Hall. destruct LM as (_ & _ & [E0|(j & Hj & E0)]); [lra|]. assert (M <= b + (dz + dv + 3 / 2 * (u64 * X + eta64)))%R; [|lra]. rewrite E0.
    eapply Rle_trans; [apply (modulus_near _ (y j - real (v j))%num)|]. specialize (near2 j Hj). specialize (Hall j Hj). unfold RC in *. lra.
Qed.
End Numbers.

Section Stage.
Context (F : fpu) (HF : double F) (Hk : keeps_sign (rnd F)).
Context (LOGN LD Q : Z) (q : R) (HL : 2 <= LOGN <= 17) (HLD : 0 <= LD <= 60) (HQ : 1 <= Q <= 2048) (Hq : (0 < q <= IZR (2 ^ 61))%R).
Local Notation N := (2 ^ LOGN).
Local Notation n := (2 ^ (LOGN - 1)).
Local Notation Delta := (IZR (2 ^ LD)).
Local Notation zeros := (fst (carray (K := Rops) n (fun _ => (0%num : CC)))).

Lemma f_stage_ok st2 s c0 c1 wanted (a0 a1 : Z -> R) (v' v : Z -> Z -> R) e : f_fft_static F LOGN st2 -> ternary N s ->
  carries Q N (coef s) c0 q (fun j => real (a0 j)) e -> carries Q N (coef s) c1 q (fun j => real (a1 j)) e ->
  (forall j, 0 <= j < n -> (Rabs (a0 j) <= 24)%R /\ (Rabs (a1 j) <= 24)%R) -> (e <= 1)%R -> (q * (24 + e) < IZR (2 ^ (Q - 1)))%R ->
  (forall off, off = 0 \/ off = n -> wanted off zeros = Ok (gtab n (v' off)) /\ forall j, 0 <= j < n -> (Rabs (v' off j - v off j) <= want_off LD)%R /\ (Rabs (v off j) <= IZR (2 ^ 65) / Delta)%R) ->
  exists st2' S, f_stage_error F LOGN LD Q st2 (c0, c1) (map Some s) wanted = Ok (st2', S) /\ f_fft_static F LOGN st2' /\
    (forall j, 0 <= j < n -> (Rabs (q * a0 j - Delta * v 0%Z j) <= Delta * S + q * stage_e N LD q e)%R /\ (Rabs (q * a1 j - Delta * v n j) <= Delta * S + q * stage_e N LD q e)%R) /\
    (forall d, (forall j, 0 <= j < n -> (Rabs (q * a0 j - Delta * v 0%Z j) <= d)%R /\ (Rabs (q * a1 j - Delta * v n j) <= d)%R) -> (Delta * S <= d + q * stage_e N LD q e)%R).
Proof.
  intros Hst2 Hs (w0 & D0 & S0) (w1 & D1 & S1) HA He1 Hsz Hwant. pose proof (N2 LOGN ltac:(lia)) as HN2. pose proof (n_pos LOGN ltac:(lia)) as Hn.
  assert (Dz : 1 <= 2 ^ LD) by (pose proof (Z.pow_pos_nonneg 2 LD); lia). assert (Dp : (1 <= Delta)%R) by (apply IZR_le; lia).
  assert (ID : (0 < / Delta <= 1)%R). { split; [apply Rinv_0_lt_compat; lra|]. rewrite <- Rinv_1. apply Rinv_le_contravar; lra. }
  assert (En : N / 2 = n) by (rewrite HN2, Z.mul_comm; apply Z.div_mul; lia). rewrite En in S0, S1.
  assert (Eq : Z.quot N 2 = n) by (apply half_quot; lia).
  assert (E0 : (0 <= e)%R) by (eapply Rle_trans; [apply modulus_nonneg|apply (S0 0 ltac:(lia))]).
  assert (SL : forall w a, (forall j, 0 <= j < n -> (modulus (slots N q w j - real (a j))%num <= e)%R) -> (forall j, 0 <= j < n -> (Rabs (a j) <= 24)%R) -> forall j, 0 <= j < n -> (modulus (slots N q w j) <= 24 + e)%R).
  { intros w a H1 H2 j Hj. eapply Rle_trans; [apply (modulus_near _ (real (a j)))|]. rewrite modulus_real. apply Rplus_le_compat; auto. }
  pose proof (SL w0 a0 S0 (fun j Hj => proj1 (HA j Hj))) as SL0. pose proof (SL w1 a1 S1 (fun j Hj => proj2 (HA j Hj))) as SL1.
  set (A := (q / Delta * (24 + e))%R). 
  assert (QD : (0 < q / Delta <= IZR (2 ^ 61))%R). { unfold Rdiv. split; [apply Rmult_lt_0_compat; lra|]. rewrite <- (Rmult_1_r (IZR (2 ^ 61))). apply Rmult_le_compat; lra. } change (2 ^ 61) with 2305843009213693952 in QD, Hq.
  assert (HA' : (0 <= A <= 64563604257983430656)%R). { unfold A. split; [apply Rmult_le_pos; lra|]. replace 64563604257983430656%R with (2305843009213693952 * 28)%R by lra. apply Rmult_le_compat; lra. }
  assert (T900 : (64563604257983430656 <= powerRZ 2 900)%R). { apply Rle_trans with (powerRZ 2 66); [rewrite (powerRZ_2 66) by lia; apply IZR_le; discriminate|apply p2_le; lia]. }
  assert (CB : forall w, (forall j, 0 <= j < n -> (modulus (slots N q w j) <= 24 + e)%R) -> (forall i, 0 <= i < N -> - 2 ^ (Q - 1) <= w i < 2 ^ (Q - 1)) /\ forall i, 0 <= i < N -> (Rabs (IZR (w i) / powerRZ 2 LD) <= A)%R).
  { intros w H1. split; [apply (signed_slots Q LOGN w q (24 + e)); auto; try lia; try lra|]. intros i Hi. pose proof (coef_slots_Z LOGN w q (24 + e) ltac:(lia) ltac:(lra) H1 i Hi) as T. rewrite powerRZ_2 by lia.
    unfold Rdiv. rewrite Rabs_mult, (Rabs_right (/ Delta)) by lra. unfold A. replace (q / Delta * (24 + e))%R with (q * (24 + e) * / Delta)%R by (field; lra). apply Rmult_le_compat_r; lra. }
  destruct (CB w0 SL0) as [B0 A0]. destruct (CB w1 SL1) as [B1 A1].
  assert (ON : objectP Q N (rq_new Q N)) by (apply objP_object; try lia; apply objP_new).
  destruct (C35_dec Q N c0 s w0 (rq_new Q N) ltac:(lia) ltac:(lia) Hs ON D0) as (pt0 & F0 & P0).
  destruct (C35_dec Q N c1 s w1 (rq_new Q N) ltac:(lia) ltac:(lia) Hs ON D1) as (pt1 & F1 & P1).
  destruct (carray_of_carray n (fun _ => 0%num)) as [Ca Cb].
  destruct (C85_decode_log_double F HF Q LOGN ltac:(lia) ltac:(lia) LD st2 pt0 w0 A _ _ ltac:(change (2 ^ 30) with 1073741824; lia) Hst2 Ca Cb (conj P0 B0) A0 ltac:(lra)) as (st2a & z0 & G0 & Hst2a & Z0).
  destruct (C85_decode_log_double F HF Q LOGN ltac:(lia) ltac:(lia) LD st2a pt1 w1 A _ _ ltac:(change (2 ^ 30) with 1073741824; lia) Hst2a Ca Cb (conj P1 B1) A1 ltac:(lra)) as (st2b & z1 & G1 & Hst2b & Z1).
  set (dz := (powerRZ 2 (-42) * (IZR N * A) + powerRZ 2 (-1000))%R) in *.
  rewrite powerRZ_2 in Z0, Z1 by lia. set (y0 := slots N Delta w0) in *. set (y1 := slots N Delta w1) in *.
  assert (YB : forall w, (forall j, 0 <= j < n -> (modulus (slots N q w j) <= 24 + e)%R) -> forall j, 0 <= j < n -> (modulus (slots N Delta w j) <= A)%R).
  { intros w H1 j Hj. rewrite (scale_slots N q Delta) by lra. rewrite modulus_mul, modulus_real, (Rabs_right (q / Delta)) by lra. unfold A. apply Rmult_le_compat_l; [lra|auto]. }
  destruct (Hwant 0 (or_introl eq_refl)) as [W0 V0]. destruct (Hwant n (or_intror eq_refl)) as [W1 V1].
  assert (NR : (1 <= IZR N <= 131072)%R). { split; apply IZR_le; [pose proof (Z.pow_pos_nonneg 2 LOGN); lia|]. change 131072 with (2 ^ 17). apply Z.pow_le_mono_r; lia. }
  assert (NA : (0 <= IZR N * A <= 131072 * 64563604257983430656)%R) by (split; [apply Rmult_le_pos; lra|apply Rmult_le_compat; lra]).
  pose proof (p2_pos (-42)) as Q42. pose proof (p2_pos (-1000)) as Q1000. pose proof (p2_pos (-50)) as Q50.
  assert (L42 : (powerRZ 2 (-42) <= 1)%R) by (apply (p2_le (-42) 0); lia). assert (L1000 : (powerRZ 2 (-1000) <= 1)%R) by (apply (p2_le (-1000) 0); lia). assert (L50 : (powerRZ 2 (-50) <= 1)%R) by (apply (p2_le (-50) 0); lia).
  assert (HDZ : (0 <= dz <= 131072 * 64563604257983430656 + 1)%R). { unfold dz. assert (0 <= powerRZ 2 (-42) * (IZR N * A) <= 1 * (131072 * 64563604257983430656))%R by (split; [apply Rmult_le_pos; lra|apply Rmult_le_compat; lra]). lra. }
  assert (H6 : (0 <= IZR (2 ^ 64) / Delta <= 18446744073709551616)%R). { unfold Rdiv. change (IZR (2 ^ 64)) with 18446744073709551616%R. split; [apply Rmult_le_pos; lra|]. rewrite <- (Rmult_1_r 18446744073709551616) at 2. apply Rmult_le_compat_l; lra. }
  assert (H65 : (IZR (2 ^ 65) / Delta = 2 * (IZR (2 ^ 64) / Delta))%R) by (change (IZR (2 ^ 65)) with (IZR (2 * 2 ^ 64)); rewrite mult_IZR; field; lra).
  assert (H66 : (IZR (2 ^ 66) / Delta = 4 * (IZR (2 ^ 64) / Delta))%R) by (change (IZR (2 ^ 66)) with (IZR (4 * 2 ^ 64)); rewrite mult_IZR; field; lra).
  set (V := (IZR (2 ^ 64) / Delta)%R) in *.
  assert (HW : (0 <= want_off LD <= 18446744073709551617)%R). { unfold want_off. fold V. assert (0 <= powerRZ 2 (-50) * V <= 1 * 18446744073709551616)%R by (split; [apply Rmult_le_pos; lra|apply Rmult_le_compat; lra]). lra. }
  assert (SZ : (A + 2 * V + dz + want_off LD <= powerRZ 2 400)%R). { apply Rle_trans with (powerRZ 2 100); [rewrite (powerRZ_2 100) by lia; change (2 ^ 100) with 1267650600228229401496703205376; lra|apply p2_le; lia]. }
  destruct (f_side F HF n z0 y0 (v' 0) (v 0) (carray (K := Rops) n (fun _ => 0%num)) A (2 * V) dz (want_off LD) Hk ltac:(lia) ltac:(apply carray_of_carray)) as (d0 & m0 & X0 & M0 & LB0 & UB0); try lra.
  { intros j Hj. destruct (V0 j Hj) as [v1 v2]. split; [apply (Z0 j Hj)|]. split; [exact v1|]. split; [apply (YB w0 SL0 j Hj)|]. lra. }
  destruct (f_side F HF n z1 y1 (v' n) (v n) (carray (K := Rops) n (fun _ => 0%num)) A (2 * V) dz (want_off LD) Hk ltac:(lia) ltac:(apply carray_of_carray)) as (d1 & m1 & X1 & M1 & LB1 & UB1); try lra.
  { intros j Hj. destruct (V1 j Hj) as [v1 v2]. split; [apply (Z1 j Hj)|]. split; [exact v1|]. split; [apply (YB w1 SL1 j Hj)|]. lra. }
  exists st2b, (if Rlt_dec m0 m1 then m1 else m0). split.
  { unfold f_stage_error. cbv zeta. rewrite Eq. rewrite !(C68_new (K := Rops)) by lia. cbn [bind fst snd]. rewrite F0. cbn [bind].
    match goal with |- context [f_decode_log F Q LOGN st2 ?a ?b ?c ?d] => replace (f_decode_log F Q LOGN st2 a b c d) with (Ok (st2a, carray (K := Rops) n z0)) by (symmetry; exact G0) end. cbn [bind]. rewrite F1. cbn [bind].
    match goal with |- context [f_decode_log F Q LOGN st2a ?a ?b ?c ?d] => replace (f_decode_log F Q LOGN st2a a b c d) with (Ok (st2b, carray (K := Rops) n z1)) by (symmetry; exact G1) end. cbn [bind].
    match goal with |- context [wanted 0 ?a] => replace (wanted 0 a) with (Ok (gtab n (v' 0))) by (symmetry; exact W0) end. cbn [bind].
    match goal with |- context [wanted n ?a] => replace (wanted n a) with (Ok (gtab n (v' n))) by (symmetry; exact W1) end. cbn [bind].
    assert (Zi : snd (carray (K := Rops) n (fun _ => (0%num : CC))) = gtab n (fun _ => 0%R)) by (rewrite carray_cvtab; reflexivity).
    assert (XX : forall off, (gtab n (v' off), snd (carray (K := Rops) n (fun _ => (0%num : CC)))) = carray (K := Rops) n (fun j => real (v' off j))) by (intros off; rewrite Zi, carray_cvtab; reflexivity).
    rewrite !XX.
    match goal with |- context [msg_sub n (carray n z0) ?b ?c] => replace (msg_sub (K := Fops F) n (carray n z0) b c) with (Ok (carray (K := Rops) n d0)) by (symmetry; exact X0) end. cbn [bind].
    match goal with |- context [msg_sub n (carray n z1) ?b ?c] => replace (msg_sub (K := Fops F) n (carray n z1) b c) with (Ok (carray (K := Rops) n d1)) by (symmetry; exact X1) end. cbn [bind].
    rewrite M0. cbn [bind]. rewrite M1. reflexivity. }
  split; [exact Hst2b|].
  set (S := if Rlt_dec m0 m1 then m1 else m0). assert (HS0 : (m0 <= S)%R) by (unfold S; destruct Rlt_dec; lra). assert (HS1 : (m1 <= S)%R) by (unfold S; destruct Rlt_dec; lra).
  set (off0 := (dz + want_off LD + powerRZ 2 (-48) * (A + 2 * V + dz + want_off LD + 1))%R) in *.
  assert (OFF : (off0 <= stage_off N LD q e)%R).
  { unfold stage_off. fold A. rewrite H66, plus_IZR. unfold off0. pose proof (p2_pos (-48)) as Q48. assert (R50 : (powerRZ 2 (-50) = powerRZ 2 (-42) / 256)%R). { change (-42) with (8 + -50). rewrite p2_add. change (powerRZ 2 8) with (2 ^ 8)%R. cbn [pow]. field. }
    assert (R48 : (powerRZ 2 (-48) = powerRZ 2 (-42) / 64)%R). { change (-42) with (6 + -48). rewrite p2_add. change (powerRZ 2 6) with (2 ^ 6)%R. cbn [pow]. field. }
    assert (R1000 : (powerRZ 2 (-1000) <= powerRZ 2 (-42) / 1024)%R). { apply Rle_trans with (powerRZ 2 (-52)); [apply p2_le; lia|]. apply Req_le. change (-42) with (10 + -52). rewrite p2_add. change (powerRZ 2 10) with (2 ^ 10)%R. cbn [pow]. field. }
    unfold want_off, dz. fold V. rewrite R48, R50. set (g := powerRZ 2 (-42)) in *. assert (G1' : (g <= / 1024)%R). { unfold g. replace (/ 1024)%R with (powerRZ 2 (-10)) by (change (powerRZ 2 (-10)) with (/ 2 ^ 10)%R; cbn [pow]; lra). apply p2_le. lia. }
    assert (gV : (0 <= g * V)%R) by (apply Rmult_le_pos; lra). assert (gA : (0 <= g * A)%R) by (apply Rmult_le_pos; lra). assert (gN : (0 <= g * (IZR N * A))%R) by (apply Rmult_le_pos; lra).
    assert (gNA : (g * (IZR N * A) <= g * (131072 * A))%R) by (apply Rmult_le_compat_l; [lra|apply Rmult_le_compat_r; lra]).
    assert (ggN : (g * (g * (IZR N * A)) <= g * (g * (131072 * A)))%R) by (apply Rmult_le_compat_l; lra).
    assert (ggV : (g * (g * V) <= / 1024 * (g * V))%R) by (apply Rmult_le_compat_r; lra).
    assert (gg1 : (g * powerRZ 2 (-1000) <= / 1024 * (g / 1024))%R) by (apply Rmult_le_compat; lra).
    assert (g2 : (g * (g * (131072 * A)) <= / 4194304 * (g * (131072 * A)))%R). { apply Rmult_le_compat_r; [lra|]. unfold g. replace (/ 4194304)%R with (powerRZ 2 (-22)) by (change (powerRZ 2 (-22)) with (/ 2 ^ 22)%R; cbn [pow]; lra). apply p2_le. lia. }
    lra. }
  assert (QE : (q * stage_e N LD q e = q * e + Delta * stage_off N LD q e)%R) by (unfold stage_e; field; lra). rewrite QE.
  assert (DO : (Delta * off0 <= Delta * stage_off N LD q e)%R) by (apply Rmult_le_compat_l; lra).
  assert (key : forall w a j x, (modulus (slots N q w j - real (a j))%num <= e)%R ->
      (Rabs (q * a j - Delta * x) <= Delta * modulus (slots N Delta w j - real x)%num + q * e)%R /\ (Delta * modulus (slots N Delta w j - real x)%num <= Rabs (q * a j - Delta * x) + q * e)%R).
  { intros w a j x He. rewrite (scale_slots N q Delta) by lra. set (u := slots N q w j) in *.
    assert (E1 : (Delta * modulus (real (q / Delta) * u - real x)%num = modulus (real q * u - real (Delta * x))%num)%R).
    { replace (real q * u - real (Delta * x))%num with (real Delta * (real (q / Delta) * u - real x))%num. { rewrite modulus_mul, modulus_real, (Rabs_right Delta) by lra. reflexivity. }
      destruct u as [u1 u2]. apply RC_eq; unfold real; cbn; field; lra. }
    assert (E2 : (q * modulus (u - real (a j))%num = modulus (real q * u - real (q * a j))%num)%R).
    { replace (real q * u - real (q * a j))%num with (real q * (u - real (a j)))%num. { rewrite modulus_mul, modulus_real, (Rabs_right q) by lra. reflexivity. }
      destruct u as [u1 u2]. apply RC_eq; unfold real; cbn; ring. }
    rewrite E1. assert (E3 : (modulus (real q * u - real (q * a j))%num <= q * e)%R) by (rewrite <- E2; apply Rmult_le_compat_l; lra).
    assert (E4 : (Rabs (q * a j - Delta * x) = modulus (real (q * a j - Delta * x)))%R) by (rewrite modulus_real; reflexivity). rewrite E4. split.
    - replace (real (q * a j - Delta * x)) with ((real q * u - real (Delta * x)) - (real q * u - real (q * a j)))%num by (rewrite <- real_minus; ring).
      eapply Rle_trans; [apply modulus_sub|]. lra.
    - replace (real q * u - real (Delta * x))%num with (real (q * a j - Delta * x) + (real q * u - real (q * a j)))%num by (rewrite <- real_minus; ring).
      eapply Rle_trans; [apply modulus_add|]. lra. }
  split.
  { intros j Hj. destruct (key w0 a0 j (v 0%Z j) (S0 j Hj)) as [K0 _]. destruct (key w1 a1 j (v n j) (S1 j Hj)) as [K1 _]. specialize (LB0 j Hj). specialize (LB1 j Hj). unfold y0 in LB0. unfold y1 in LB1.
    assert (T0 : (Delta * modulus (slots N Delta w0 j - real (v 0%Z j))%num <= Delta * (S + off0))%R) by (apply Rmult_le_compat_l; lra).
    assert (T1 : (Delta * modulus (slots N Delta w1 j - real (v n j))%num <= Delta * (S + off0))%R) by (apply Rmult_le_compat_l; lra). rewrite Rmult_plus_distr_l in T0, T1. lra. }
  intros d Hd. assert (Hd0 : (0 <= d)%R) by (eapply Rle_trans; [apply Rabs_pos|apply (Hd 0 ltac:(lia))]). assert (Hqe : (0 <= q * e)%R) by (apply Rmult_le_pos; lra).
  assert (UB : forall w a x, (forall j, 0 <= j < n -> (modulus (slots N q w j - real (a j))%num <= e)%R) -> (forall j, 0 <= j < n -> (Rabs (q * a j - Delta * x j) <= d)%R) ->
    forall j, 0 <= j < n -> (modulus (slots N Delta w j - real (x j))%num <= (d + q * e) / Delta)%R).
  { intros w a x H1 H2 j Hj. destruct (key w a j (x j) (H1 j Hj)) as [_ K1]. specialize (H2 j Hj). apply (Rmult_le_reg_l Delta); [lra|]. replace (Delta * ((d + q * e) / Delta))%R with (d + q * e)%R by (field; lra). unfold RC in *. lra. }
  assert (DB : (0 <= (d + q * e) / Delta)%R) by (apply Rmult_le_pos; lra).
  pose proof (UB0 _ DB (UB w0 a0 (v 0) S0 (fun j Hj => proj1 (Hd j Hj)))) as T0. pose proof (UB1 _ DB (UB w1 a1 (v n) S1 (fun j Hj => proj2 (Hd j Hj)))) as T1.
  assert (TS : (S <= (d + q * e) / Delta + off0)%R) by (unfold S; destruct Rlt_dec; lra). apply (Rmult_le_compat_l Delta) in TS; [|lra].
  replace (Delta * ((d + q * e) / Delta + off0))%R with (d + q * e + Delta * off0)%R in TS by (field; lra). lra.
Qed.
End Stage.

(** ** The wanted numbers *)
Section Wanted.
Context (F : fpu) (HF : double F).
Local Notation zeros n := (fst (carray (K := Rops) n (fun _ => (0%num : CC)))).
Lemma f_wanted_rep LOGN Q LD off mm : 2 <= LOGN <= 17 -> 1 <= Q -> 0 <= LD <= 60 -> off = 0 \/ off = 2 ^ (LOGN - 1) -> (forall i, 0 <= i < 2 ^ LOGN -> - 2 ^ (Q - 1) <= mm i < 2 ^ (Q - 1)) ->
  exists v', f_coeff_wanted F LOGN LD Q off (repP Q (2 ^ LOGN) mm) (zeros (2 ^ (LOGN - 1))) = Ok (gtab (2 ^ (LOGN - 1)) v') /\
    forall j, 0 <= j < 2 ^ (LOGN - 1) -> (Rabs (v' j - IZR (low64 (mm (brv (Z.to_nat (LOGN - 1)) j + off)%Z)) / IZR (2 ^ LD)) <= want_off LD)%R.
Proof.
  intros HL HQ HLD Hoff Hm. pose proof (N2 LOGN ltac:(lia)) as HN2. pose proof (n_pos LOGN ltac:(lia)) as Hn. set (n := 2 ^ (LOGN - 1)) in *.
  assert (Zr : zeros n = gtab n (fun _ => 0%R)) by (rewrite carray_cvtab; reflexivity). rewrite Zr.
  exists (fun j => match f_coeff_double F Q LD (rep Q (mm (brv (Z.to_nat (LOGN - 1)) j + off))) with Ok v => v | _ => 0%R end).
  assert (IX : forall i, 0 <= i < n -> 0 <= brv (Z.to_nat (LOGN - 1)) i + off < 2 ^ LOGN) by (intros i Hi; destruct (brv_L LOGN ltac:(lia) i Hi) as (_ & E2 & _); fold n in E2; lia).
  assert (B : n <= 2 ^ 16) by (apply Z.pow_le_mono_r; lia). change (2 ^ 16) with 65536 in B.
  split.
  - unfold f_coeff_wanted. rewrite half_quot by lia. fold n. apply (fill_gtab n _ (fun i => Some 0%R)); [lia|]. intros i h Hi. specialize (IX i Hi).
    destruct (brv_L LOGN ltac:(lia) i Hi) as (E1 & E2 & _). rewrite E1. cbn [bind]. 
    rewrite Z.mod_small by (change (2 ^ 32) with 4294967296; lia). unfold repP. rewrite lget_tab by lia. cbn [bind].
    destruct (f_coeff_off F HF Q LD _ HQ HLD (Hm _ IX)) as (y & E & _). rewrite E. reflexivity.
  - intros j Hj. destruct (f_coeff_off F HF Q LD _ HQ HLD (Hm _ (IX j Hj))) as (y & E & H). rewrite E. exact H.
Qed.
Lemma f_evalqI_wanted_rep LOGN LOGQ LOGq LD off y c : 2 <= LOGN <= 17 -> 1 <= LOGQ -> 1 <= LOGq -> 0 <= LD <= 60 -> off = 0 \/ off = 2 ^ (LOGN - 1) ->
  (forall i, 0 <= i < 2 ^ LOGN -> - 2 ^ (LOGQ - 1) <= y i < 2 ^ (LOGQ - 1)) -> (forall i, 0 <= i < 2 ^ LOGN -> - 2 ^ (LOGq - 1) <= c i < 2 ^ (LOGq - 1)) ->
  exists v', f_evalqI_wanted F LOGq LOGQ LOGN LD (repP LOGQ (2 ^ LOGN) y) (repP LOGq (2 ^ LOGN) c) off (zeros (2 ^ (LOGN - 1))) = Ok (gtab (2 ^ (LOGN - 1)) v') /\
    forall j, 0 <= j < 2 ^ (LOGN - 1) ->
      (Rabs (v' j - (IZR (low64 (y (brv (Z.to_nat (LOGN - 1)) j + off)%Z)) - IZR (low64 (c (brv (Z.to_nat (LOGN - 1)) j + off)%Z))) / IZR (2 ^ LD)) <= want_off LD)%R.
Proof.
  intros HL HQ Hq HLD Hoff Hm Hc. pose proof (N2 LOGN ltac:(lia)) as HN2. pose proof (n_pos LOGN ltac:(lia)) as Hn. set (n := 2 ^ (LOGN - 1)) in *.
  assert (Zr : zeros n = gtab n (fun _ => 0%R)) by (rewrite carray_cvtab; reflexivity). rewrite Zr.
  exists (fun j => match (x <- f_zq_double F LOGQ (rep LOGQ (y (brv (Z.to_nat (LOGN - 1)) j + off))) ;; w <- f_zq_double F LOGq (rep LOGq (c (brv (Z.to_nat (LOGN - 1)) j + off))) ;; f_div F (rnd F (x - w)) (rnd F (IZR (2 ^ LD)))) with Ok v => v | _ => 0%R end).
  assert (IX : forall i, 0 <= i < n -> 0 <= brv (Z.to_nat (LOGN - 1)) i + off < 2 ^ LOGN) by (intros i Hi; destruct (brv_L LOGN ltac:(lia) i Hi) as (_ & E2 & _); fold n in E2; lia).
  assert (B : n <= 2 ^ 16) by (apply Z.pow_le_mono_r; lia). change (2 ^ 16) with 65536 in B.
  split.
  - unfold f_evalqI_wanted. rewrite half_quot by lia. fold n. apply (fill_gtab n _ (fun i => Some 0%R)); [lia|]. intros i h Hi. specialize (IX i Hi).
    destruct (brv_L LOGN ltac:(lia) i Hi) as (E1 & E2 & _). rewrite E1. cbn [bind]. 
    rewrite Z.mod_small by (change (2 ^ 32) with 4294967296; lia). unfold repP. rewrite !lget_tab by lia. cbn [bind].
    destruct (f_diff_off F HF LOGQ LOGq LD _ _ HQ Hq HLD (Hm _ IX) (Hc _ IX)) as (x & E & _). rewrite E. revert E.
    destruct (f_zq_double F LOGQ _) as [a| | |]; cbn [bind]; try discriminate. destruct (f_zq_double F LOGq _) as [b| | |]; cbn [bind]; try discriminate. intros E. rewrite E. reflexivity.
  - intros j Hj. destruct (f_diff_off F HF LOGQ LOGq LD _ _ HQ Hq HLD (Hm _ (IX j Hj)) (Hc _ (IX j Hj))) as (x & E & H). rewrite E. exact H.
Qed.
End Wanted.
