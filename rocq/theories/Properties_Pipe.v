(** The two bootstrapping procedures (experiment/section4/proposal.cpp): what the refreshed ciphertext decrypts to. *)
From Coq Require Import ZArith List Bool Lia Reals Lra Ring.
From Verif Require Import Base BaseFacts Sums ZQ ZQFacts ZQFacts2 RQ RQFacts Conv Rot Core CoreFacts Util UtilFacts GSum Matrix MatrixFacts MatMulFacts DFT DFTTheory DFTFacts FFTFacts
  SpecZQ SpecPoly SpecPolyFacts PolyCong SpecScheme SpecMat Properties_Mat SpecDFT Properties_DFT SpecEnc SlotFacts
  Encode EncodeFacts Properties_Conv Properties_Core Properties_Rot Properties_Enc Properties_Plain Noise PolyRing SpecLin LinTrans LinTransFacts LinSlots Properties_Lin
  Bootstrap SpecBoot BootSlots Properties_Boot Poly SpecEval EvalFacts EvalPoly SpecMod EvalMod EvalModFacts PiBound EvalModBound Properties_EvalMod SpecPipe Pipeline PipeFacts.
Import ListNotations.
Open Scope Z_scope.
Add Ring RCpp : HR.

Section Pipe.
Context (LOGN LOGq LOGQ LDc LDs : Z) (G D : nat) (HP : boot_params LOGN LOGq LOGQ LDc LDs G D).
Context (RM : Z) (rnd : nat -> Z) (s : list Z) (Hr : rand_stream RM rnd).
Let N := 2 ^ LOGN.
Context (Hs : ternary N s).
Let h := norm1 N (coef s).
Let q := boot_q LOGq.
Let g := Z.of_nat G.
Let Q2 := LOGQ - Z.of_nat D * LDc - 12 * LOGq.
Let Q3 := Q2 - Z.of_nat D * LDs.

(** C74: the conventional bootstrapping *)
Theorem C74_conventional B dmax ct ct_m m I stc sts st pos :
  cts_static LOGQ LOGN LDc g stc -> stc_static Q2 LOGN LDs g sts -> ifft_static LOGN st ->
  mod_raise LOGq LOGQ N ct (sq_new LOGQ N) = Ok ct_m -> decrypts LOGQ N ct_m (coef s) (fun i => m i + 2 ^ LOGq * I i) ->
  (forall i, 0 <= i < N -> Z.abs (I i) <= B) -> (forall i, 0 <= i < N -> (Rabs (IZR (m i)) <= q * dmax)%R) ->
  (IZR B + dmax + boot_rounding N h LOGq LDc G D B dmax + / 4 <= 24)%R ->
  exists stc' sts' st' pos' ct' w, conventional_boot LOGq LOGQ LOGN LDc LOGq LDs g 24 RM rnd stc sts st pos ct (map Some s) = Ok (stc', sts', st', pos', ct') /\
    cts_static LOGQ LOGN LDc g stc' /\ stc_static Q2 LOGN LDs g sts' /\ ifft_static LOGN st' /\ decrypts Q3 N ct' (coef s) w /\
    forall i, 0 <= i < N -> (Rabs (IZR (w i) - IZR (m i)) <= q * conventional_error N h LOGq LDc LDs G D B dmax + IZR (1 + h) / 2)%R.
Proof.
  intros Hstc Hsts Hst Emr Hct HI Hm H24.
  destruct (front_ok LOGN LOGq LOGQ LDc LDs G D HP RM rnd s Hr Hs B dmax ct_m m I stc st pos Hstc Hst Hct HI Hm H24)
    as (stc' & st' & pos' & r0 & r1 & e0 & e1 & x0 & x1 & E1 & Hstc' & Hst' & _ & _ & C0 & C1 & Hx). fold N h q in C0, C1, Hx.
  set (rho := boot_rounding N h LOGq LDc G D B dmax) in *. set (em := boot_mod_error N h LOGq LDc G D B dmax) in *.
  pose proof (pipe_Nhalf _ _ _ _ _ _ _ HP s) as Hn2. pose proof (pipe_Nn _ _ _ _ _ _ _ HP s) as HNn. pose proof (pipe_np _ _ _ _ _ _ _ HP s) as Hnp. pose proof (pipe_qp _ _ _ _ _ _ _ HP s) as Hqp. fold N in Hn2, HNn. fold q in Hqp.
  set (n := 2 ^ (LOGN - 1)) in *. set (rev := brv (Z.to_nat (LOGN - 1))) in *.
  assert (HC : forall c x y, carries Q2 N (coef s) c q (fun j => real (x j)) em -> (forall j, 0 <= j < n -> (Rabs (x j - y j) <= rho)%R) -> carries Q2 N (coef s) c q (fun j => real (y j)) (rho + em)).
  { intros c x y Hc Hxy. destruct Hc as (w & Hd & Hsl). exists w. split; [exact Hd|]. rewrite Hn2 in *. intros j Hj. specialize (Hsl j Hj). specialize (Hxy j Hj).
    replace (slots N q w j - real (y j))%num with ((slots N q w j - real (x j)) + real (x j - y j) : RC)%num by (rewrite <- real_minus; ring).
    pose proof (modulus_add (slots N q w j - real (x j))%num (real (x j - y j))) as T. rewrite modulus_real in T. unfold RC in *. lra. }
  assert (Hdm : forall i, 0 <= i < N -> (Rabs (IZR (m i) / q) <= dmax)%R).
  { intros i Hi. specialize (Hm i Hi). unfold Rdiv. rewrite Rabs_mult, (Rabs_right (/ q)) by (apply Rle_ge, Rlt_le, Rinv_0_lt_compat; auto).
    apply (Rmult_le_reg_r q); [auto|]. rewrite Rmult_assoc, Rinv_l, Rmult_1_r by lra. lra. }
  destruct (back_ok LOGN LOGq LOGQ LDc LDs G D HP RM rnd s Hr Hs sts st' pos' e0 e1 (fun i => IZR (m i) / q)%R (dmax + rho + em) (rho + em) Hsts Hst')
    as (sts' & st2 & pos2 & ct' & w & E2 & Hsts' & Hst2 & Hd & Hw).
  - eapply HC; [exact C0|]. intros j Hj. apply (Hx j Hj).
  - eapply HC; [exact C1|]. intros j Hj. apply (Hx j Hj).
  - intros i Hi. specialize (Hdm i Hi). lra.
  - exists stc', sts', st2, pos2, ct', w. split.
    { unfold conventional_boot, boot_N, g. fold N. rewrite Emr. cbn [bind]. rewrite E1. cbn [bind fst snd]. rewrite E2. reflexivity. }
    split; [exact Hstc'|]. split; [exact Hsts'|]. split; [exact Hst2|]. split; [exact Hd|]. intros i Hi. specialize (Hw i Hi). fold N h q in Hw.
    replace (q * (IZR (m i) / q))%R with (IZR (m i)) in Hw by (field; lra). exact Hw.
Qed.

(** C75: the proposed bootstrapping *)
Theorem C75_proposed B dmax ct ct_m m I stc sts st pos :
  cts_static LOGQ LOGN LDc g stc -> stc_static Q2 LOGN LDs g sts -> ifft_static LOGN st ->
  mod_raise LOGq LOGQ N ct (sq_new LOGQ N) = Ok ct_m -> decrypts LOGQ N ct_m (coef s) (fun i => m i + 2 ^ LOGq * I i) ->
  (forall i, 0 <= i < N -> Z.abs (I i) <= B) -> (forall i, 0 <= i < N -> (Rabs (IZR (m i)) <= q * dmax)%R) ->
  (IZR B + dmax + boot_rounding N h LOGq LDc G D B dmax + / 4 <= 24)%R ->
  exists stc' sts' st' pos' ct' w, proposed_boot LOGq LOGQ LOGN LDc LOGq LDs g 24 RM rnd stc sts st pos ct (map Some s) = Ok (stc', sts', st', pos', ct') /\
    cts_static LOGQ LOGN LDc g stc' /\ stc_static Q2 LOGN LDs g sts' /\ ifft_static LOGN st' /\ decrypts Q3 N ct' (coef s) w /\
    forall i, 0 <= i < N -> (Rabs (IZR (w i) - IZR (m i)) <= q * proposed_error N h LOGq LDc LDs G D B dmax + IZR (1 + h) / 2)%R.
Proof.
  intros Hstc Hsts Hst Emr Hct HI Hm H24. pose proof HP as [HLN HG HD Hq Hc' Hs' HQ Hw' Hw1'].
  destruct (front_ok LOGN LOGq LOGQ LDc LDs G D HP RM rnd s Hr Hs B dmax ct_m m I stc st pos Hstc Hst Hct HI Hm H24)
    as (stc' & st' & pos' & r0 & r1 & e0 & e1 & x0 & x1 & E1 & Hstc' & Hst' & R0 & R1 & C0 & C1 & Hx). fold N h q in R0, R1, C0, C1, Hx.
  set (sw := boot_cts_noise N h LOGq LDc D) in *. set (em := boot_mod_error N h LOGq LDc G D B dmax) in *.
  pose proof (pipe_Nhalf _ _ _ _ _ _ _ HP s) as Hn2. pose proof (pipe_Nn _ _ _ _ _ _ _ HP s) as HNn. pose proof (pipe_np _ _ _ _ _ _ _ HP s) as Hnp. pose proof (pipe_qp _ _ _ _ _ _ _ HP s) as Hqp. fold N in Hn2, HNn. fold q in Hqp.
  set (n := 2 ^ (LOGN - 1)) in *. set (rev := brv (Z.to_nat (LOGN - 1))) in *. set (Q1 := LOGQ - Z.of_nat D * LDc) in *.
  assert (HDz : 0 <= Z.of_nat D * LDc /\ 0 <= Z.of_nat D * LDs) by lia.
  assert (HQI : forall r e x y, carries Q1 N (coef s) r q (fun j => real (x j)) sw -> carries Q2 N (coef s) e q (fun j => real (x j - y j)) em ->
    exists c, evalqI LOGQ LOGN LDc LOGq g r e = Ok c /\ carries Q2 N (coef s) c q (fun j => real (y j)) (sw + em)).
  { intros r e x y (wr & Dr & Sr) (we & De & Se). unfold g, evalqI, LOGQ_after_evalmod, LOGQ_after_cts, boot_N. rewrite (pipe_Ddiv _ _ _ _ _ _ _ HP s). fold N Q1. change (Q1 - 12 * LOGq) with Q2.
    destruct (resize_down Q1 Q2 N r (coef s) wr (sq_new Q2 N)) as (c & Ec & Dc); [unfold Q2, Q1; lia|lia|apply objS_new; unfold Q2, Q1; lia|exact Dr|].
    rewrite Ec. cbn [bind]. destruct (C36_sub Q2 N c e (coef s) wr we) as (c2 & Ec2 & Dc2); [unfold Q2, Q1; lia|lia|exact Dc|exact De|].
    exists c2. split; [exact Ec2|]. exists (fun i => wr i - we i)%Z. split; [exact Dc2|]. rewrite Hn2 in *. intros j Hj. specialize (Sr j Hj). specialize (Se j Hj).
    rewrite slots_sub. 
    replace (slots N q wr j - slots N q we j - real (y j))%num with ((slots N q wr j - real (x j)) + - (slots N q we j - real (x j - y j)) : RC)%num by (rewrite <- real_minus; ring).
    pose proof (modulus_add (slots N q wr j - real (x j))%num (- (slots N q we j - real (x j - y j)))%num) as T. rewrite modulus_opp in T. unfold RC in *. lra. }
  destruct (HQI r0 e0 x0 (fun j => IZR (I (rev j))) R0 C0) as (q0 & E2 & Q0).
  destruct (HQI r1 e1 x1 (fun j => IZR (I (rev j + n)%Z)) R1 C1) as (q1 & E3 & Q1').
  destruct (back_ok LOGN LOGq LOGQ LDc LDs G D HP RM rnd s Hr Hs sts st' pos' q0 q1 (fun i => IZR (I i)) (IZR B + (sw + em)) (sw + em) Hsts Hst' Q0 Q1')
    as (sts' & st2 & pos2 & ct' & w & E4 & Hsts' & Hst2 & Hd & Hw).
  { intros i Hi. apply Rplus_le_compat_r. rewrite <- abs_IZR. apply IZR_le. auto. }
  fold N h q in Hw, Hd.
  destruct (resize_down LOGQ Q3 N ct_m (coef s) (fun i => m i + 2 ^ LOGq * I i) (sq_new Q3 N)) as (cr & E5 & Dr); [| |apply objS_new|exact Hct|]; try (unfold Q3, Q2, Q1; lia).
  destruct (C36_sub Q3 N cr ct' (coef s) (fun i => m i + 2 ^ LOGq * I i) w) as (cf & E6 & Df); [| |exact Dr|exact Hd|]; try (unfold Q3, Q2, Q1; lia).
  eexists stc', sts', st2, pos2, cf, _. split.
  { unfold g in E2, E3. unfold proposed_boot, boot_N, g. fold N. rewrite Emr. cbn [bind]. rewrite E1. cbn [bind fst snd]. rewrite E2. cbn [bind]. rewrite E3. cbn [bind]. rewrite E4. cbn [bind].
    unfold LOGQ_after_stc, LOGQ_after_evalmod, LOGQ_after_cts. rewrite (pipe_Ddiv _ _ _ _ _ _ _ HP s). fold Q1. change (Q1 - 12 * LOGq) with Q2. fold Q3. rewrite E5. cbn [bind]. rewrite E6. reflexivity. }
  split; [exact Hstc'|]. split; [exact Hsts'|]. split; [exact Hst2|]. split; [exact Df|]. intros i Hi. specialize (Hw i Hi). cbv beta. rewrite minus_IZR, plus_IZR, mult_IZR.
  change (IZR (2 ^ LOGq)) with q. replace (IZR (m i) + q * IZR (I i) - IZR (w i) - IZR (m i))%R with (- (IZR (w i) - q * IZR (I i)))%R by ring. rewrite Rabs_Ropp. exact Hw.
Qed.

(** The same for every ciphertext of a message under a key with few nonzero coefficients: mod_raise adds multiples of q up to 1 + h/2. *)
Theorem C74_conventional_key B dmax ct m stc sts st pos :
  cts_static LOGQ LOGN LDc g stc -> stc_static Q2 LOGN LDs g sts -> ifft_static LOGN st ->
  decrypts LOGq N ct (coef s) m -> (forall i, 0 <= i < N -> - 2 ^ (LOGq - 1) <= m i < 2 ^ (LOGq - 1)) -> (forall i, 0 <= i < N -> (Rabs (IZR (m i)) <= q * dmax)%R) ->
  h + 2 <= 2 * B -> (IZR B + dmax + boot_rounding N h LOGq LDc G D B dmax + / 4 <= 24)%R ->
  exists stc' sts' st' pos' ct' w, conventional_boot LOGq LOGQ LOGN LDc LOGq LDs g 24 RM rnd stc sts st pos ct (map Some s) = Ok (stc', sts', st', pos', ct') /\
    cts_static LOGQ LOGN LDc g stc' /\ stc_static Q2 LOGN LDs g sts' /\ ifft_static LOGN st' /\ decrypts Q3 N ct' (coef s) w /\
    forall i, 0 <= i < N -> (Rabs (IZR (w i) - IZR (m i)) <= q * conventional_error N h LOGq LDc LDs G D B dmax + IZR (1 + h) / 2)%R.
Proof.
  intros Hstc Hsts Hst Hct Hms Hm HB H24. pose proof HP as [HLN HG HD Hq Hc' Hs' HQ Hw' Hw1'].
  assert (HN : 1 <= N) by (pose proof (pipe_Nn _ _ _ _ _ _ _ HP s); pose proof (pipe_np _ _ _ _ _ _ _ HP s); unfold N; lia).
  destruct (C43_mod_raise LOGq LOGQ N ct (sq_new LOGQ N) (coef s) m ltac:(lia) ltac:(lia) HN (new_object2 LOGQ N ltac:(lia) ltac:(lia)) Hct) as (ct_m & I & E & Hd & HI).
  { intros i Hi. split; [apply Hms; auto|]. exists 0. lia. }
  apply (C74_conventional B dmax ct ct_m m I stc sts st pos); auto. intros i Hi. specialize (HI i Hi). fold h in HI. lia.
Qed.
Theorem C75_proposed_key B dmax ct m stc sts st pos :
  cts_static LOGQ LOGN LDc g stc -> stc_static Q2 LOGN LDs g sts -> ifft_static LOGN st ->
  decrypts LOGq N ct (coef s) m -> (forall i, 0 <= i < N -> - 2 ^ (LOGq - 1) <= m i < 2 ^ (LOGq - 1)) -> (forall i, 0 <= i < N -> (Rabs (IZR (m i)) <= q * dmax)%R) ->
  h + 2 <= 2 * B -> (IZR B + dmax + boot_rounding N h LOGq LDc G D B dmax + / 4 <= 24)%R ->
  exists stc' sts' st' pos' ct' w, proposed_boot LOGq LOGQ LOGN LDc LOGq LDs g 24 RM rnd stc sts st pos ct (map Some s) = Ok (stc', sts', st', pos', ct') /\
    cts_static LOGQ LOGN LDc g stc' /\ stc_static Q2 LOGN LDs g sts' /\ ifft_static LOGN st' /\ decrypts Q3 N ct' (coef s) w /\
    forall i, 0 <= i < N -> (Rabs (IZR (w i) - IZR (m i)) <= q * proposed_error N h LOGq LDc LDs G D B dmax + IZR (1 + h) / 2)%R.
Proof.
  intros Hstc Hsts Hst Hct Hms Hm HB H24. pose proof HP as [HLN HG HD Hq Hc' Hs' HQ Hw' Hw1'].
  assert (HN : 1 <= N) by (pose proof (pipe_Nn _ _ _ _ _ _ _ HP s); pose proof (pipe_np _ _ _ _ _ _ _ HP s); unfold N; lia).
  destruct (C43_mod_raise LOGq LOGQ N ct (sq_new LOGQ N) (coef s) m ltac:(lia) ltac:(lia) HN (new_object2 LOGQ N ltac:(lia) ltac:(lia)) Hct) as (ct_m & I & E & Hd & HI).
  { intros i Hi. split; [apply Hms; auto|]. exists 0. lia. }
  apply (C75_proposed B dmax ct ct_m m I stc sts st pos); auto. intros i Hi. specialize (HI i Hi). fold h in HI. lia.
Qed.

(** The numbers that the two experiments measure: encryption adds at most 8 *)
Lemma experiment_error boot err dmax stc sts st pos pt m :
  (forall ct m' pos', decrypts LOGq N ct (coef s) m' -> (forall i, 0 <= i < N -> - 2 ^ (LOGq - 1) <= m' i < 2 ^ (LOGq - 1)) -> (forall i, 0 <= i < N -> (Rabs (IZR (m' i)) <= q * dmax)%R) ->
    exists stc' sts' st' pos2 ct' w, boot stc sts st pos' ct (map Some s) = Ok (stc', sts', st', pos2, ct') /\ decrypts Q3 N ct' (coef s) w /\
      forall i, 0 <= i < N -> (Rabs (IZR (w i) - IZR (m' i)) <= err)%R) ->
  holdsP LOGq N pt m -> (forall i, 0 <= i < N -> - 2 ^ (LOGq - 1) <= m i - 8 /\ m i + 8 < 2 ^ (LOGq - 1)) -> (forall i, 0 <= i < N -> (Rabs (IZR (m i)) + 8 <= q * dmax)%R) ->
  exists e d, boot_experiment LOGq LOGQ LOGN LDc LOGq LDs g RM rnd boot stc sts st pos pt (map Some s) = Ok e /\ holdsP Q3 N e d /\
    forall i, 0 <= i < N -> (Rabs (IZR (d i)) <= err + 8)%R.
Proof.
  intros Hb Hpt Hms Hm. pose proof HP as [HLN HG HD Hq Hc' Hs' HQ Hw' Hw1'].
  assert (HN : 1 <= N) by (pose proof (pipe_Nn _ _ _ _ _ _ _ HP s); pose proof (pipe_np _ _ _ _ _ _ _ HP s); unfold N; lia).
  assert (HQ3 : 1 <= Q3) by (unfold Q3, Q2; lia).
  destruct (C35_enc_dec LOGq N RM rnd pt m s (sq_new LOGq N) pos (rq_new LOGq N)) as (ct & pos' & e0 & pt' & E1 & He0 & _ & _ & Hd); auto; try lia.
  { apply new_object2; lia. } { apply objP_object; try lia. apply objP_new. }
  destruct (Hb ct (fun i => m i + e0 i) pos' Hd) as (stc' & sts' & st' & pos2 & ct' & w & E2 & Hd' & Hw).
  { intros i Hi. specialize (Hms i Hi). specialize (He0 i Hi). lia. }
  { intros i Hi. specialize (Hm i Hi). specialize (He0 i Hi). rewrite plus_IZR. eapply Rle_trans; [apply Rabs_triang|]. rewrite <- (abs_IZR (e0 i)). apply IZR_le in He0. lra. }
  destruct (C35_dec Q3 N ct' s w (rq_new Q3 N) HQ3 HN Hs ltac:(apply objP_object; try lia; apply objP_new) Hd') as (po & E3 & H3).
  apply holdsP_rep in H3, Hpt; try lia. subst po pt. exists (repP Q3 N (fun i => m i - w i)), (fun i => m i - w i). split.
  { unfold boot_experiment, LOGQ_after_stc, LOGQ_after_evalmod, LOGQ_after_cts, boot_N, g. rewrite (pipe_Ddiv _ _ _ _ _ _ _ HP s). fold N Q2 Q3. rewrite E1. cbn [bind]. rewrite E2. cbn [bind].
    rewrite E3. cbn [bind]. rewrite rq_resize_rep by (auto using objP_new; lia). cbn [bind]. rewrite rq_sub_rep by lia. f_equal.
    apply repP_ext. intros i Hi. f_equal. rewrite cent_small by (specialize (Hms i Hi); lia). reflexivity. }
  split; [apply repP_holds; lia|]. intros i Hi. specialize (Hw i Hi). specialize (He0 i Hi). cbv beta in Hw. rewrite plus_IZR in Hw. rewrite minus_IZR.
  replace (IZR (m i) - IZR (w i))%R with (- (IZR (w i) - (IZR (m i) + IZR (e0 i))) + - IZR (e0 i))%R by ring.
  eapply Rle_trans; [apply Rabs_triang|]. rewrite !Rabs_Ropp, <- (abs_IZR (e0 i)). apply IZR_le in He0. lra.
Qed.
Theorem C76_conventional_experiment B dmax stc sts st pos pt m :
  cts_static LOGQ LOGN LDc g stc -> stc_static Q2 LOGN LDs g sts -> ifft_static LOGN st ->
  holdsP LOGq N pt m -> (forall i, 0 <= i < N -> - 2 ^ (LOGq - 1) <= m i - 8 /\ m i + 8 < 2 ^ (LOGq - 1)) -> (forall i, 0 <= i < N -> (Rabs (IZR (m i)) + 8 <= q * dmax)%R) ->
  h + 2 <= 2 * B -> (IZR B + dmax + boot_rounding N h LOGq LDc G D B dmax + / 4 <= 24)%R ->
  exists e d, boot_experiment LOGq LOGQ LOGN LDc LOGq LDs g RM rnd (conventional_boot LOGq LOGQ LOGN LDc LOGq LDs g 24 RM rnd) stc sts st pos pt (map Some s) = Ok e /\ holdsP Q3 N e d /\
    forall i, 0 <= i < N -> (Rabs (IZR (d i)) <= q * conventional_error N h LOGq LDc LDs G D B dmax + IZR (1 + h) / 2 + 8)%R.
Proof.
  intros Hstc Hsts Hst Hpt Hms Hm HB H24. apply (experiment_error _ _ dmax stc sts st pos pt m); auto. intros ct m' pos' Hd Hs' Hm'.
  destruct (C74_conventional_key B dmax ct m' stc sts st pos') as (a1 & a2 & a3 & a4 & a5 & w & E & _ & _ & _ & Hw); auto. exists a1, a2, a3, a4, a5, w. auto.
Qed.
Theorem C76_proposed_experiment B dmax stc sts st pos pt m :
  cts_static LOGQ LOGN LDc g stc -> stc_static Q2 LOGN LDs g sts -> ifft_static LOGN st ->
  holdsP LOGq N pt m -> (forall i, 0 <= i < N -> - 2 ^ (LOGq - 1) <= m i - 8 /\ m i + 8 < 2 ^ (LOGq - 1)) -> (forall i, 0 <= i < N -> (Rabs (IZR (m i)) + 8 <= q * dmax)%R) ->
  h + 2 <= 2 * B -> (IZR B + dmax + boot_rounding N h LOGq LDc G D B dmax + / 4 <= 24)%R ->
  exists e d, boot_experiment LOGq LOGQ LOGN LDc LOGq LDs g RM rnd (proposed_boot LOGq LOGQ LOGN LDc LOGq LDs g 24 RM rnd) stc sts st pos pt (map Some s) = Ok e /\ holdsP Q3 N e d /\
    forall i, 0 <= i < N -> (Rabs (IZR (d i)) <= q * proposed_error N h LOGq LDc LDs G D B dmax + IZR (1 + h) / 2 + 8)%R.
Proof.
  intros Hstc Hsts Hst Hpt Hms Hm HB H24. apply (experiment_error _ _ dmax stc sts st pos pt m); auto. intros ct m' pos' Hd Hs' Hm'.
  destruct (C75_proposed_key B dmax ct m' stc sts st pos') as (a1 & a2 & a3 & a4 & a5 & w & E & _ & _ & _ & Hw); auto. exists a1, a2, a3, a4, a5, w. auto.
Qed.
End Pipe.

(** ** Numbers *)
Lemma size_error_mono a a' dl dl' z0 z0' k k' d : (forall d, 0 <= a d <= a' d)%R -> (0 <= dl <= dl')%R -> (0 <= z0 <= z0')%R -> (forall d, 0 <= k d <= k' d)%R ->
  (0 <= size_after a dl z0 k d <= size_after a' dl' z0' k' d)%R /\ (0 <= error_after a dl z0 k d <= error_after a' dl' z0' k' d)%R.
Proof.
  intros Ha Hd Hz Hk. induction d as [|d [[I1 I2] [I3 I4]]]; cbn [size_after error_after]; [lra|]. specialize (Ha d). specialize (Hk d).
  set (sa := size_after a dl z0 k d) in *. set (sb := size_after a' dl' z0' k' d) in *. set (ea := error_after a dl z0 k d) in *. set (eb := error_after a' dl' z0' k' d) in *.
  split; split.
  - apply Rmult_le_pos; lra.
  - apply Rmult_le_compat; lra.
  - repeat apply Rplus_le_le_0_compat; apply Rmult_le_pos; lra.
  - repeat apply Rplus_le_compat; apply Rmult_le_compat; lra.
Qed.
Lemma switch_noise_mono N Delta E E' D0 d P : 0 <= N -> 0 <= E <= E' -> (0 < P)%R -> (P <= IZR Delta ^ d)%R -> (0 < D0)%R -> (0 <= switch_noise N Delta E D0 d <= IZR N * IZR E' / (2 * (P * D0)))%R.
Proof.
  intros HN [HE HE'] HP HPd H0. unfold switch_noise. apply IZR_le in HN, HE, HE'.
  assert (Hp : (0 <= IZR N * IZR E <= IZR N * IZR E')%R) by (split; [apply Rmult_le_pos; lra|apply Rmult_le_compat_l; lra]). 
  assert (Hi : (0 < / (2 * (IZR Delta ^ d * D0)) <= / (2 * (P * D0)))%R) by (split; [apply Rinv_0_lt_compat; nra|apply Rinv_le_contravar; nra]).
  split; [apply Rmult_le_pos; lra|]. apply Rmult_le_compat; lra.
Qed.

(** Dimension 512, scale 2^60, groups of two matrices, SlotToCoeff with scale 2^50 (test.h; proposal.cpp:6 and 73 with LOGDELTA_cts = LDc) *)
Section Numbers.
Context (LDc h : Z) (HLDc : 40 <= LDc <= 60) (Hh : 0 <= h <= 44).
Let dmax := (/ IZR (2 ^ 12))%R.
Let E := boot_noise 512 h.
Let Q60 : (0 < IZR (2 ^ 60))%R. Proof. apply IZR_lt. reflexivity. Qed.
Lemma num_pow P d : 0 <= P -> P <= 40 * Z.of_nat d -> (IZR (2 ^ P) <= IZR (2 ^ LDc) ^ d)%R.
Proof. intros H0 HP. rewrite pow_IZR, <- Z.pow_mul_r by lia. apply IZR_le, Z.pow_le_mono_r; nia. Qed.
Lemma num_k d : (0 <= switch_noise 512 (2 ^ LDc) E (IZR (2 ^ 60)) d <= 2 / IZR (10 ^ 12))%R.
Proof.
  pose proof (switch_noise_mono 512 (2 ^ LDc) E 8237 (IZR (2 ^ 60)) d 1%R) as H. destruct H as [H1 H2]; try lra; try lia.
  - unfold E, boot_noise. lia.
  - apply (num_pow 0 d); lia.
Qed.
Lemma num_ks d : (0 <= switch_noise 512 (2 ^ 50) E (IZR (2 ^ 60)) d <= 2 / IZR (10 ^ 12))%R.
Proof.
  pose proof (switch_noise_mono 512 (2 ^ 50) E 8237 (IZR (2 ^ 60)) d 1%R) as H. destruct H as [H1 H2]; try lra; try lia.
  - unfold E, boot_noise. lia.
  - apply pow_R1_Rle. apply IZR_le. discriminate.
Qed.
Lemma num_rounding : (0 <= boot_rounding 512 h 60 LDc 2 4 23 dmax <= 2 / IZR (10 ^ 4))%R /\ (LDc = 60 -> (boot_rounding 512 h 60 LDc 2 4 23 dmax <= 5 / IZR (10 ^ 10))%R).
Proof.
  unfold boot_rounding, cts_rounding. fold E.
  assert (Ha : forall d : nat, (0 <= Rpower 2 (- / INR 4) <= 1)%R).
  { intros _. split; [apply Rlt_le; unfold Rpower; apply exp_pos|]. rewrite <- (Rpower_O 2) by lra. apply Rle_Rpower; [lra|]. change (INR 4) with (1 + 1 + 1 + 1)%R. lra. }
  assert (Hz : (0 <= IZR 512 * (IZR 23 + dmax) <= 11777)%R) by (unfold dmax; change (2 ^ 12) with 4096; lra).
  assert (HB : forall P r, 40 <= P <= LDc -> (2 * error_after (fun _ => 1) (9 * (512 / (2 * IZR (2 ^ P)))) 11777 (fun _ => 2 / IZR (10 ^ 12)) 4 <= r)%R ->
    (0 <= 2 * error_after (fun _ => Rpower 2 (- / INR 4)) (row_rounding 512 (2 ^ LDc) 2) (IZR 512 * (IZR 23 + dmax)) (switch_noise 512 (2 ^ LDc) E (boot_q 60)) 4 <= r)%R).
  { intros P r HP Hr. assert (Hd : (0 <= row_rounding 512 (2 ^ LDc) 2 <= 9 * (512 / (2 * IZR (2 ^ P))))%R).
    { unfold row_rounding. change (3 ^ Z.of_nat 2) with 9. assert (H1 : (0 < IZR (2 ^ P) <= IZR (2 ^ LDc))%R) by (split; [apply IZR_lt, Z.pow_pos_nonneg; lia|apply IZR_le, Z.pow_le_mono_r; lia]).
      assert (Hi : (0 < / (2 * IZR (2 ^ LDc)) <= / (2 * IZR (2 ^ P)))%R) by (split; [apply Rinv_0_lt_compat; lra|apply Rinv_le_contravar; lra]). unfold Rdiv. lra. }
    destruct (size_error_mono _ (fun _ => 1%R) _ _ _ _ _ (fun _ => 2 / IZR (10 ^ 12))%R 4 Ha Hd Hz num_k) as [_ [H1 H2]]. change (boot_q 60) with (IZR (2 ^ 60)). lra. }
  split.
  - apply (HB 40); [lia|]. cbn [error_after size_after]. change (10 ^ 12) with 1000000000000. change (10 ^ 4) with 10000. change (2 ^ 40) with 1099511627776. lra.
  - intros ->. apply (HB 60); [lia|]. cbn [error_after size_after]. change (10 ^ 12) with 1000000000000. change (10 ^ 10) with 10000000000. change (2 ^ 60) with 1152921504606846976. lra.
Qed.
Lemma num_cts_noise : (0 <= boot_cts_noise 512 h 60 LDc 4 <= 11 / IZR (10 ^ 15))%R.
Proof.
  unfold boot_cts_noise, rescale_noise, boot_q. fold E. 
  pose proof (switch_noise_mono 512 (2 ^ LDc) E 8237 (IZR (2 ^ 60)) 4 (IZR (2 ^ 40))) as H. destruct H as [H1 H2]; try lia.
  - unfold E, boot_noise. lia.
  - apply IZR_lt. reflexivity.
  - apply num_pow; lia.
  - exact Q60.
  - assert (Hi : (0 <= IZR (1 + h) <= 45)%R) by (split; apply IZR_le; lia). revert H1 H2. generalize (switch_noise 512 (2 ^ LDc) E (IZR (2 ^ 60)) 4). intros x H1 H2.
    change (10 ^ 15) with 1000000000000000. change (2 ^ 60) with 1152921504606846976 in *. change (2 ^ 40) with 1099511627776 in *. lra.
Qed.
Lemma num_mod_error : (0 <= boot_mod_error 512 h 60 LDc 2 4 23 dmax <= 38 / IZR (10 ^ 10))%R.
Proof.
  unfold boot_mod_error. pose proof num_cts_noise as Hc. destruct num_rounding as [Hr _]. set (e := boot_cts_noise 512 h 60 LDc 4) in *. set (rho := boot_rounding 512 h 60 LDc 2 4 23 dmax) in *.
  assert (Hi : (0 <= IZR (1 + h) <= 45)%R) by (split; apply IZR_le; lia).
  pose proof (evalmod_error_bound 512 h (boot_q 60) 24 e (11 / IZR (10 ^ 15))%R ltac:(lia) ltac:(lia) Q60 ltac:(lia) (proj1 Hc)) as H1.
  assert (H2 : (evalmod_error 512 h (boot_q 60) 24 e <= 340000 * (11 / IZR (10 ^ 15)) + 2 / IZR (10 ^ 12))%R).
  { apply H1.
    - unfold em_arg_error, rescale_noise, mul_noise, boot_q. replace (8 * 512 + 1 + h) with (4096 + (1 + h)) by lia. rewrite (plus_IZR 4096). change (10 ^ 15) with 1000000000000000 in *. change (2 ^ 60) with 1152921504606846976. lra.
    - change (10 ^ 15) with 1000000000000000. change (10 ^ 8) with 100000000. lra. }
  assert (H0 : (0 <= evalmod_error 512 h (boot_q 60) 24 e)%R) by (apply evalmod_error_nonneg; [lia|lia|exact Q60|lia|apply Hc]).
  assert (P : (0 <= 6 / 5 * PI ^ 4 <= 117)%R).
  { destruct PI_bounds as [P1 P2]. pose proof PI_RGT_0. assert (PI <= 3.1416)%R by lra. assert (PI * PI <= 9.86966)%R by nra. assert (0 <= PI * PI)%R by nra. split; [|nra].
    apply Rmult_le_pos; [lra|apply pow_le; lra]. }
  assert (X : (0 <= (dmax + rho) ^ 5 <= (/ 2000) ^ 5)%R).
  { assert (Hx : (0 <= dmax + rho <= / 2000)%R) by (revert Hr; unfold dmax; change (2 ^ 12) with 4096; change (10 ^ 4) with 10000; lra). split; [apply pow_le; lra|apply pow_incr; lra]. }
  assert (Y : (0 <= 6 / 5 * PI ^ 4 * (dmax + rho) ^ 5 <= 117 * (/ 2000) ^ 5)%R) by (split; [apply Rmult_le_pos; lra|apply Rmult_le_compat; lra]).
  change (10 ^ 15) with 1000000000000000 in *. change (10 ^ 12) with 1000000000000 in *. change (10 ^ 10) with 10000000000. cbn [pow] in Y |- *. lra.
Qed.
Lemma num_stc z z' r : (0 <= z <= z')%R -> (2 * error_after (fun _ => 4) (9 * (512 / (2 * IZR (2 ^ 50)))) z' (fun _ => 2 / IZR (10 ^ 12)) 4 <= r)%R ->
  (stc_error 512 (2 ^ 50) E 2 4 z (boot_q 60) <= r)%R.
Proof.
  intros Hz Hr. unfold stc_error. assert (Hd : (0 <= row_rounding 512 (2 ^ 50) 2 <= 9 * (512 / (2 * IZR (2 ^ 50))))%R).
  { unfold row_rounding. change (3 ^ Z.of_nat 2) with 9. change (2 ^ 50) with 1125899906842624. lra. }
  assert (Ha : forall d : nat, (0 <= 2 ^ 2 <= 4)%R) by (intros _; lra).
  destruct (size_error_mono _ (fun _ => 4%R) _ _ _ _ _ (fun _ => 2 / IZR (10 ^ 12))%R 4 Ha Hd Hz num_ks) as [_ [H1 H2]]. change (boot_q 60) with (IZR (2 ^ 60)). lra.
Qed.
Lemma num_proposed : (IZR (2 ^ 60) * proposed_error 512 h 60 LDc 50 2 4 23 dmax + IZR (1 + h) / 2 <= IZR (2 ^ 36))%R.
Proof.
  assert (Hi : (0 <= IZR (1 + h) <= 45)%R) by (split; apply IZR_le; lia).
  unfold proposed_error. fold E. pose proof num_cts_noise as Hc. pose proof num_mod_error as Hm. set (e := boot_cts_noise 512 h 60 LDc 4) in *. set (em := boot_mod_error 512 h 60 LDc 2 4 23 dmax) in *.
  change (10 ^ 15) with 1000000000000000 in *. change (10 ^ 10) with 10000000000 in *.
  pose proof (num_stc (IZR 23 + (e + em)) 24 (45 / IZR (10 ^ 9))) as H. change (10 ^ 9) with 1000000000 in H.
  assert (H' : (stc_error 512 (2 ^ 50) E 2 4 (IZR 23 + (e + em)) (boot_q 60) <= 45 / 1000000000)%R).
  { apply H; [lra|]. cbn [error_after size_after]. change (10 ^ 12) with 1000000000000. change (2 ^ 50) with 1125899906842624. lra. }
  change (2 ^ 60) with 1152921504606846976. change (2 ^ 36) with 68719476736. lra.
Qed.
Lemma num_conventional : LDc = 60 -> (IZR (2 ^ 60) * conventional_error 512 h 60 LDc 50 2 4 23 dmax + IZR (1 + h) / 2 <= IZR (2 ^ 34))%R.
Proof.
  intros HL. assert (Hi : (0 <= IZR (1 + h) <= 45)%R) by (split; apply IZR_le; lia).
  unfold conventional_error. fold E. destruct num_rounding as [[Hr0 _] Hr]. specialize (Hr HL). pose proof num_mod_error as Hm. set (rho := boot_rounding 512 h 60 LDc 2 4 23 dmax) in *. set (em := boot_mod_error 512 h 60 LDc 2 4 23 dmax) in *.
  change (10 ^ 10) with 10000000000 in *.
  pose proof (num_stc (dmax + rho + em) (/ 4000) (2 / IZR (10 ^ 9))) as H. change (10 ^ 9) with 1000000000 in H.
  assert (H' : (stc_error 512 (2 ^ 50) E 2 4 (dmax + rho + em) (boot_q 60) <= 2 / 1000000000)%R).
  { apply H; [unfold dmax; change (2 ^ 12) with 4096; lra|]. cbn [error_after size_after]. change (10 ^ 12) with 1000000000000. change (2 ^ 50) with 1125899906842624. lra. }
  change (2 ^ 60) with 1152921504606846976. change (2 ^ 34) with 17179869184. lra.
Qed.
Lemma num_24 : (IZR 23 + dmax + boot_rounding 512 h 60 LDc 2 4 23 dmax + / 4 <= 24)%R.
Proof. destruct num_rounding as [Hr _]. revert Hr. unfold dmax. change (2 ^ 12) with 4096. change (10 ^ 4) with 10000. lra. Qed.
End Numbers.
Lemma num_params LDc : 40 <= LDc <= 60 -> boot_params 9 60 1450 LDc 50 2 4.
Proof. intros H. constructor; try lia; unfold widths; intros; lia. Qed.

Lemma Rabs_IZR_le z b : (Rabs (IZR z) <= IZR b)%R -> Z.abs z <= b.
Proof. intros H. apply le_IZR. rewrite abs_IZR. exact H. Qed.
(** C77: numbers for dimension 512 *)
Theorem C77_proposed_512 : forall LDc RM rnd s ct m stc sts st pos, 40 <= LDc <= 60 -> rand_stream RM rnd -> ternary 512 s -> norm1 512 (coef s) <= 44 ->
  cts_static 1450 9 LDc 2 stc -> stc_static (730 - 4 * LDc) 9 50 2 sts -> ifft_static 9 st ->
  decrypts 60 512 ct (coef s) m -> (forall i, 0 <= i < 512 -> Z.abs (m i) <= 2 ^ 48) ->
  exists stc' sts' st' pos' ct' w, proposed_boot 60 1450 9 LDc 60 50 2 24 RM rnd stc sts st pos ct (map Some s) = Ok (stc', sts', st', pos', ct') /\
    decrypts (530 - 4 * LDc) 512 ct' (coef s) w /\ forall i, 0 <= i < 512 -> Z.abs (w i - m i) <= 2 ^ 36.
Proof.
  intros LDc RM rnd s ct m stc sts st pos HL Hr Hs Hh Hstc Hsts Hst Hd Hm. assert (Hh0 : 0 <= norm1 512 (coef s)) by (apply norm1_nonneg).
  assert (E1 : 1450 - Z.of_nat 4 * LDc - 12 * 60 = 730 - 4 * LDc) by lia. 
  destruct (C75_proposed_key 9 60 1450 LDc 50 2 4 (num_params LDc HL) RM rnd s Hr Hs 23 (/ IZR (2 ^ 12))%R ct m stc sts st pos)
    as (stc' & sts' & st' & pos' & ct' & w & E & _ & _ & _ & Hd' & Hw); auto.
  - rewrite E1. exact Hsts.
  - intros i Hi. specialize (Hm i Hi). lia.
  - intros i Hi. specialize (Hm i Hi). rewrite <- abs_IZR. apply IZR_le in Hm. unfold boot_q. change (2 ^ 48) with 281474976710656 in Hm. change (2 ^ 60) with 1152921504606846976. change (2 ^ 12) with 4096. lra.
  - change (2 ^ 9) with 512. lia.
  - change (2 ^ 9) with 512. apply num_24; lia.
  - exists stc', sts', st', pos', ct', w. split; [exact E|]. split.
    + replace (530 - 4 * LDc) with (1450 - Z.of_nat 4 * LDc - 12 * 60 - Z.of_nat 4 * 50) by lia. exact Hd'.
    + intros i Hi. apply Rabs_IZR_le. rewrite minus_IZR. eapply Rle_trans; [apply (Hw i Hi)|]. change (2 ^ 9) with 512. apply num_proposed; lia.
Qed.
Theorem C77_conventional_512 : forall RM rnd s ct m stc sts st pos, rand_stream RM rnd -> ternary 512 s -> norm1 512 (coef s) <= 44 ->
  cts_static 1450 9 60 2 stc -> stc_static 490 9 50 2 sts -> ifft_static 9 st ->
  decrypts 60 512 ct (coef s) m -> (forall i, 0 <= i < 512 -> Z.abs (m i) <= 2 ^ 48) ->
  exists stc' sts' st' pos' ct' w, conventional_boot 60 1450 9 60 60 50 2 24 RM rnd stc sts st pos ct (map Some s) = Ok (stc', sts', st', pos', ct') /\
    decrypts 290 512 ct' (coef s) w /\ forall i, 0 <= i < 512 -> Z.abs (w i - m i) <= 2 ^ 34.
Proof.
  intros RM rnd s ct m stc sts st pos Hr Hs Hh Hstc Hsts Hst Hd Hm. assert (Hh0 : 0 <= norm1 512 (coef s)) by (apply norm1_nonneg).
  destruct (C74_conventional_key 9 60 1450 60 50 2 4 (num_params 60 ltac:(lia)) RM rnd s Hr Hs 23 (/ IZR (2 ^ 12))%R ct m stc sts st pos)
    as (stc' & sts' & st' & pos' & ct' & w & E & _ & _ & _ & Hd' & Hw); auto.
  - intros i Hi. specialize (Hm i Hi). lia.
  - intros i Hi. specialize (Hm i Hi). rewrite <- abs_IZR. apply IZR_le in Hm. unfold boot_q. change (2 ^ 48) with 281474976710656 in Hm. change (2 ^ 60) with 1152921504606846976. change (2 ^ 12) with 4096. lra.
  - change (2 ^ 9) with 512. lia.
  - change (2 ^ 9) with 512. apply num_24; lia.
  - exists stc', sts', st', pos', ct', w. split; [exact E|]. split; [exact Hd'|].
    intros i Hi. apply Rabs_IZR_le. rewrite minus_IZR. eapply Rle_trans; [apply (Hw i Hi)|]. change (2 ^ 9) with 512. apply num_conventional; lia.
Qed.

(** C78: the multiples of q that mod_raise adds do reach h/2 - 1 *)
Theorem C78_mod_raise_sharp : forall LOGq LOGQ N s, 1 <= LOGq <= LOGQ -> 1 <= N -> ternary N s -> norm1 N (coef s) <= 2 ^ (LOGq - 1) ->
  exists ct ct_m I, decrypts LOGq N ct (coef s) (fun _ => 0) /\ mod_raise LOGq LOGQ N ct (sq_new LOGQ N) = Ok ct_m /\ decrypts LOGQ N ct_m (coef s) (fun i => 2 ^ LOGq * I i) /\
    (forall i, 0 <= i < N -> 2 * Z.abs (I i) <= norm1 N (coef s) + 2) /\ norm1 N (coef s) - 2 <= 2 * Z.abs (I (N - 1)).
Proof.
  intros LOGq LOGQ N s Hq HN Hs Hh. set (h := norm1 N (coef s)) in *. pose proof (pow2_pos (LOGq - 1) ltac:(lia)) as Hp. pose proof (pow2_half LOGq ltac:(lia)) as H2.
  set (P := 2 ^ (LOGq - 1)) in *.
  pose (b := fun i => match coef s (N - 1 - i) with 1 => - P | -1 => P - 1 | _ => 0 end).
  pose (a := fun i => - negconv N (coef s) b i).
  assert (Hb : forall i, - P <= b i < P) by (intros i; unfold b; destruct (coef s (N - 1 - i)) as [|[p|p|]|[p|p|]]; lia).
  assert (Hsum : negconv N (coef s) b (N - 1) <= - (h * (P - 1))).
  { unfold negconv, h, norm1. 
    rewrite (zsum_ext N _ (fun k => coef s k * b (N - 1 - k))) by (intros k Hk; destruct (Z.leb_spec k (N - 1)); [reflexivity|lia]).
    rewrite Z.mul_comm, <- zsum_scal, <- zsum_opp. apply zsum_le. intros k Hk. unfold b. replace (N - 1 - (N - 1 - k)) with k by lia.
    destruct Hs as [Hl Hf]. assert (Hk' : coef s k = -1 \/ coef s k = 0 \/ coef s k = 1).
    { rewrite Forall_forall in Hf. apply Hf, nth_In. lia. }
    destruct Hk' as [->|[->| ->]]; cbn [Z.abs]; lia. }
  assert (Hcb : forall i, cent LOGq (b i) = b i) by (intros i; apply cent_small; [lia|apply Hb]).
  set (a' := fun i => cent LOGq (a i)).
  assert (Ha' : forall i, - P <= a' i < P) by (intros i; apply cent_bounds; lia).
  assert (HI : forall i, 2 ^ LOGq * ((a' i + negconv N (coef s) b i) / 2 ^ LOGq) = a' i + negconv N (coef s) b i).
  { intros i. assert (E : (a' i + negconv N (coef s) b i) mod 2 ^ LOGq = 0).
    { rewrite <- Zplus_mod_idemp_l. unfold a'. rewrite cent_congr by lia. rewrite Zplus_mod_idemp_l. unfold a. rewrite Z.add_opp_diag_l. apply Z.mod_0_l. lia. }
    pose proof (Z.div_mod (a' i + negconv N (coef s) b i) (2 ^ LOGq) ltac:(lia)). lia. }
  exists (repS LOGq N a b), (repS LOGQ N a' b), (fun i => (a' i + negconv N (coef s) b i) / 2 ^ LOGq). split; [|split; [|split; [|split]]].
  - apply decrypts_rep; try lia. exists a, b. split; [reflexivity|]. apply pcong_peq. intros i Hi. unfold padd, a. lia.
  - unfold mod_raise. rewrite sq_resize_rep by (try lia; apply objS_new). f_equal. unfold repS. f_equal. apply repP_ext. intros i Hi. rewrite Hcb. reflexivity.
  - apply decrypts_rep; try lia. exists a', b. split; [reflexivity|]. apply pcong_peq. intros i Hi. rewrite HI. reflexivity.
  - intros i Hi. specialize (HI i). set (J := (a' i + negconv N (coef s) b i) / 2 ^ LOGq) in *. specialize (Ha' i).
    assert (B1 : Z.abs (negconv N (coef s) b i) <= h * P) by (apply negconv_bound1; auto; [lia|]; intros k Hk; specialize (Hb k); lia).
    rewrite H2 in HI. assert (P * (2 * Z.abs J) <= P * (h + 2)) by (replace (P * (2 * Z.abs J)) with (Z.abs (2 * P * J)) by (rewrite !Z.abs_mul; lia); lia). nia.
  - cbv beta. specialize (HI (N - 1)). set (J := (a' (N - 1) + negconv N (coef s) b (N - 1)) / 2 ^ LOGq) in *. specialize (Ha' (N - 1)). rewrite H2 in HI.
    assert (P * (h - 2) <= P * (2 * Z.abs J)) by (replace (P * (2 * Z.abs J)) with (Z.abs (2 * P * J)) by (rewrite !Z.abs_mul; lia); lia). nia.
Qed.

(** The experiments draw keys with 128 nonzero coefficients (rns.h:14), and EvalMod is made for multiples up to K = 24: not all ciphertexts are covered. *)
Definition key128 : list Z := repeat 1 64 ++ repeat (-1) 64 ++ repeat 0 384.
Lemma key128_ternary : ternary 512 key128.
Proof. split; [reflexivity|]. unfold key128. rewrite !Forall_app. repeat split; apply Forall_forall; intros x Hx; apply repeat_spec in Hx; lia. Qed.
Lemma key128_norm : norm1 512 (coef key128) = 128.
Proof. vm_compute. reflexivity. Qed.
Theorem C79_within_K_refuted : ~ forall s ct m ct_m I, ternary 512 s -> norm1 512 (coef s) = 128 -> decrypts 60 512 ct (coef s) m -> (forall i, 0 <= i < 512 -> Z.abs (m i) <= 2 ^ 48) ->
  mod_raise 60 1450 512 ct (sq_new 1450 512) = Ok ct_m -> decrypts 1450 512 ct_m (coef s) (fun i => m i + 2 ^ 60 * I i) -> (forall i, 0 <= i < 512 -> 2 * Z.abs (I i) <= 130) ->
  forall i, 0 <= i < 512 -> Z.abs (I i) <= 24.
Proof.
  intros H. destruct (C78_mod_raise_sharp 60 1450 512 key128 ltac:(lia) ltac:(lia) key128_ternary) as (ct & ct_m & I & H1 & H2 & H3 & H4 & H5).
  { rewrite key128_norm. lia. }
  rewrite key128_norm in *. specialize (H key128 ct (fun _ => 0) ct_m I key128_ternary key128_norm H1). 
  assert (B : Z.abs (I (512 - 1)) <= 24); [|lia]. apply H; auto; try lia; intros; lia.
Qed.

(** ** Instances *)
Definition pipe_m (i : Z) : Z := 1000000007 * ((i - 100) * (i - 200)).
Definition pipe_key : list Z := repeat 1 20 ++ repeat 0 100 ++ repeat (-1) 24 ++ repeat 0 368.
Definition pipe_b (i : Z) : Z := 123456789012345678 + 98765432109876543 * i.
Definition pipe_ct : sq := repS 60 512 (fun i => pipe_m i - negconv 512 (coef pipe_key) pipe_b i) pipe_b.
Lemma pipe_key_ternary : ternary 512 pipe_key.
Proof. split; [reflexivity|]. unfold pipe_key. rewrite !Forall_app. repeat split; apply Forall_forall; intros x Hx; apply repeat_spec in Hx; lia. Qed.
Lemma pipe_key_norm : norm1 512 (coef pipe_key) = 44.
Proof. vm_compute. reflexivity. Qed.
Lemma pipe_small i : 0 <= i < 512 -> Z.abs (pipe_m i) <= 2 ^ 48 - 8.
Proof. intros Hi. unfold pipe_m. pose proof (Z.square_nonneg (i - 150)). assert (0 <= i * (511 - i)) by (apply Z.mul_nonneg_nonneg; lia).
  assert (- 2500 <= (i - 100) * (i - 200) <= 128132) by lia. set (x := (i - 100) * (i - 200)) in *. clearbody x. change (2 ^ 48) with 281474976710656. lia. Qed.
Example C77_case RM rnd pos : rand_stream RM rnd ->
  decrypts 60 512 pipe_ct (coef pipe_key) pipe_m /\
  (exists stc sts st pos' ct' w, proposed_boot 60 1450 9 45 60 50 2 24 RM rnd None None None pos pipe_ct (map Some pipe_key) = Ok (stc, sts, st, pos', ct') /\
    decrypts 350 512 ct' (coef pipe_key) w /\ forall i, 0 <= i < 512 -> Z.abs (w i - pipe_m i) <= 2 ^ 36) /\
  (exists stc sts st pos' ct' w, conventional_boot 60 1450 9 60 60 50 2 24 RM rnd None None None pos pipe_ct (map Some pipe_key) = Ok (stc, sts, st, pos', ct') /\
    decrypts 290 512 ct' (coef pipe_key) w /\ forall i, 0 <= i < 512 -> Z.abs (w i - pipe_m i) <= 2 ^ 34) /\
  exists e d, boot_experiment 60 1450 9 60 60 50 2 RM rnd (proposed_boot 60 1450 9 60 60 50 2 24 RM rnd) None None None pos (repP 60 512 pipe_m) (map Some pipe_key) = Ok e /\ holdsP 290 512 e d /\
    forall i, 0 <= i < 512 -> Z.abs (d i) <= 2 ^ 36 + 8.
Proof.
  intros Hr. assert (Hd : decrypts 60 512 pipe_ct (coef pipe_key) pipe_m).
  { apply decrypts_rep; try lia. eexists _, _. split; [reflexivity|]. apply pcong_peq. intros i Hi. unfold padd. lia. }
  assert (Hm : forall i, 0 <= i < 512 -> Z.abs (pipe_m i) <= 2 ^ 48) by (intros i Hi; pose proof (pipe_small i Hi); lia).
  split; [exact Hd|]. split; [|split].
  - apply (C77_proposed_512 45 RM rnd pipe_key pipe_ct pipe_m None None None pos); auto using pipe_key_ternary; try lia; try constructor. rewrite pipe_key_norm. lia.
  - apply (C77_conventional_512 RM rnd pipe_key pipe_ct pipe_m None None None pos); auto using pipe_key_ternary; try lia; try constructor. rewrite pipe_key_norm. lia.
  - destruct (C76_proposed_experiment 9 60 1450 60 50 2 4 (num_params 60 ltac:(lia)) RM rnd pipe_key Hr pipe_key_ternary 23 (/ IZR (2 ^ 12))%R None None None pos (repP 60 512 pipe_m) pipe_m) as (e & d & E & He & Hd'); [apply cts_first|apply stc_first|apply ifft_first| | | | | |].
    + apply repP_holds; lia.
    + intros i Hi. pose proof (pipe_small i Hi). lia.
    + intros i Hi. pose proof (pipe_small i Hi) as Hs. apply IZR_le in Hs. rewrite abs_IZR in Hs. unfold boot_q. change (2 ^ 48 - 8) with 281474976710648 in Hs. change (2 ^ 60) with 1152921504606846976. change (2 ^ 12) with 4096. lra.
    + change (2 ^ 9) with 512. rewrite pipe_key_norm. lia.
    + change (2 ^ 9) with 512. apply num_24; [lia|]. rewrite pipe_key_norm. lia.
    + exists e, d. split; [exact E|]. split; [exact He|]. intros i Hi. apply Rabs_IZR_le. eapply Rle_trans; [apply (Hd' i Hi)|]. rewrite (plus_IZR (2 ^ 36)). change (2 ^ 9) with 512.
      apply Rplus_le_compat_r. apply num_proposed; [lia|]. rewrite pipe_key_norm. lia.
Qed.

Print Assumptions C74_conventional.
Print Assumptions C75_proposed.
Print Assumptions C74_conventional_key.
Print Assumptions C75_proposed_key.
Print Assumptions C76_conventional_experiment.
Print Assumptions C76_proposed_experiment.
Print Assumptions C77_proposed_512.
Print Assumptions C77_conventional_512.
Print Assumptions C78_mod_raise_sharp.
Print Assumptions C79_within_K_refuted.
