(** The two bootstrappings in floating-point arithmetic, from the accuracy of their matrices (compare Properties_Pipe.v). *)
From Coq Require Import ZArith List Bool Lia Reals Lra Ring.
From Verif Require Import Base BaseFacts Sums ZQ ZQFacts RQ RQFacts Conv Rot Core CoreFacts Util UtilFacts GSum Matrix MatrixFacts MatMulFacts DFT DFTTheory DFTFacts FFTFacts
  SpecZQ SpecPoly SpecPolyFacts PolyCong SpecScheme SpecMat Properties_Mat SpecDFT Properties_DFT SpecEnc SlotFacts
  Encode EncodeFacts Properties_Conv Properties_Core Properties_Rot Properties_Enc Properties_Plain Noise SpecLin LinTrans LinTransFacts LinSlots Properties_Lin
  Bootstrap SpecBoot BootSlots Properties_Boot Poly SpecEval EvalFacts EvalPoly SpecMod EvalMod EvalModFacts Properties_EvalMod SpecPipe Pipeline PipeFacts Properties_Pipe
  Float SpecFloat FloatLin FloatSerial SpecFloatBoot FloatBootSlots FloatMod SpecFloatMod FloatModFacts Properties_FloatMod.
From Verif Require Import SpecFloatPipe FloatPipeFacts.
Import ListNotations.
Open Scope Z_scope.
Add Ring RCfpp : HR.

Section Pipe.
Context (F : fpu) (u eta top t : R) (ar : arithmetic u eta top t (rnd F) (dpi F) (lcos F) (lsin F)) (Htop : (IZR (2 ^ 62) <= top)%R).
Context (lpow : R -> R -> R) (pw : R) (Hpw : power_within pw lpow).
Context (LOGN LOGq LOGQ LDc LDs : Z) (G D : nat) (HP : boot_params LOGN LOGq LOGQ LDc LDs G D).
Context (RM : Z) (rnd : nat -> Z) (s : list Z) (Hr : rand_stream RM rnd).
Let N := 2 ^ LOGN.
Context (Hs : ternary N s).
Let h := norm1 N (coef s).
Let q := boot_q LOGq.
Let Q2 := LOGQ - Z.of_nat D * LDc - 12 * LOGq.
Let Q3 := Q2 - Z.of_nat D * LDs.
(** the tables are accurate and can be encoded *)
Context (Hsmall : (table_error u eta t N <= / 64)%R).
Context (Bc ec rc : R) (Hencc : encodes_within F LOGQ LOGN LDc Bc ec) (Hec : (0 <= ec)%R) (Hfitc : cts_group_fits u eta top t pw LOGN G)
  (HBc : (Rpower 2 (- / INR D) + cts_group_error u eta t pw LOGN G <= Bc)%R) (Hrc : (cts_group_error u eta t pw LOGN G <= rc)%R).
Context (Bs es rs : R) (Hencs : encodes_within F Q2 LOGN LDs Bs es) (Hes : (0 <= es)%R) (Hfits : stc_group_fits u eta top t LOGN G)
  (HBs : (2 ^ (G - 1) + stc_group_error u eta t LOGN G <= Bs)%R) (Hrs : (stc_group_error u eta t LOGN G <= rs)%R).
Let dlc := f_row N (2 ^ LDc) G rc ec.
Let dls := f_row N (2 ^ LDs) G rs es.

Let g := Z.of_nat G.
Let front := f_front_ok F u eta top t ar Htop lpow pw Hpw LOGN LOGq LOGQ LDc LDs G D HP RM rnd s Hr Hs Hsmall Bc ec rc Hencc Hec Hfitc HBc Hrc.
Let back := f_back_ok F u eta top t ar lpow pw Hpw LOGN LOGq LOGQ LDc LDs G D HP RM rnd s Hr Hs Hsmall Bc ec rc Hencc Hec Hfitc HBc Hrc Bs es rs Hencs Hes Hfits HBs Hrs.

(** the conventional bootstrapping *)
Lemma conventional_core B dmax ct ct_m m I stc sts st pos :
  f_cts_static F lpow LOGQ LOGN LDc g stc -> f_stc_static F Q2 LOGN LDs g sts -> f_ifft_static F LOGN st ->
  mod_raise LOGq LOGQ N ct (sq_new LOGQ N) = Ok ct_m -> decrypts LOGQ N ct_m (coef s) (fun i => m i + 2 ^ LOGq * I i) ->
  (forall i, 0 <= i < N -> Z.abs (I i) <= B) -> (forall i, 0 <= i < N -> (Rabs (IZR (m i)) <= q * dmax)%R) ->
  (IZR B + dmax + f_boot_rounding N h LOGq LDc D dlc B dmax + / 4 <= 24)%R ->
  exists stc' sts' st' pos' ct' w, f_conventional_boot F lpow LOGq LOGQ LOGN LDc LOGq LDs g 24 RM rnd stc sts st pos ct (map Some s) = Ok (stc', sts', st', pos', ct') /\
    f_cts_static F lpow LOGQ LOGN LDc g stc' /\ f_stc_static F Q2 LOGN LDs g sts' /\ f_ifft_static F LOGN st' /\ decrypts Q3 N ct' (coef s) w /\
    forall i, 0 <= i < N -> (Rabs (IZR (w i) - IZR (m i)) <= q * f_conventional_error u eta N h LOGq LDc LDs G D dlc dls B dmax + IZR (1 + h) / 2)%R.
Proof.
  intros Hstc Hsts Hst Emr Hct HI Hm H24.
  destruct (front B dmax ct_m m I stc st pos Hstc Hst Hct HI Hm H24)
    as (stc' & st' & pos' & r0 & r1 & e0 & e1 & x0 & x1 & E1 & Hstc' & Hst' & _ & _ & C0 & C1 & Hx). fold N h q in C0, C1, Hx.
  set (rho := f_boot_rounding N h LOGq LDc D dlc B dmax) in *. set (em := f_boot_mod_error u eta N h LOGq LDc D dlc B dmax) in *.
  pose proof (pipe_Nhalf _ _ _ _ _ _ _ HP s) as Hn2. pose proof (pipe_Nn _ _ _ _ _ _ _ HP s) as HNn. pose proof (pipe_np _ _ _ _ _ _ _ HP s) as Hnp. pose proof (pipe_qp _ _ _ _ _ _ _ HP s) as Hqp. fold N in Hn2, HNn. fold q in Hqp.
  set (n := 2 ^ (LOGN - 1)) in *. set (rev := brv (Z.to_nat (LOGN - 1))) in *.
  assert (HC : forall c x y, carries Q2 N (coef s) c q (fun j => real (x j)) em -> (forall j, 0 <= j < n -> (Rabs (x j - y j) <= rho)%R) -> carries Q2 N (coef s) c q (fun j => real (y j)) (rho + em)).
  { intros c x y Hc Hxy. destruct Hc as (w & Hd & Hsl). exists w. split; [exact Hd|]. rewrite Hn2 in *. intros j Hj. specialize (Hsl j Hj). specialize (Hxy j Hj).
    replace (slots N q w j - real (y j))%num with ((slots N q w j - real (x j)) + real (x j - y j) : RC)%num by (rewrite <- real_minus; ring).
    pose proof (modulus_add (slots N q w j - real (x j))%num (real (x j - y j))) as T. rewrite modulus_real in T. unfold RC in *. lra. }
  assert (Hdm : forall i, 0 <= i < N -> (Rabs (IZR (m i) / q) <= dmax)%R).
  { intros i Hi. specialize (Hm i Hi). unfold Rdiv. rewrite Rabs_mult, (Rabs_right (/ q)) by (apply Rle_ge, Rlt_le, Rinv_0_lt_compat; auto).
    apply (Rmult_le_reg_r q); [auto|]. rewrite Rmult_assoc, Rinv_l, Rmult_1_r by lra. lra. }
  destruct (back sts st' pos' e0 e1 (fun i => IZR (m i) / q)%R (dmax + rho + em) (rho + em) Hsts Hst')
    as (sts' & st2 & pos2 & ct' & w & E2 & Hsts' & Hst2 & Hd & Hw).
  - eapply HC; [exact C0|]. intros j Hj. apply (Hx j Hj).
  - eapply HC; [exact C1|]. intros j Hj. apply (Hx j Hj).
  - intros i Hi. specialize (Hdm i Hi). lra.
  - exists stc', sts', st2, pos2, ct', w. split.
    { unfold f_conventional_boot, boot_N, g. fold N. rewrite Emr. cbn [bind]. rewrite E1. cbn [bind fst snd]. rewrite E2. reflexivity. }
    split; [exact Hstc'|]. split; [exact Hsts'|]. split; [exact Hst2|]. split; [exact Hd|]. intros i Hi. specialize (Hw i Hi). fold N h q in Hw.
    replace (q * (IZR (m i) / q))%R with (IZR (m i)) in Hw by (field; lra). exact Hw.
Qed.

(** the proposed bootstrapping *)
Lemma proposed_core B dmax ct ct_m m I stc sts st pos :
  f_cts_static F lpow LOGQ LOGN LDc g stc -> f_stc_static F Q2 LOGN LDs g sts -> f_ifft_static F LOGN st ->
  mod_raise LOGq LOGQ N ct (sq_new LOGQ N) = Ok ct_m -> decrypts LOGQ N ct_m (coef s) (fun i => m i + 2 ^ LOGq * I i) ->
  (forall i, 0 <= i < N -> Z.abs (I i) <= B) -> (forall i, 0 <= i < N -> (Rabs (IZR (m i)) <= q * dmax)%R) ->
  (IZR B + dmax + f_boot_rounding N h LOGq LDc D dlc B dmax + / 4 <= 24)%R ->
  exists stc' sts' st' pos' ct' w, f_proposed_boot F lpow LOGq LOGQ LOGN LDc LOGq LDs g 24 RM rnd stc sts st pos ct (map Some s) = Ok (stc', sts', st', pos', ct') /\
    f_cts_static F lpow LOGQ LOGN LDc g stc' /\ f_stc_static F Q2 LOGN LDs g sts' /\ f_ifft_static F LOGN st' /\ decrypts Q3 N ct' (coef s) w /\
    forall i, 0 <= i < N -> (Rabs (IZR (w i) - IZR (m i)) <= q * f_proposed_error u eta N h LOGq LDc LDs G D dlc dls B dmax + IZR (1 + h) / 2)%R.
Proof.
  intros Hstc Hsts Hst Emr Hct HI Hm H24. pose proof HP as [HLN HG HD Hq Hc' Hs' HQ Hw' Hw1'].
  destruct (front B dmax ct_m m I stc st pos Hstc Hst Hct HI Hm H24)
    as (stc' & st' & pos' & r0 & r1 & e0 & e1 & x0 & x1 & E1 & Hstc' & Hst' & R0 & R1 & C0 & C1 & Hx). fold N h q in R0, R1, C0, C1, Hx.
  set (sw := boot_cts_noise N h LOGq LDc D) in *. set (em := f_boot_mod_error u eta N h LOGq LDc D dlc B dmax) in *.
  pose proof (pipe_Nhalf _ _ _ _ _ _ _ HP s) as Hn2. pose proof (pipe_Nn _ _ _ _ _ _ _ HP s) as HNn. pose proof (pipe_np _ _ _ _ _ _ _ HP s) as Hnp. pose proof (pipe_qp _ _ _ _ _ _ _ HP s) as Hqp. fold N in Hn2, HNn. fold q in Hqp.
  set (n := 2 ^ (LOGN - 1)) in *. set (rev := brv (Z.to_nat (LOGN - 1))) in *. set (Q1 := LOGQ - Z.of_nat D * LDc) in *.
  assert (HDz : 0 <= Z.of_nat D * LDc /\ 0 <= Z.of_nat D * LDs) by lia.
  assert (HQI : forall r e x y, carries Q1 N (coef s) r q (fun j => real (x j)) sw -> carries Q2 N (coef s) e q (fun j => real (x j - y j)) em ->
    exists c, evalqI LOGQ LOGN LDc LOGq g r e = Ok c /\ carries Q2 N (coef s) c q (fun j => real (y j)) (sw + em)).
  { intros r e x y (wr & Dr & Sr) (we & De & Se). unfold g, evalqI, LOGQ_after_evalmod, LOGQ_after_cts, boot_N. rewrite (pipe_Ddiv _ _ _ _ _ _ _ HP s). fold N Q1. change (Q1 - 12 * LOGq) with Q2.
    destruct (resize_down Q1 Q2 N r (coef s) wr (sq_new Q2 N)) as (c & Ec & Dc); [unfold Q2, Q1; lia|lia|apply objS_new; unfold Q2, Q1; lia|exact Dr|].
    rewrite Ec. cbn [bind]. destruct (C36_sub Q2 N c e (coef s) wr we) as (c2 & Ec2 & Dc2); [unfold Q2, Q1; lia|lia|exact Dc|exact De|].
    exists c2. split; [exact Ec2|]. exists (fun i => wr i - we i)%Z. split; [exact Dc2|]. rewrite Hn2 in *. intros j Hj. specialize (Sr j Hj). specialize (Se j Hj).
    rewrite slots_sub. 
    replace (slots N q wr j - slots N q we j - real (y j))%num with ((slots N q wr j - real (x j)) + - (slots N q we j - real (x j - y j)) : RC)%num by (rewrite <- real_minus; ring).
    pose proof (modulus_add (slots N q wr j - real (x j))%num (- (slots N q we j - real (x j - y j)))%num) as T. rewrite modulus_opp in T. unfold RC in *. lra. }
  destruct (HQI r0 e0 x0 (fun j => IZR (I (rev j))) R0 C0) as (q0 & E2 & Q0).
  destruct (HQI r1 e1 x1 (fun j => IZR (I (rev j + n)%Z)) R1 C1) as (q1 & E3 & Q1').
  destruct (back sts st' pos' q0 q1 (fun i => IZR (I i)) (IZR B + (sw + em)) (sw + em) Hsts Hst' Q0 Q1')
    as (sts' & st2 & pos2 & ct' & w & E4 & Hsts' & Hst2 & Hd & Hw).
  { intros i Hi. apply Rplus_le_compat_r. rewrite <- abs_IZR. apply IZR_le. auto. }
  fold N h q in Hw, Hd.
  destruct (resize_down LOGQ Q3 N ct_m (coef s) (fun i => m i + 2 ^ LOGq * I i) (sq_new Q3 N)) as (cr & E5 & Dr); [| |apply objS_new|exact Hct|]; try (unfold Q3, Q2, Q1; lia).
  destruct (C36_sub Q3 N cr ct' (coef s) (fun i => m i + 2 ^ LOGq * I i) w) as (cf & E6 & Df); [| |exact Dr|exact Hd|]; try (unfold Q3, Q2, Q1; lia).
  eexists stc', sts', st2, pos2, cf, _. split.
  { unfold g in E2, E3. unfold f_proposed_boot, boot_N, g. fold N. rewrite Emr. cbn [bind]. rewrite E1. cbn [bind fst snd]. rewrite E2. cbn [bind]. rewrite E3. cbn [bind]. rewrite E4. cbn [bind].
    unfold LOGQ_after_stc, LOGQ_after_evalmod, LOGQ_after_cts. rewrite (pipe_Ddiv _ _ _ _ _ _ _ HP s). fold Q1. change (Q1 - 12 * LOGq) with Q2. fold Q3. rewrite E5. cbn [bind]. rewrite E6. reflexivity. }
  split; [exact Hstc'|]. split; [exact Hsts'|]. split; [exact Hst2|]. split; [exact Df|]. intros i Hi. specialize (Hw i Hi). cbv beta. rewrite minus_IZR, plus_IZR, mult_IZR.
  change (IZR (2 ^ LOGq)) with q. replace (IZR (m i) + q * IZR (I i) - IZR (w i) - IZR (m i))%R with (- (IZR (w i) - q * IZR (I i)))%R by ring. rewrite Rabs_Ropp. exact Hw.
Qed.

(** The same for every ciphertext of a message under a key with few nonzero coefficients: mod_raise adds multiples of q up to 1 + h/2. *)
Lemma conventional_key_core B dmax ct m stc sts st pos :
  f_cts_static F lpow LOGQ LOGN LDc g stc -> f_stc_static F Q2 LOGN LDs g sts -> f_ifft_static F LOGN st ->
  decrypts LOGq N ct (coef s) m -> (forall i, 0 <= i < N -> - 2 ^ (LOGq - 1) <= m i < 2 ^ (LOGq - 1)) -> (forall i, 0 <= i < N -> (Rabs (IZR (m i)) <= q * dmax)%R) ->
  h + 2 <= 2 * B -> (IZR B + dmax + f_boot_rounding N h LOGq LDc D dlc B dmax + / 4 <= 24)%R ->
  exists stc' sts' st' pos' ct' w, f_conventional_boot F lpow LOGq LOGQ LOGN LDc LOGq LDs g 24 RM rnd stc sts st pos ct (map Some s) = Ok (stc', sts', st', pos', ct') /\
    f_cts_static F lpow LOGQ LOGN LDc g stc' /\ f_stc_static F Q2 LOGN LDs g sts' /\ f_ifft_static F LOGN st' /\ decrypts Q3 N ct' (coef s) w /\
    forall i, 0 <= i < N -> (Rabs (IZR (w i) - IZR (m i)) <= q * f_conventional_error u eta N h LOGq LDc LDs G D dlc dls B dmax + IZR (1 + h) / 2)%R.
Proof.
  intros Hstc Hsts Hst Hct Hms Hm HB H24. pose proof HP as [HLN HG HD Hq Hc' Hs' HQ Hw' Hw1'].
  assert (HN : 1 <= N) by (pose proof (pipe_Nn _ _ _ _ _ _ _ HP s); pose proof (pipe_np _ _ _ _ _ _ _ HP s); unfold N; lia).
  destruct (C43_mod_raise LOGq LOGQ N ct (sq_new LOGQ N) (coef s) m ltac:(lia) ltac:(lia) HN (new_object2 LOGQ N ltac:(lia) ltac:(lia)) Hct) as (ct_m & I & E & Hd & HI).
  { intros i Hi. split; [apply Hms; auto|]. exists 0. lia. }
  apply (conventional_core B dmax ct ct_m m I stc sts st pos); auto. intros i Hi. specialize (HI i Hi). fold h in HI. lia.
Qed.
Lemma proposed_key_core B dmax ct m stc sts st pos :
  f_cts_static F lpow LOGQ LOGN LDc g stc -> f_stc_static F Q2 LOGN LDs g sts -> f_ifft_static F LOGN st ->
  decrypts LOGq N ct (coef s) m -> (forall i, 0 <= i < N -> - 2 ^ (LOGq - 1) <= m i < 2 ^ (LOGq - 1)) -> (forall i, 0 <= i < N -> (Rabs (IZR (m i)) <= q * dmax)%R) ->
  h + 2 <= 2 * B -> (IZR B + dmax + f_boot_rounding N h LOGq LDc D dlc B dmax + / 4 <= 24)%R ->
  exists stc' sts' st' pos' ct' w, f_proposed_boot F lpow LOGq LOGQ LOGN LDc LOGq LDs g 24 RM rnd stc sts st pos ct (map Some s) = Ok (stc', sts', st', pos', ct') /\
    f_cts_static F lpow LOGQ LOGN LDc g stc' /\ f_stc_static F Q2 LOGN LDs g sts' /\ f_ifft_static F LOGN st' /\ decrypts Q3 N ct' (coef s) w /\
    forall i, 0 <= i < N -> (Rabs (IZR (w i) - IZR (m i)) <= q * f_proposed_error u eta N h LOGq LDc LDs G D dlc dls B dmax + IZR (1 + h) / 2)%R.
Proof.
  intros Hstc Hsts Hst Hct Hms Hm HB H24. pose proof HP as [HLN HG HD Hq Hc' Hs' HQ Hw' Hw1'].
  assert (HN : 1 <= N) by (pose proof (pipe_Nn _ _ _ _ _ _ _ HP s); pose proof (pipe_np _ _ _ _ _ _ _ HP s); unfold N; lia).
  destruct (C43_mod_raise LOGq LOGQ N ct (sq_new LOGQ N) (coef s) m ltac:(lia) ltac:(lia) HN (new_object2 LOGQ N ltac:(lia) ltac:(lia)) Hct) as (ct_m & I & E & Hd & HI).
  { intros i Hi. split; [apply Hms; auto|]. exists 0. lia. }
  apply (proposed_core B dmax ct ct_m m I stc sts st pos); auto. intros i Hi. specialize (HI i Hi). fold h in HI. lia.
Qed.

Lemma conventional_experiment_core B dmax stc sts st pos pt m :
  f_cts_static F lpow LOGQ LOGN LDc g stc -> f_stc_static F Q2 LOGN LDs g sts -> f_ifft_static F LOGN st ->
  holdsP LOGq N pt m -> (forall i, 0 <= i < N -> - 2 ^ (LOGq - 1) <= m i - 8 /\ m i + 8 < 2 ^ (LOGq - 1)) -> (forall i, 0 <= i < N -> (Rabs (IZR (m i)) + 8 <= q * dmax)%R) ->
  h + 2 <= 2 * B -> (IZR B + dmax + f_boot_rounding N h LOGq LDc D dlc B dmax + / 4 <= 24)%R ->
  exists e d, boot_experiment LOGq LOGQ LOGN LDc LOGq LDs g RM rnd (f_conventional_boot F lpow LOGq LOGQ LOGN LDc LOGq LDs g 24 RM rnd) stc sts st pos pt (map Some s) = Ok e /\ holdsP Q3 N e d /\
    forall i, 0 <= i < N -> (Rabs (IZR (d i)) <= q * f_conventional_error u eta N h LOGq LDc LDs G D dlc dls B dmax + IZR (1 + h) / 2 + 8)%R.
Proof.
  intros Hstc Hsts Hst Hpt Hms Hm HB H24. apply (experiment_error LOGN LOGq LOGQ LDc LDs G D HP RM rnd s Hr Hs _ _ dmax stc sts st pos pt m); auto. intros ct m' pos' Hd Hs' Hm'.
  destruct (conventional_key_core B dmax ct m' stc sts st pos') as (a1 & a2 & a3 & a4 & a5 & w & E & _ & _ & _ & Hw); auto. exists a1, a2, a3, a4, a5, w. auto.
Qed.
Lemma proposed_experiment_core B dmax stc sts st pos pt m :
  f_cts_static F lpow LOGQ LOGN LDc g stc -> f_stc_static F Q2 LOGN LDs g sts -> f_ifft_static F LOGN st ->
  holdsP LOGq N pt m -> (forall i, 0 <= i < N -> - 2 ^ (LOGq - 1) <= m i - 8 /\ m i + 8 < 2 ^ (LOGq - 1)) -> (forall i, 0 <= i < N -> (Rabs (IZR (m i)) + 8 <= q * dmax)%R) ->
  h + 2 <= 2 * B -> (IZR B + dmax + f_boot_rounding N h LOGq LDc D dlc B dmax + / 4 <= 24)%R ->
  exists e d, boot_experiment LOGq LOGQ LOGN LDc LOGq LDs g RM rnd (f_proposed_boot F lpow LOGq LOGQ LOGN LDc LOGq LDs g 24 RM rnd) stc sts st pos pt (map Some s) = Ok e /\ holdsP Q3 N e d /\
    forall i, 0 <= i < N -> (Rabs (IZR (d i)) <= q * f_proposed_error u eta N h LOGq LDc LDs G D dlc dls B dmax + IZR (1 + h) / 2 + 8)%R.
Proof.
  intros Hstc Hsts Hst Hpt Hms Hm HB H24. apply (experiment_error LOGN LOGq LOGQ LDc LDs G D HP RM rnd s Hr Hs _ _ dmax stc sts st pos pt m); auto. intros ct m' pos' Hd Hs' Hm'.
  destruct (proposed_key_core B dmax ct m' stc sts st pos') as (a1 & a2 & a3 & a4 & a5 & w & E & _ & _ & _ & Hw); auto. exists a1, a2, a3, a4, a5, w. auto.
Qed.
End Pipe.
