(** C45, C46: linear transforms of ciphertexts by matrices given by their diagonals. *)
From Coq Require Import ZArith List Bool Lia Reals Lra Ring Znumtheory.
From Verif Require Import Base BaseFacts Sums ZQ ZQFacts ZQFacts2 ZQFacts3 RQ RQFacts Conv ConvFacts Rot RotFacts Core CoreFacts Util UtilFacts GSum Matrix MatrixFacts MatMulFacts
  DFT DFTTheory DFTFacts FFTFacts PolyRing Noise SpecZQ SpecPoly SpecPolyFacts SpecScheme SpecMat Properties_Mat SpecDFT Properties_DFT SpecEnc SlotFacts
  Encode EncodeFacts Properties_Conv Properties_Core Properties_Rot Properties_Enc Properties_Plain SpecLin LinTrans LinTransFacts LinSlots.
Import ListNotations.
Open Scope Z_scope.
Add Ring RCpl : HR.

(** the coefficients with given slots are unique *)
Lemma slots_unique LOGN p q : 2 <= LOGN <= 27 -> (forall j, 0 <= j < 2 ^ (LOGN - 1) -> slot (2 ^ LOGN) p j = slot (2 ^ LOGN) q j) ->
  forall i, 0 <= i < 2 ^ LOGN -> p i = q i.
Proof.
  intros HL H i Hi. pose proof (coef_slots LOGN (fun i => p i - q i)%R 0%R HL) as T. cbv beta in T.
  assert (T2 : (Rabs (p i - q i) <= 0)%R).
  { apply T; auto. intros j Hj. rewrite slot_sub, H by auto. match goal with |- (modulus ?x <= _)%R => replace x with (0%num : RC) by ring end. rewrite modulus_0. lra. }
  pose proof (Rle_abs (p i - q i)). pose proof (Rle_abs (- (p i - q i))). rewrite Rabs_Ropp in *. lra.
Qed.

Section Lin.
Context (LOGQ LOGN LOGDELTA : Z) (s : list Z).
Context (HQ : widths LOGQ) (HQ2 : widths (2 * LOGQ)) (HL : 2 <= LOGN <= 17) (HD : 0 <= LOGDELTA < 64).
Let N := 2 ^ LOGN.
Let n := 2 ^ (LOGN - 1).
Context (Hs : ternary N s).
Let Delta := 2 ^ LOGDELTA.
Let E := noise N (coef s).

Lemma split_error S (skip : Z -> bool) (o : Z -> Z) (mr e c : Z -> Z -> Z) :
  (forall t, 0 <= t < S -> skip t = false -> forall i, 0 <= i < N -> 2 * Z.abs (e t i) <= if o t =? 0 then 0 else E) ->
  exists err, (forall i, 0 <= i < N -> 2 * Z.abs (err i) <= zsum S (fun t => if skip t || (o t =? 0) then 0 else E * norm1 N (c t))) /\
    forall i, zsum S (fun t => if skip t then 0 else negconv N (fun i => mr t i + e t i) (c t) i)
      = zsum S (fun t => if skip t then 0 else negconv N (mr t) (c t) i) + err i.
Proof.
  intros He. exists (fun i => zsum S (fun t => if skip t then 0 else negconv N (e t) (c t) i)). split.
  - intros i Hi. pose proof (Npos LOGN ltac:(lia)) as HN. fold N in HN.
    eapply Z.le_trans with (2 * zsum S (fun t => Z.abs (if skip t then 0 else negconv N (e t) (c t) i))); [apply Z.mul_le_mono_nonneg_l; [lia|apply zsum_abs]|].
    rewrite <- zsum_scal. apply zsum_le. intros t Ht. destruct (skip t) eqn:Hk; cbn [orb]; [lia|]. specialize (He t Ht Hk).
    assert (B : Z.abs (negconv N (c t) (fun i => 2 * e t i) i) <= zsum N (fun k => Z.abs (c t k)) * (if o t =? 0 then 0 else E)).
    { apply negconv_bound1; auto.
      - destruct (o t =? 0); [lia|]. unfold E, noise. pose proof (norm1_nonneg N (coef s)). lia.
      - intros k Hk'. specialize (He k Hk'). lia. }
    rewrite negconv_scal_r in B by lia. rewrite <- (negconv_comm N ltac:(lia) (e t) (c t) i Hi) in B. fold (norm1 N (c t)) in B. destruct (o t =? 0); lia.
  - intros i. rewrite <- zsum_add. apply zsum_ext. intros t Ht. destruct (skip t); [lia|]. apply negconv_add_l.
Qed.

Section One.
Context (S : Z) (A : Z -> Z -> CC) (o : Z -> Z) (zr zi : Z -> bool).
Let Ar := diagonals n S (fun t j => cre Rops (A t j)) o zr.
Let Ai := diagonals n S (fun t j => cim Rops (A t j)) o zi.
Let skip t := zr t && zi t.
Context (HS : 0 <= S).
Context (Hb : forall t j, 0 <= t < S -> skip t = false -> 0 <= j < n -> entry_small LOGQ LOGDELTA (A t j)).

(** ** C46 *)
Section Key.
Context (RM : Z) (rnd : nat -> Z) (Hr : rand_stream RM rnd).
Context (Ho : forall t, 0 <= t < S -> skip t = false -> 0 <= o t).

(** The result decrypts to the sum over the diagonals of the rotated message times the encoded diagonal, plus an error
    of at most half the noise of a key switch times the sum of the moduli of the coefficients of the encoding. *)
Theorem C46_linear_transform ct m st pos Act : ifft_static LOGN st -> decrypts LOGQ N ct (coef s) m -> object2 LOGQ N Act ->
  exists st' pos' Act' mr c err, linear_transform LOGQ LOGN LOGDELTA RM rnd S st pos Ar Ai ct (map Some s) Act = Ok (st', pos', Act') /\
    (forall t, 0 <= t < S -> skip t = false -> substituted N (5 ^ o t) m (mr t) /\
       forall p, (forall j, 0 <= j < n -> slot N p j = A t j) -> forall i, 0 <= i < N -> nearest (p i * IZR Delta) (c t i)) /\
    (forall i, 0 <= i < N -> 2 * Z.abs (err i) <= zsum S (fun t => if skip t || (o t =? 0) then 0 else E * norm1 N (c t))) /\
    decrypts LOGQ N Act' (coef s) (fun i => zsum S (fun t => if skip t then 0 else negconv N (mr t) (c t) i) + err i).
Proof.
  intros Hst Hct Hact. destruct (entries LOGQ LOGN LOGDELTA s HL HD S A zr zi HS Hb) as (mc & Hmc & Hmb). fold N n in Hmc, Hmb.
  destruct (lt_loop LOGQ LOGN LOGDELTA RM rnd s HQ HQ2 HL HD Hr Hs S A o zr zi mc HS Ho (fun t j H _ => Hmc t j H) Hmb ct m st pos Act Hst Hct Hact)
    as (st' & pos' & Act' & mr & e & E1 & _ & Hmr & Hd). fold N n in E1, Hmr, Hd.
  destruct (split_error S skip o mr e (cof LOGDELTA mc)) as (err & Herr & Eerr); [intros; apply Hmr; auto|].
  exists st', pos', Act', mr, (cof LOGDELTA mc), err. split; [exact E1|]. split; [|split; [exact Herr|]].
  - intros t Ht Hk. split; [apply Hmr; auto|]. intros p Hp i Hi. rewrite (slots_unique LOGN p (mc t) ltac:(lia)); auto.
    + apply rround_near.
    + intros j Hj. fold N. rewrite Hp, Hmc; auto.
  - eapply decrypts_ext; [|exact Hd]. intros i Hi. cbv beta. apply Eerr.
Qed.
(** The slots of the result: the matrix, without the diagonals flagged zero, applied to the slots of the message. *)
Theorem C46_slots ct m st pos Act : ifft_static LOGN st -> decrypts LOGQ N ct (coef s) m -> object2 LOGQ N Act ->
  exists st' pos' Act' w, linear_transform LOGQ LOGN LOGDELTA RM rnd S st pos Ar Ai ct (map Some s) Act = Ok (st', pos', Act') /\
    ifft_static LOGN st' /\ decrypts LOGQ N Act' (coef s) w /\
    forall D0 j, (0 < D0)%R -> 0 <= j < n ->
      (modulus (slots N (IZR Delta * D0) w j - apply n (matrix_of n S (live zr zi A) o) (slots N D0 m) j)%num <= lt_error N n Delta E S A o zr zi (slots N D0 m) D0 j)%R.
Proof. apply (lt_slots LOGQ LOGN LOGDELTA RM rnd s HQ HQ2 HL HD Hr Hs S A o zr zi HS Ho Hb). Qed.

(** Decrypted and decoded. *)
Theorem C46_decoded ct m st pos Act (D0 : Z) B Dpt st2 dr di : ifft_static LOGN st -> decrypts LOGQ N ct (coef s) m -> object2 LOGQ N Act -> objectP LOGQ N Dpt ->
  fft_static LOGN st2 -> cells n dr -> cells n di -> 0 < D0 -> Delta * D0 < 2 ^ 64 ->
  (forall j, 0 <= j < n -> (modulus (apply n (matrix_of n S (live zr zi A) o) (slots N (IZR D0) m) j) + lt_error N n Delta E S A o zr zi (slots N (IZR D0) m) (IZR D0) j <= B)%R) ->
  (IZR Delta * IZR D0 * B < IZR (2 ^ (LOGQ - 1)))%R ->
  exists st' pos' Act' pt st2' z', linear_transform LOGQ LOGN LOGDELTA RM rnd S st pos Ar Ai ct (map Some s) Act = Ok (st', pos', Act') /\
    dec LOGQ N Act' (map Some s) Dpt = Ok pt /\ decode LOGQ LOGN st2 pt (Delta * D0) dr di = Ok (st2', carray (K := Rops) n z') /\
    forall j, 0 <= j < n ->
      (modulus (z' j - apply n (matrix_of n S (live zr zi A) o) (slots N (IZR D0) m) j)%num <= lt_error N n Delta E S A o zr zi (slots N (IZR D0) m) (IZR D0) j)%R.
Proof.
  intros Hst Hct Hact Hpt Hst2 Hdr Hdi HD0 HDD HB Hsz. assert (HQ1 : 1 <= LOGQ) by (unfold widths in HQ; lia). pose proof (Npos LOGN ltac:(lia)) as HN. fold N in HN.
  pose proof (pow2_word LOGDELTA HD) as HDp. fold Delta in HDp. assert (HDr : (0 < IZR Delta)%R) by (apply IZR_lt; lia).
  assert (HD0r : (0 < IZR D0)%R) by (apply IZR_lt; lia).
  destruct (C46_slots ct m st pos Act Hst Hct Hact) as (st' & pos' & Act' & w & E1 & _ & Hd & Hw).
  destruct (C35_dec LOGQ N Act' s w Dpt HQ1 ltac:(lia) Hs Hpt Hd) as (pt & E2 & Hpt2).
  destruct (C55_decode LOGQ LOGN HQ1 ltac:(lia) (Delta * D0) st2 pt w dr di ltac:(nia) Hst2 Hdr Hdi) as [st2' E3].
  { split; [exact Hpt2|]. apply (signed_slots LOGQ LOGN w (IZR Delta * IZR D0)%R B); auto; try lia; [apply Rmult_lt_0_compat; auto|].
    intros j Hj. fold N. specialize (Hw _ j HD0r Hj). specialize (HB j Hj).
    eapply Rle_trans; [apply modulus_near with (y := apply n (matrix_of n S (live zr zi A) o) (slots N (IZR D0) m) j)|]. lra. }
  exists st', pos', Act', pt, st2', (slots N (IZR (Delta * D0)) w). split; [exact E1|]. split; [exact E2|]. split; [exact E3|].
  intros j Hj. rewrite mult_IZR. apply Hw; auto.
Qed.
End Key.

(** ** C45 *)
(** A diagonal with offset 0 that is not flagged zero: the ciphertext that is multiplied has no value. *)
Theorem C45_offset_zero ct rkey st Act t0 : ifft_static LOGN st -> object2 LOGQ N Act -> 0 <= t0 < S ->
  (forall t, 0 <= t < t0 -> skip t = true) -> skip t0 = false -> o t0 = 0 ->
  lt_rkey LOGQ LOGN LOGDELTA S st Ar Ai ct rkey Act = Undef.
Proof.
  intros Hst Hact Ht0 Hsk Hk Ho0. assert (HQ1 : 1 <= LOGQ) by (unfold widths in HQ; lia). pose proof (Npos LOGN ltac:(lia)) as HN. fold N in HN.
  destruct (setzero_decrypts LOGQ N Act (coef s) HQ1 ltac:(lia) Hact) as (A0 & E0 & H0). unfold lt_rkey. fold N. rewrite E0. cbn [bind].
  destruct (entries LOGQ LOGN LOGDELTA s HL HD S A zr zi HS Hb) as (mc & Hmc & Hmb). fold N n in Hmc, Hmb.
  pose proof (pow2_word LOGDELTA HD) as HDp. fold Delta in HDp.
  destruct (C54_encode LOGQ LOGN HQ1 ltac:(lia) Delta st (A t0) (mc t0) (rq_new LOGQ N) HDp Hst) as (st' & pt & c & E1 & _ & _).
  { apply objP_object; try lia. apply objP_new. }
  { intros j Hj. apply Hmc; auto. }
  { intros i Hi. apply Hmb; auto. }
  fold N n in E1. rewrite (for_split _ 0 t0 S) by lia.
  match goal with |- bind (for_ 0 t0 ?b ?s0) _ = _ => assert (Ef : for_ 0 t0 b s0 = Ok s0) end.
  { match goal with |- for_ 0 t0 ?b ?s0 = _ => destruct (for_inv b (fun _ w => w = s0) 0 t0 s0 ltac:(lia) eq_refl) as (w & Ew & ->); [|exact Ew] end.
    intros t w Ht ->. specialize (Hsk t Ht). unfold skip in Hsk. apply andb_prop in Hsk. destruct Hsk as [H1 H2].
    unfold Ar, Ai. rewrite !diagonals_sdi, !get_zero_sdi by lia. cbn [bind]. rewrite H1, H2. cbn [negb bind]. eexists. split; reflexivity. }
  rewrite Ef. cbn [bind]. rewrite for_step by lia.
  unfold Ar, Ai. rewrite !diagonals_sdi, !get_zero_sdi, !get_off_sdi by lia. cbn [bind].
  assert (Hz : (if negb (zr t0) then Ok true else Ok (negb (zi t0))) = Ok true) by (unfold skip in Hk; destruct (zr t0), (zi t0); auto; discriminate).
  rewrite Hz. cbn [bind]. unfold sdi at 1 2; cbn [vec]. rewrite !lget_tab by auto. cbn [bind]. rewrite one_shl_ok by auto. cbn [bind]. fold Delta.
  unfold carray in E1; cbn [fst snd] in E1. rewrite !array_gtab in E1. rewrite E1. cbn [bind]. rewrite Ho0. cbn [Z.eqb negb bind].
  unfold sq_mul. unfold sq_new; cbn [fst snd]. unfold rq_copy. rewrite for_step by lia.
  unfold rq_new. rewrite repeat_tab. rewrite lget_tab by lia. cbn [bind]. unfold pupd. rewrite lget_tab by lia. cbn [bind].
  unfold zq_copy. rewrite for_step by (pose proof (len_bounds LOGQ HQ1); lia).
  assert (Er : rd (zq_new LOGQ) 0 = Undef).
  { unfold zq_new, fresh, rd. rewrite repeat_tab. rewrite lget_tab by (pose proof (len_bounds LOGQ HQ1); lia). reflexivity. }
  rewrite Er. reflexivity.
Qed.

(** With offsets different from 0 and the right keys it is as good as the version with the secret key. *)
Theorem C45_linear_transform_keys_partial ct m rkey st Act :
  ifft_static LOGN st -> decrypts LOGQ N ct (coef s) m -> object2 LOGQ N Act ->
  (forall t, 0 <= t < S -> skip t = false -> 0 < o t /\ exists key s', nth_error rkey (Z.to_nat t) = Some (Some key) /\
     substituted N (5 ^ o t) (coef s) s' /\ switching_key LOGQ N key s' (coef s)) ->
  exists st' Act' mr c err, lt_rkey LOGQ LOGN LOGDELTA S st Ar Ai ct rkey Act = Ok (st', Act') /\
    (forall t, 0 <= t < S -> skip t = false -> substituted N (5 ^ o t) m (mr t) /\
       forall p, (forall j, 0 <= j < n -> slot N p j = A t j) -> forall i, 0 <= i < N -> nearest (p i * IZR Delta) (c t i)) /\
    (forall i, 0 <= i < N -> 2 * Z.abs (err i) <= zsum S (fun t => if skip t || (o t =? 0) then 0 else E * norm1 N (c t))) /\
    decrypts LOGQ N Act' (coef s) (fun i => zsum S (fun t => if skip t then 0 else negconv N (mr t) (c t) i) + err i).
Proof.
  intros Hst Hct Hact Hkeys. assert (HQ1 : 1 <= LOGQ) by (unfold widths in HQ; lia). pose proof (Npos LOGN ltac:(lia)) as HN. fold N in HN.
  pose proof (pow2_word LOGDELTA HD) as HDp. fold Delta in HDp.
  destruct (setzero_decrypts LOGQ N Act (coef s) HQ1 ltac:(lia) Hact) as (A0 & E0 & H0).
  destruct (entries LOGQ LOGN LOGDELTA s HL HD S A zr zi HS Hb) as (mc & Hmc & Hmb). fold N n in Hmc, Hmb.
  assert (G : exists st' Act' mr e, lt_rkey LOGQ LOGN LOGDELTA S st Ar Ai ct rkey Act = Ok (st', Act') /\
    (forall t, 0 <= t < S -> skip t = false -> substituted N (5 ^ o t) m (mr t) /\ forall i, 0 <= i < N -> 2 * Z.abs (e t i) <= if o t =? 0 then 0 else E) /\
    decrypts LOGQ N Act' (coef s) (fun i => zsum S (fun t => if skip t then 0 else negconv N (fun i => mr t i + e t i) (cof LOGDELTA mc t) i))).
  { unfold lt_rkey. fold N. rewrite E0. cbn [bind].
    match goal with |- context [for_ 0 S ?body ?s0] => destruct (for_inv body (fun k (w : tables * sq) => let '(st, Act) := w in
      ifft_static LOGN st /\ exists mr e,
      (forall t, 0 <= t < k -> skip t = false -> substituted N (5 ^ o t) m (mr t) /\ forall i, 0 <= i < N -> 2 * Z.abs (e t i) <= if o t =? 0 then 0 else E) /\
      decrypts LOGQ N Act (coef s) (fun i => zsum k (fun t => if skip t then 0 else negconv N (fun i => mr t i + e t i) (cof LOGDELTA mc t) i)))
      0 S s0 HS) as (w & Ew & Hw) end.
    - split; [auto|]. exists (fun _ _ => 0), (fun _ _ => 0). split; [intros; lia|]. eapply decrypts_ext; [|exact H0]. intros i Hi. rewrite zsum_nil by lia. reflexivity.
    - intros t [st1 Act1] Ht (Hst1 & mr & e & H1 & H2). unfold Ar, Ai. rewrite !diagonals_sdi, !get_zero_sdi, !get_off_sdi by auto. cbn [bind]. destruct (skip t) eqn:Hk.
      + assert (Hz : (if negb (zr t) then Ok true else Ok (negb (zi t))) = Ok false) by (unfold skip in Hk; destruct (zr t), (zi t); auto; discriminate).
        rewrite Hz. cbn [bind]. eexists. split; [reflexivity|]. split; auto. exists mr, e. split.
        * intros u Hu Hsu. destruct (Z.eq_dec u t) as [->|]; [congruence|]. apply H1; auto. lia.
        * eapply decrypts_ext; [|exact H2]. intros i Hi. cbv beta. rewrite zsum_S by lia. rewrite Hk. lia.
      + assert (Hz : (if negb (zr t) then Ok true else Ok (negb (zi t))) = Ok true) by (unfold skip in Hk; destruct (zr t), (zi t); auto; discriminate).
        rewrite Hz. cbn [bind]. unfold sdi at 1 2; cbn [vec]. rewrite !lget_tab by auto. cbn [bind]. rewrite one_shl_ok by auto. cbn [bind]. fold Delta.
        destruct (C54_encode LOGQ LOGN HQ1 ltac:(lia) Delta st1 (A t) (mc t) (rq_new LOGQ N) HDp Hst1) as (st2 & pt & c & E1 & Hc & Hc2).
        { apply objP_object; try lia. apply objP_new. }
        { intros j Hj. apply Hmc; auto. }
        { intros i Hi. apply Hmb; auto. }
        fold N n in E1, Hc, Hc2. pose proof (encode_static _ _ _ _ _ _ _ _ _ Hst1 E1) as Hst2.
        unfold carray in E1; cbn [fst snd] in E1. rewrite !array_gtab in E1. rewrite E1. cbn [bind].
        destruct (Hkeys t Ht Hk) as (Hpos & key & s' & Hnth & Hs' & Hkey).
        destruct (Z.eqb_spec (o t) 0) as [|Hne]; [lia|]. cbn [negb].
        assert (Hg : @lget (option sq) rkey t = Ok (Some (key : sq))) by (unfold lget, sq, poly in *; rewrite Hnth; destruct (Z.leb_spec 0 t); [reflexivity|lia]).
        rewrite Hg. cbn [bind].
        destruct (C42_rot_ct_key LOGN LOGQ ct (coef s) s' m key (sq_new LOGQ N) (o t) ltac:(lia) HQ1 HQ2 ltac:(lia) Hs' Hkey Hct ltac:(apply new_object2; lia)) as (ct' & mr2 & e2 & R1 & R2 & R3 & R4).
        fold N in R1, R2, R3, R4. rewrite R1. cbn [bind].
        destruct (C36_mul_plain LOGN LOGQ ct' (coef s) _ pt c ltac:(lia) HQ R3 Hc) as (ct2 & E2 & Hd2). fold N in E2, Hd2. rewrite E2. cbn [bind].
        destruct (C36_add LOGQ N Act1 ct2 (coef s) _ _ HQ1 ltac:(lia) H2 Hd2) as (Act2 & E3 & Hd3). rewrite E3. cbn [bind].
        eexists. split; [reflexivity|]. split; [exact Hst2|].
        exists (fun u => if u =? t then mr2 else mr u), (fun u => if u =? t then e2 else e u). split.
        * intros u Hu Hsu. destruct (Z.eqb_spec u t) as [->|]; [|apply H1; auto; lia]. split; auto. destruct (Z.eqb_spec (o t) 0); [lia|]. exact R4.
        * eapply decrypts_ext; [|exact Hd3]. intros i Hi. cbv beta. rewrite zsum_S by lia. rewrite Hk, Z.eqb_refl. f_equal.
          -- apply zsum_ext. intros u Hu. destruct (Z.eqb_spec u t); [lia|]. reflexivity.
          -- unfold negconv. apply zsum_ext. intros k Hk'. f_equal. destruct (Z.leb_spec k i); unfold cof; [|f_equal]; apply Hc2; lia.
    - destruct w as [st1 Act1]. destruct Hw as (_ & mr & e & H2 & H3). exists st1, Act1, mr, e. auto. }
  destruct G as (st' & Act' & mr & e & E1 & Hmr & Hd).
  destruct (split_error S skip o mr e (cof LOGDELTA mc)) as (err & Herr & Eerr); [intros; apply Hmr; auto|].
  exists st', Act', mr, (cof LOGDELTA mc), err. split; [exact E1|]. split; [|split; [exact Herr|]].
  - intros t Ht Hk. split; [apply Hmr; auto|]. intros p Hp i Hi. rewrite (slots_unique LOGN p (mc t) ltac:(lia)); auto.
    + apply rround_near.
    + intros j Hj. fold N. rewrite Hp, Hmc; auto.
  - eapply decrypts_ext; [|exact Hd]. intros i Hi. cbv beta. apply Eerr.
Qed.
End One.

(** Offsets that differ between the real and the imaginary part end in the assert. *)
Theorem C46_offsets_differ RM rnd S (vr vi : Z -> Z -> R) o p f g ct st pos Act : 0 <= S -> object2 LOGQ N Act ->
  (0 < S -> o 0 <> p 0 -> linear_transform LOGQ LOGN LOGDELTA RM rnd S st pos (diagonals n S vr o f) (diagonals n S vi p g) ct (map Some s) Act = Abort) /\
  (forall w, linear_transform LOGQ LOGN LOGDELTA RM rnd S st pos (diagonals n S vr o f) (diagonals n S vi p g) ct (map Some s) Act = Ok w ->
    forall t, 0 <= t < S -> o t = p t).
Proof.
  intros HS Hact. assert (HQ1 : 1 <= LOGQ) by (unfold widths in HQ; lia). pose proof (Npos LOGN ltac:(lia)) as HN. fold N in HN.
  destruct (setzero_decrypts LOGQ N Act (coef s) HQ1 ltac:(lia) Hact) as (A0 & E0 & H0). unfold linear_transform. fold N. rewrite E0. cbn [bind]. split.
  - intros HS1 Hne. rewrite for_step by lia. unfold lt_step at 1. rewrite !diagonals_sdi, !get_off_sdi by lia. cbn [bind].
    rewrite (proj2 (Z.eqb_neq _ _) Hne). reflexivity.
  - intros w Ef. refine (for_inv_partial _ (fun k _ => forall t, 0 <= t < k -> o t = p t) 0 S _ _ _ _ _ Ef); [lia|intros; lia|].
    intros k w1 w2 Hk IH E2. destruct w1 as [[st1 pos1] Act1]. unfold lt_step in E2. rewrite !diagonals_sdi, !get_off_sdi in E2 by auto. cbn [bind] in E2.
    destruct (Z.eqb_spec (o k) (p k)) as [He|He]; [|discriminate E2]. intros t Ht. destruct (Z.eq_dec t k) as [->|]; auto. apply IH; lia.
Qed.

(** Several transforms.  The last part: when the values fit the modulus, the decrypted coefficients read as signed
    integers are those whose slots are described. *)
Theorem C46_serial RM rnd S (A : Z -> Z -> Z -> CC) (o : Z -> Z -> Z) (zr zi : Z -> Z -> bool) (D : nat) (a : nat -> R) z0 D0 ct m st pos Act :
  rand_stream RM rnd -> 0 <= S ->
  (forall d t, 0 <= d < Z.of_nat D -> 0 <= t < S -> zr d t && zi d t = false -> 0 <= o d t) ->
  (forall d t j, 0 <= d < Z.of_nat D -> 0 <= t < S -> zr d t && zi d t = false -> 0 <= j < n -> entry_small LOGQ LOGDELTA (A d t j)) ->
  (0 < D0)%R ->
  (forall d j, (d < D)%nat -> 0 <= j < n -> (gsum (K := Rops) S (fun t => modulus (live (zr (Z.of_nat d)) (zi (Z.of_nat d)) (A (Z.of_nat d)) t j)) <= a d)%R) ->
  ifft_static LOGN st -> decrypts LOGQ N ct (coef s) m -> object2 LOGQ N Act ->
  (forall j, 0 <= j < n -> (modulus (slots N D0 m j) <= z0)%R) ->
  let M d := matrix_of n S (live (zr (Z.of_nat d)) (zi (Z.of_nat d)) (A (Z.of_nat d))) (o (Z.of_nat d)) in
  let dl := (IZR S * (IZR N / (2 * IZR Delta)))%R in
  let kp d := (IZR N * IZR E / (2 * (IZR Delta ^ d * D0)))%R in
  exists st' pos' Act' w, serial_lt LOGQ LOGN LOGDELTA RM rnd S (Z.of_nat D) st pos
      (map (fun d => diagonals n S (fun t j => cre Rops (A d t j)) (o d) (zr d)) (range (Z.of_nat D)))
      (map (fun d => diagonals n S (fun t j => cim Rops (A d t j)) (o d) (zi d)) (range (Z.of_nat D))) ct (map Some s) Act = Ok (st', pos', Act') /\
    ifft_static LOGN st' /\ decrypts LOGQ N Act' (coef s) w /\
    (forall j, 0 <= j < n -> (modulus (slots N (IZR Delta ^ D * D0) w j) <= size_after a dl z0 kp D)%R /\
      (modulus (slots N (IZR Delta ^ D * D0) w j - chain n M D (slots N D0 m) j)%num <= error_after a dl z0 kp D)%R) /\
    ((IZR Delta ^ D * D0 * size_after a dl z0 kp D < IZR (2 ^ (LOGQ - 1)))%R ->
      forall Dpt, objectP LOGQ N Dpt -> exists pt, dec LOGQ N Act' (map Some s) Dpt = Ok pt /\ signedP LOGQ N pt w).
Proof.
  intros Hr HS Ho Hb HD0 Ha Hst Hct Hact Hz M dl kp. assert (HQ1 : 1 <= LOGQ) by (unfold widths in HQ; lia). pose proof (Npos LOGN ltac:(lia)) as HN. fold N in HN.
  destruct (serial_slots LOGQ LOGN LOGDELTA RM rnd s HQ HQ2 HL HD Hr Hs S A o zr zi D HS Ho Hb a z0 D0 HD0 Ha ct m st pos Act Hst Hct Hact Hz)
    as (st' & pos' & Act' & w & E1 & Hst' & Hd & Hw).
  exists st', pos', Act', w. split; [exact E1|]. split; [exact Hst'|]. split; [exact Hd|]. split; [exact Hw|].
  intros Hsz Dpt Hpt. destruct (C35_dec LOGQ N Act' s w Dpt HQ1 ltac:(lia) Hs Hpt Hd) as (pt & E2 & Hpt2). exists pt. split; [exact E2|]. split; [exact Hpt2|].
  pose proof (pow2_word LOGDELTA HD) as HDp. fold Delta in HDp. assert (HDr : (0 < IZR Delta)%R) by (apply IZR_lt; lia).
  apply (signed_slots LOGQ LOGN w (IZR Delta ^ D * D0)%R (size_after a dl z0 kp D)); auto; try lia.
  - apply Rmult_lt_0_compat; auto. apply pow_lt; auto.
  - intros j Hj. apply Hw. auto.
Qed.
End Lin.

(** ** Concrete cases *)
Definition s4 : list Z := [1; 0; -1; 0; 0; 1; 0; 0].
Lemma s4_ternary : ternary (2 ^ 3) s4.
Proof. split; [reflexivity|]. unfold s4. repeat constructor; lia. Qed.
(** z j + z (j+1), with one diagonal flagged zero *)
Definition ex_A (t j : Z) : CC := real 1.
Definition ex_z (t : Z) : bool := t =? 2.
Lemma ex_small LOGQ LOGDELTA : 0 <= LOGDELTA < 40 -> 60 <= LOGQ -> entry_small LOGQ LOGDELTA (real 1).
Proof.
  intros HD HQ. unfold entry_small. rewrite modulus_real, Rabs_R1, Rmult_1_l.
  assert (IZR (2 ^ LOGDELTA) <= IZR (2 ^ 40))%R by (apply IZR_le, Z.pow_le_mono_r; lia).
  assert (IZR (2 ^ 60) <= IZR (2 ^ LOGQ))%R by (apply IZR_le, Z.pow_le_mono_r; lia).
  change (2 ^ 40) with 1099511627776 in *. change (2 ^ 60) with 1152921504606846976 in *. change (2 ^ 64) with 18446744073709551616. split; lra.
Qed.
Lemma zero_message LOGQ N s : 1 <= LOGQ -> 1 <= N -> exists ct, decrypts LOGQ N ct s (fun _ => 0).
Proof. intros HQ HN. destruct (setzero_decrypts LOGQ N (sq_new LOGQ N) s HQ HN ltac:(apply new_object2; lia)) as (ct & _ & H). exists ct. exact H. Qed.

(** The identity matrix, given by its diagonal at offset 0, needs no key and gives no defined result. *)
Theorem C45_linear_transform_keys_refuted : exists LOGQ LOGN LOGDELTA S (A : Z -> Z -> CC) o z ct s m rkey st Act,
  widths LOGQ /\ widths (2 * LOGQ) /\ 2 <= LOGN <= 17 /\ 0 <= LOGDELTA < 64 /\ ternary (2 ^ LOGN) s /\ 0 <= S /\ ifft_static LOGN st /\
  (forall t j, entry_small LOGQ LOGDELTA (A t j)) /\ (forall t, 0 <= t < S -> 0 <= o t < 2 ^ (LOGN - 1)) /\
  decrypts LOGQ (2 ^ LOGN) ct (coef s) m /\ object2 LOGQ (2 ^ LOGN) Act /\
  lt_rkey LOGQ LOGN LOGDELTA S st (diagonals (2 ^ (LOGN - 1)) S (fun t j => cre Rops (A t j)) o z) (diagonals (2 ^ (LOGN - 1)) S (fun t j => cim Rops (A t j)) o z) ct rkey Act = Undef.
Proof.
  destruct (zero_message 60 (2 ^ 3) (coef s4) ltac:(lia) ltac:(lia)) as [ct Hct].
  exists 60, 3, 20, 1, ex_A, (fun _ => 0), (fun _ => false), ct, s4, (fun _ => 0), [], None, (sq_new 60 (2 ^ 3)).
  assert (Hsm : forall t j, entry_small 60 20 (ex_A t j)) by (intros; apply ex_small; lia).
  assert (Hob : object2 60 (2 ^ 3) (sq_new 60 (2 ^ 3))) by (apply new_object2; lia).
  split; [left; lia|]. split; [right; lia|]. split; [lia|]. split; [lia|]. split; [apply s4_ternary|]. split; [lia|]. split; [apply ifft_first|].
  split; [exact Hsm|]. split; [intros; lia|]. split; [exact Hct|]. split; [exact Hob|].
  apply (C45_offset_zero 60 3 20 s4 ltac:(left; lia) ltac:(lia) ltac:(lia) 1 ex_A (fun _ => 0) (fun _ => false) (fun _ => false) ltac:(lia)) with (t0 := 0); auto; try lia.
  apply ifft_first.
Qed.

(** a ciphertext for every message and every mask *)
Lemma some_ct LOGQ N s m b : 1 <= LOGQ -> 1 <= N -> decrypts LOGQ N (repP LOGQ N (fun i => m i - negconv N s b i), repP LOGQ N b) s m.
Proof.
  intros HQ HN. eexists _, _. split; [apply repP_holds; lia|]. split; [apply repP_holds; lia|]. intros i Hi. cbv beta. f_equal. lia.
Qed.
Definition ex_m (i : Z) : Z := (i + 1) * 2 ^ 20 - 3.
Lemma ex_slots j : 0 <= j < 4 -> (modulus (slots (2 ^ 3) (IZR (2 ^ 20)) ex_m j) <= 64)%R.
Proof.
  intros Hj. unfold slots. replace 64%R with (IZR (2 ^ 3) * 8)%R by (change (2 ^ 3) with 8; lra). apply modulus_slot; [lia|]. intros i Hi.
  unfold ex_m. change (2 ^ 20) with 1048576 in *. change (2 ^ 3) with 8 in Hi. rewrite Rabs_right.
  - assert (H : (IZR ((i + 1) * 1048576 - 3) <= IZR (8 * 1048576))%R) by (apply IZR_le; lia). rewrite mult_IZR in H. unfold Rdiv. lra.
  - assert (0 <= IZR ((i + 1) * 1048576 - 3))%R by (apply IZR_le; lia). unfold Rdiv. lra.
Qed.
(** Two diagonals with entries 1 at offsets 0 and 1, a third flagged zero; the message has slots of size up to 64 at
    scale 2^20. *)
Example C46_decoded_case rnd RM b : rand_stream RM rnd ->
  exists st' pos' Act' pt st2' z',
    linear_transform 120 3 20 RM rnd 3 None 0%nat (diagonals 4 3 (fun t j => cre Rops (ex_A t j)) (fun t => t) ex_z) (diagonals 4 3 (fun t j => cim Rops (ex_A t j)) (fun t => t) ex_z)
      (repP 120 8 (fun i => ex_m i - negconv 8 (coef s4) b i), repP 120 8 b) (map Some s4) (sq_new 120 8) = Ok (st', pos', Act') /\
    dec 120 8 Act' (map Some s4) (rq_new 120 8) = Ok pt /\ decode 120 3 None pt (2 ^ 40) (gfresh R 4) (gfresh R 4) = Ok (st2', carray (K := Rops) 4 z') /\
    forall j, 0 <= j < 4 -> (modulus (z' j - (slots 8 (IZR (2 ^ 20)) ex_m j + slots 8 (IZR (2 ^ 20)) ex_m ((j + 1) mod 4)))%num <= / 100)%R.
Proof.
  intros Hr. assert (HQ : widths 120) by (right; lia). assert (HQ2 : widths (2 * 120)) by (right; lia).
  assert (Hz : forall j, 0 <= j < 4 -> apply 4 (matrix_of 4 3 (live ex_z ex_z ex_A) (fun t => t)) (slots 8 (IZR (2 ^ 20)) ex_m) j
     = (slots 8 (IZR (2 ^ 20)) ex_m j + slots 8 (IZR (2 ^ 20)) ex_m ((j + 1) mod 4))%num).
  { intros j Hj. pose proof (apply_offsets 120 3 ltac:(lia) 3 (live ex_z ex_z ex_A) (fun t => t) (slots 8 (IZR (2 ^ 20)) ex_m) j Hj) as T.
    change (2 ^ (3 - 1)) with 4 in T. etransitivity; [exact T|]. set (z := slots 8 (IZR (2 ^ 20)) ex_m). clearbody z.
    replace 3 with (0 + 1 + 1 + 1) at 1 by lia. rewrite !gsum_S, gsum_0 by lia. change (0 + 1 + 1) with 2. change (0 + 1) with 1. unfold live, ex_z. cbn [Z.eqb andb].
    replace ((j + 0) mod 4) with j by (rewrite Z.add_0_r, Z.mod_small; lia). change (Pos.eqb 1 2) with false. change (Pos.eqb 2 2) with true. cbn [andb]. unfold ex_A.
    replace (real 1) with (1%num : RC) by reflexivity. ring. }
  assert (He : forall j, 0 <= j < 4 -> (lt_error 8 4 (2 ^ 20) (noise 8 (coef s4)) 3 ex_A (fun t => t) ex_z ex_z (slots 8 (IZR (2 ^ 20)) ex_m) (IZR (2 ^ 20)) j <= / 100)%R).
  { intros j Hj. change (noise 8 (coef s4)) with 132. unfold lt_error. replace 3 with (0 + 1 + 1 + 1) at 1 by lia. rewrite !gsum_S, gsum_0 by lia.
    change (0 + 1 + 1) with 2. change (0 + 1) with 1. unfold ex_z. cbn [Z.eqb andb]. change (Pos.eqb 1 2) with false. change (Pos.eqb 2 2) with true. cbn [andb].
    unfold ex_A. rewrite !modulus_real, Rabs_R1. pose proof (ex_slots ((j + 0) mod 4) (Z.mod_pos_bound _ 4 ltac:(lia))) as H1. pose proof (ex_slots ((j + 1) mod 4) (Z.mod_pos_bound _ 4 ltac:(lia))) as H2.
    change (2 ^ 3) with 8 in *. change (2 ^ 20) with 1048576 in *. cbn [oadd o0 Rops]. set (x1 := modulus _) in *. clearbody x1. set (x2 := modulus _) in *. clearbody x2. lra. }
  destruct (C46_decoded 120 3 20 s4 HQ HQ2 ltac:(lia) ltac:(lia) s4_ternary 3 ex_A (fun t => t) ex_z ex_z ltac:(lia) (fun t j _ _ _ => ex_small 120 20 ltac:(lia) ltac:(lia)) RM rnd Hr ltac:(intros; lia)
     (repP 120 8 (fun i => ex_m i - negconv 8 (coef s4) b i), repP 120 8 b) ex_m None 0%nat (sq_new 120 8) (2 ^ 20) 200%R (rq_new 120 8) None (gfresh R 4) (gfresh R 4)) as (st' & pos' & Act' & pt & st2' & z' & E1 & E2 & E3 & H).
  - apply ifft_first.
  - apply some_ct; lia.
  - apply new_object2; lia.
  - apply objP_object; try lia. apply objP_new.
  - apply fft_first.
  - reflexivity.
  - reflexivity.
  - lia.
  - lia.
  - change (2 ^ 3) with 8. change (2 ^ (3 - 1)) with 4. intros j Hj. specialize (He j Hj). rewrite Hz by auto.
    pose proof (ex_slots j Hj) as H1. pose proof (ex_slots ((j + 1) mod 4) (Z.mod_pos_bound _ 4 ltac:(lia))) as H2. change (2 ^ 3) with 8 in *.
    pose proof (modulus_add (slots 8 (IZR (2 ^ 20)) ex_m j) (slots 8 (IZR (2 ^ 20)) ex_m ((j + 1) mod 4))). lra.
  - change (2 ^ 20) with 1048576. change (2 ^ (120 - 1)) with 664613997892457936451903530140172288. lra.
  - exists st', pos', Act', pt, st2', z'. split; [exact E1|]. split; [exact E2|]. split; [exact E3|]. change (2 ^ 3) with 8 in H. change (2 ^ (3 - 1)) with 4 in H.
    intros j Hj. specialize (H j Hj). rewrite Hz in H by auto. specialize (He j Hj). lra.
Qed.
(** the same matrix applied twice *)
Example C46_serial_case rnd RM b : rand_stream RM rnd ->
  exists st' pos' Act' pt w,
    serial_lt 120 3 20 RM rnd 3 2 None 0%nat
      (map (fun d => diagonals 4 3 (fun t j => cre Rops (ex_A t j)) (fun t => t) ex_z) (range 2)) (map (fun d => diagonals 4 3 (fun t j => cim Rops (ex_A t j)) (fun t => t) ex_z) (range 2))
      (repP 120 8 (fun i => ex_m i - negconv 8 (coef s4) b i), repP 120 8 b) (map Some s4) (sq_new 120 8) = Ok (st', pos', Act') /\
    dec 120 8 Act' (map Some s4) (rq_new 120 8) = Ok pt /\ signedP 120 8 pt w /\
    forall j, 0 <= j < 4 -> (modulus (slots 8 (IZR (2 ^ 20) ^ 2 * IZR (2 ^ 20)) w j
      - chain 4 (fun _ => matrix_of 4 3 (live ex_z ex_z ex_A) (fun t => t)) 2 (slots 8 (IZR (2 ^ 20)) ex_m) j)%num <= / 50)%R.
Proof.
  intros Hr. assert (HQ : widths 120) by (right; lia). assert (HQ2 : widths (2 * 120)) by (right; lia).
  destruct (C46_serial 120 3 20 s4 HQ HQ2 ltac:(lia) ltac:(lia) s4_ternary RM rnd 3 (fun _ => ex_A) (fun _ t => t) (fun _ => ex_z) (fun _ => ex_z) 2 (fun _ => 2%R) 64%R (IZR (2 ^ 20))
    (repP 120 8 (fun i => ex_m i - negconv 8 (coef s4) b i), repP 120 8 b) ex_m None 0%nat (sq_new 120 8) Hr ltac:(lia)) as (st' & pos' & Act' & w & E1 & _ & _ & Hw & Hdec).
  - intros; lia.
  - intros. apply ex_small; lia.
  - apply IZR_lt. lia.
  - intros d j _ _. replace 3 with (0 + 1 + 1 + 1) at 1 by lia. rewrite !gsum_S, gsum_0 by lia.
    change (0 + 1 + 1) with 2. change (0 + 1) with 1. unfold live, ex_z. cbn [Z.eqb andb]. change (Pos.eqb 1 2) with false. change (Pos.eqb 2 2) with true. cbn [andb].
    unfold ex_A. rewrite modulus_0, !modulus_real, Rabs_R1. cbn. lra.
  - apply ifft_first.
  - apply some_ct; lia.
  - apply new_object2; lia.
  - apply ex_slots.
  - change (2 ^ 3) with 8 in *. change (2 ^ (3 - 1)) with 4 in *. change (noise 8 (coef s4)) with 132 in *. change (Z.of_nat 2) with 2 in *.
    destruct (Hdec) with (Dpt := rq_new 120 8) as (pt & E2 & Hpt).
    + cbn [size_after pow]. change (2 ^ 20) with 1048576. change (2 ^ (120 - 1)) with 664613997892457936451903530140172288. lra.
    + apply objP_object; try lia. apply objP_new.
    + exists st', pos', Act', pt, w. split; [exact E1|]. split; [exact E2|]. split; [exact Hpt|]. intros j Hj. destruct (Hw j Hj) as [_ H].
      eapply Rle_trans; [exact H|]. cbn [error_after size_after pow]. change (2 ^ 20) with 1048576. lra.
Qed.
(** one diagonal at offset 1, with a key made by rot and swkgen *)
Example C45_keys_case rnd RM b : rand_stream RM rnd ->
  exists key st' Act' w, lt_rkey 120 3 20 1 None (diagonals 4 1 (fun t j => cre Rops (ex_A t j)) (fun _ => 1) (fun _ => false)) (diagonals 4 1 (fun t j => cim Rops (ex_A t j)) (fun _ => 1) (fun _ => false))
      (repP 120 8 (fun i => ex_m i - negconv 8 (coef s4) b i), repP 120 8 b) [Some key] (sq_new 120 8) = Ok (st', Act') /\ decrypts 120 8 Act' (coef s4) w.
Proof.
  intros Hr. assert (HQ : widths 120) by (right; lia). assert (HQ2 : widths (2 * 120)) by (right; lia).
  destruct (C40_rot_int 3 s4 (fresh 8) (fresh 8) 1 1 ltac:(lia) ltac:(lia) (proj1 s4_ternary) (ternary_bound _ _ s4_ternary) ltac:(lia) eq_refl eq_refl) as [(s' & _ & Hl & Hsub & Hb) _].
  destruct (C38_swkgen 120 8 RM rnd s' s4 (sq_new 240 8) 0%nat ltac:(lia) ltac:(lia) Hr Hl) as (key & pos' & _ & Hkey).
  { eapply Forall_impl; [|exact Hb]. cbv beta. intros; lia. }
  { apply s4_ternary. }
  { apply new_object2; lia. }
  destruct (C45_linear_transform_keys_partial 120 3 20 s4 HQ HQ2 ltac:(lia) ltac:(lia) 1 ex_A (fun _ => 1) (fun _ => false) (fun _ => false) ltac:(lia) (fun t j _ _ _ => ex_small 120 20 ltac:(lia) ltac:(lia))
    (repP 120 8 (fun i => ex_m i - negconv 8 (coef s4) b i), repP 120 8 b) ex_m [Some key] None (sq_new 120 8)) as (st' & Act' & mr & c & err & E1 & _ & _ & Hd).
  - apply ifft_first.
  - apply some_ct; lia.
  - apply new_object2; lia.
  - intros t Ht _. split; [lia|]. exists key, (coef s'). replace t with 0 by lia. split; [reflexivity|]. split; [exact Hsub|exact Hkey].
  - exists key, st', Act'. eexists. split; [exact E1|exact Hd].
Qed.
