(** Linear transforms of ciphertexts in floating-point arithmetic, and their slots. *)
From Coq Require Import ZArith List Bool Lia Reals Lra Ring.
From Verif Require Import Base BaseFacts Sums ZQ ZQFacts ZQFacts2 ZQFacts3 RQ RQFacts Conv ConvFacts Core CoreFacts Rot RotFacts Util GSum Matrix MatrixFacts MatMulFacts
  DFT DFTTheory DFTFacts FFTFacts PolyRing PolyCong SpecZQ SpecPoly SpecPolyFacts SpecScheme SpecMat Properties_Mat SpecDFT SpecEnc Encode EncodeFacts SlotFacts Noise LinTrans
  Properties_Conv Properties_Core Properties_Rot Properties_Enc Properties_Plain SpecLin LinTransFacts LinSlots GroupFacts GroupSlots.
From Verif Require Import Float SpecFloat FloatFacts FloatError Properties_Float.
From Verif Require Import SpecFloatLin FloatLin FloatMM FloatGroup.
Import ListNotations.
Open Scope Z_scope.
Add Ring RCfs : HR.

Section LT.
Context (F : fpu).
Context (LOGQ LOGN LOGDELTA RM : Z) (rng : nat -> Z) (s : list Z).
Context (HQ : widths LOGQ) (HQ2 : widths (2 * LOGQ)) (HL : 2 <= LOGN <= 17) (HD : 0 <= LOGDELTA < 64) (Hr : rand_stream RM rng).
Let N := 2 ^ LOGN.
Let n := 2 ^ (LOGN - 1).
Context (Hs : ternary N s).
Let Delta := 2 ^ LOGDELTA.
Let E := noise N (coef s).

(** numbers of modulus at most B are encoded with coefficients within 1/2+ee *)
Definition encodes_within (B ee : R) : Prop := forall st (z : Z -> CC) (m : Z -> R), f_ifft_static F LOGN st ->
  (forall j, 0 <= j < n -> (modulus (z j) <= B)%R) -> (forall j, 0 <= j < n -> slot N m j = z j) ->
  exists st' pt' c, f_encode F LOGQ LOGN st (fst (carray n z)) (snd (carray n z)) Delta (rq_new LOGQ N) = Ok (st', pt') /\ f_ifft_static F LOGN st' /\
    holdsP LOGQ N pt' c /\ forall i, 0 <= i < N -> (Rabs (IZR (c i) - m i * IZR Delta) <= / 2 + ee)%R.

Section One.
Context (B ee : R) (Henc : encodes_within B ee).
Context (S : Z) (A : Z -> Z -> CC) (o : Z -> Z) (zr zi : Z -> bool).
Let Ar := diagonals n S (fun t j => cre Rops (A t j)) o zr.
Let Ai := diagonals n S (fun t j => cim Rops (A t j)) o zi.
Let skip t := zr t && zi t.
Context (HS : 0 <= S).
Context (Ho : forall t, 0 <= t < S -> skip t = false -> 0 <= o t).
Context (Hb : forall t j, 0 <= t < S -> skip t = false -> 0 <= j < n -> (modulus (A t j) <= B)%R).
Let h := encoded_error N Delta ee.

Lemma f_lt_skip ct st pos Act t : 0 <= t < S -> skip t = true -> f_lt_step F LOGQ LOGN LOGDELTA RM rng Ar Ai ct (map Some s) t (st, pos, Act) = Ok (st, pos, Act).
Proof.
  intros Ht Hk. unfold skip in Hk. apply andb_prop in Hk. destruct Hk as [H1 H2]. unfold f_lt_step. unfold Ar, Ai.
  rewrite !diagonals_sdi, !get_off_sdi by auto. cbn [bind]. rewrite Z.eqb_refl. cbn [assert_ bind]. rewrite !get_zero_sdi by auto. cbn [bind].
  rewrite H1, H2. reflexivity.
Qed.
Section Coefs.
Context (mc : Z -> Z -> R) (Hmc : forall t j, 0 <= t < S -> 0 <= j < n -> slot N (mc t) j = A t j).
Lemma f_lt_one ct m st pos Act w t : 0 <= t < S -> skip t = false -> f_ifft_static F LOGN st -> decrypts LOGQ N ct (coef s) m -> decrypts LOGQ N Act (coef s) w ->
  exists st' pos' Act' mr e c, f_lt_step F LOGQ LOGN LOGDELTA RM rng Ar Ai ct (map Some s) t (st, pos, Act) = Ok (st', pos', Act') /\ f_ifft_static F LOGN st' /\
    substituted N (5 ^ o t) m mr /\ (forall i, 0 <= i < N -> 2 * Z.abs (e i) <= if o t =? 0 then 0 else E) /\
    (forall i, 0 <= i < N -> (Rabs (IZR (c i) - mc t i * IZR Delta) <= / 2 + ee)%R) /\
    decrypts LOGQ N Act' (coef s) (fun i => w i + negconv N (fun i => mr i + e i) c i).
Proof.
  intros Ht Hk Hst Hct Hw. assert (HQ1 : 1 <= LOGQ) by (unfold widths in HQ; lia). pose proof (Npos LOGN ltac:(lia)) as HN. fold N in HN.
  assert (HL' : 2 <= LOGN <= 27) by lia. pose proof (pow2_word LOGDELTA HD) as HDp. fold Delta in HDp.
  destruct (Henc st (A t) (mc t) Hst (fun j Hj => Hb t j Ht Hk Hj) (fun j Hj => Hmc t j Ht Hj)) as (st' & pt & c & E1 & Hst' & Hc & Hc2).
  assert (Hrot : exists pos' ct_rot mr e,
    (if negb (o t =? 0) then
         skey_rot <- rot_int N (map Some s) (fresh N) (o t) ;;
         '(rkey, pos) <- swkgen LOGQ N RM rng skey_rot (map Some s) (sq_new (2 * LOGQ) N) pos ;;
         ct_rot <- rot_ct LOGQ N ct (o t) rkey ct ;; Ok (pos, ct_rot)
       else Ok (pos, ct)) = Ok (pos', ct_rot) /\ substituted N (5 ^ o t) m mr /\
    (forall i, 0 <= i < N -> 2 * Z.abs (e i) <= if o t =? 0 then 0 else E) /\ decrypts LOGQ N ct_rot (coef s) (fun i => mr i + e i)).
  { destruct (Z.eqb_spec (o t) 0) as [E0|Hne]; cbn [negb].
    - exists pos, ct, m, (fun _ => 0). split; [reflexivity|]. split; [|split; [intros; lia|]].
      + rewrite E0. change (5 ^ 0) with 1. intros i Hi. rewrite Z.mul_1_l. cbv zeta. rewrite Z.mod_small by lia. destruct (Z.ltb_spec i N); [reflexivity|lia].
      + eapply decrypts_ext; [|exact Hct]. intros i Hi. cbv beta. lia.
    - destruct (C42_rot_ct LOGN LOGQ RM rng s (fresh N) (sq_new (2 * LOGQ) N) pos ct m ct (o t)) as (s' & rkey & pos' & ct' & mr & e & R1 & R2 & R3 & R4 & R5 & R6); auto; try lia.
      { apply repeat_length. }
      { apply new_object2; lia. }
      { eapply decrypts_object; eauto; lia. }
      fold N in R1, R2, R3, R4, R5, R6. rewrite R1. cbn [bind]. rewrite R2. cbn [bind]. rewrite R3. cbn [bind]. exists pos', ct', mr, e. auto. }
  destruct Hrot as (pos' & ct_rot & mr & e & ER & Hmr & He & Hd).
  destruct (C36_mul_plain LOGN LOGQ ct_rot (coef s) _ pt c ltac:(lia) HQ Hd Hc) as (ct2 & E2 & Hd2). fold N in E2, Hd2.
  destruct (C36_add LOGQ N Act ct2 (coef s) _ _ HQ1 ltac:(lia) Hw Hd2) as (Act' & E3 & Hd3).
  exists st', pos', Act', mr, e, c. split; [|split; [exact Hst'|split; [exact Hmr|split; [exact He|split; [exact Hc2|exact Hd3]]]]].
  unfold f_lt_step. fold N. unfold Ar, Ai. rewrite !diagonals_sdi, !get_off_sdi by auto. cbn [bind]. rewrite Z.eqb_refl. cbn [assert_ bind]. rewrite !get_zero_sdi by auto. cbn [bind].
  assert (Hz : (if zr t then Ok (zi t) else Ok false) = Ok false) by (unfold skip in Hk; destruct (zr t), (zi t); auto; discriminate).
  rewrite Hz. cbn [bind]. unfold sdi at 1 2; cbn [vec]. rewrite !lget_tab by auto. cbn [bind]. rewrite one_shl_ok by auto. cbn [bind]. fold Delta.
  unfold carray in E1; cbn [fst snd] in E1. rewrite !array_gtab in E1. rewrite E1. cbn [bind].
  rewrite (copy_decrypts LOGQ N (sq_new LOGQ N) ct (coef s) m) by (auto; try lia; apply new_object2; lia). cbn [bind].
  match goal with |- bind ?x _ = _ => replace x with (Ok (pos', ct_rot)) by (symmetry; exact ER) end. cbn [bind]. rewrite E2. cbn [bind]. rewrite E3. reflexivity.
Qed.
Lemma f_lt_loop ct m st pos Act : f_ifft_static F LOGN st -> decrypts LOGQ N ct (coef s) m -> object2 LOGQ N Act ->
  exists st' pos' Act' mr e c, f_linear_transform F LOGQ LOGN LOGDELTA RM rng S st pos Ar Ai ct (map Some s) Act = Ok (st', pos', Act') /\ f_ifft_static F LOGN st' /\
    (forall t, 0 <= t < S -> skip t = false -> substituted N (5 ^ o t) m (mr t) /\ (forall i, 0 <= i < N -> 2 * Z.abs (e t i) <= if o t =? 0 then 0 else E) /\
      forall i, 0 <= i < N -> (Rabs (IZR (c t i) - mc t i * IZR Delta) <= / 2 + ee)%R) /\
    decrypts LOGQ N Act' (coef s) (fun i => zsum S (fun t => if skip t then 0 else negconv N (fun i => mr t i + e t i) (c t) i)).
Proof.
  intros Hst Hct Hact. assert (HQ1 : 1 <= LOGQ) by (unfold widths in HQ; lia). pose proof (Npos LOGN ltac:(lia)) as HN. fold N in HN.
  destruct (setzero_decrypts LOGQ N Act (coef s) HQ1 ltac:(lia) Hact) as (A0 & E0 & H0). unfold f_linear_transform. fold N. rewrite E0. cbn [bind].
  destruct (for_inv (f_lt_step F LOGQ LOGN LOGDELTA RM rng Ar Ai ct (map Some s)) (fun k (w : tables * nat * sq) => let '(st, pos, Act) := w in
      f_ifft_static F LOGN st /\ exists mr e c,
      (forall t, 0 <= t < k -> skip t = false -> substituted N (5 ^ o t) m (mr t) /\ (forall i, 0 <= i < N -> 2 * Z.abs (e t i) <= if o t =? 0 then 0 else E) /\
        forall i, 0 <= i < N -> (Rabs (IZR (c t i) - mc t i * IZR Delta) <= / 2 + ee)%R) /\
      decrypts LOGQ N Act (coef s) (fun i => zsum k (fun t => if skip t then 0 else negconv N (fun i => mr t i + e t i) (c t) i)))
    0 S (st, pos, A0) HS) as (w & Ew & Hw).
  - split; [auto|]. exists (fun _ _ => 0), (fun _ _ => 0), (fun _ _ => 0). split; [intros; lia|]. eapply decrypts_ext; [|exact H0]. intros i Hi. rewrite zsum_nil by lia. reflexivity.
  - intros t [[st1 pos1] Act1] Ht (Hst1 & mr & e & c & H1 & H2). destruct (skip t) eqn:Hk.
    + rewrite f_lt_skip by auto. eexists. split; [reflexivity|]. split; auto. exists mr, e, c. split.
      * intros v Hv Hsv. destruct (Z.eq_dec v t) as [->|]; [congruence|]. apply H1; auto. lia.
      * eapply decrypts_ext; [|exact H2]. intros i Hi. cbv beta. rewrite zsum_S by lia. rewrite Hk. lia.
    + destruct (f_lt_one ct m st1 pos1 Act1 _ t Ht Hk Hst1 Hct H2) as (st2 & pos2 & Act2 & mr2 & e2 & c2 & E2 & Hst2 & Hm2 & He2 & Hc2 & Hd2).
      eexists. split; [exact E2|]. split; auto.
      exists (fun v => if v =? t then mr2 else mr v), (fun v => if v =? t then e2 else e v), (fun v => if v =? t then c2 else c v). split.
      * intros v Hv Hsv. destruct (Z.eqb_spec v t) as [->|]; [auto|]. apply H1; auto. lia.
      * eapply decrypts_ext; [|exact Hd2]. intros i Hi. cbv beta. rewrite zsum_S by lia. rewrite Hk, Z.eqb_refl. f_equal. apply zsum_ext.
        intros v Hv. destruct (Z.eqb_spec v t); [lia|]. reflexivity.
  - destruct w as [[st1 pos1] Act1]. destruct Hw as (H1 & mr & e & c & H2 & H3). exists st1, pos1, Act1, mr, e, c. auto.
Qed.
End Coefs.

(** What one linear transform does to slots. *)
Lemma f_lt_slots ct m st pos Act : f_ifft_static F LOGN st -> decrypts LOGQ N ct (coef s) m -> object2 LOGQ N Act ->
  exists st' pos' Act' w, f_linear_transform F LOGQ LOGN LOGDELTA RM rng S st pos Ar Ai ct (map Some s) Act = Ok (st', pos', Act') /\ f_ifft_static F LOGN st' /\
    decrypts LOGQ N Act' (coef s) w /\
    forall D0 j, (0 < D0)%R -> 0 <= j < n ->
      (modulus (slots N (IZR Delta * D0) w j - apply n (matrix_of n S (live zr zi A) o) (slots N D0 m) j)%num <= f_lt_error N n E S h A o zr zi (slots N D0 m) D0 j)%R.
Proof.
  intros Hst Hct Hact. assert (HQ1 : 1 <= LOGQ) by (unfold widths in HQ; lia).
  destruct (finite_choice (fun t m => forall j, 0 <= j < n -> slot N m j = A t j) (fun _ => 0%R) S HS) as [mc Hmc]. { intros t Ht. apply (some_m LOGN); lia. }
  pose proof (Npos LOGN ltac:(lia)) as HN. fold N in HN. assert (Hn : 0 < n) by (apply Z.pow_pos_nonneg; lia). assert (HL' : 2 <= LOGN <= 27) by lia.
  destruct (f_lt_loop mc (fun t j Ht => Hmc t Ht j) ct m st pos Act Hst Hct Hact) as (st' & pos' & Act' & mr & e & cc & E1 & Hst' & Hmr & Hd).
  eexists st', pos', Act', _. split; [exact E1|]. split; [exact Hst'|]. split; [exact Hd|].
  intros D0 j HD0 Hj. pose proof (pow2_word LOGDELTA HD) as HDp. fold Delta in HDp.
  assert (HDr : (0 < IZR Delta)%R) by (apply IZR_lt; lia).
  rewrite (apply_offsets LOGQ LOGN HL S (live zr zi A) o _ j Hj). fold n.
  pose (c t := zs (cc t)).
  match goal with |- context [slots N _ ?w j] => set (ww := w) end.
  assert (EW : slot N (zs ww) j = gsum S (fun t => if skip t then 0%num else ((slot N (zs m) ((j + o t) mod n) + slot N (zs (e t)) j) * slot N (c t) j)%num)).
  { assert (G : forall k, 0 <= k <= S -> slot N (zs (fun i => zsum k (fun t => if skip t then 0 else negconv N (fun i => mr t i + e t i) (cc t) i))) j
       = gsum k (fun t => if skip t then 0%num else ((slot N (zs m) ((j + o t) mod n) + slot N (zs (e t)) j) * slot N (c t) j)%num)); [|apply (G S); lia].
    intros k Hk. assert (Hk0 : 0 <= k) by lia. revert Hk. apply (GSum.gsum_ind k (fun k => 0 <= k <= S -> slot N (zs (fun i => zsum k (fun t => if skip t then 0 else negconv N (fun i => mr t i + e t i) (cc t) i))) j
       = gsum k (fun t => if skip t then 0%num else ((slot N (zs m) ((j + o t) mod n) + slot N (zs (e t)) j) * slot N (c t) j)%num))); [| |exact Hk0].
    - intros _. rewrite gsum_0 by lia. rewrite slot_at by auto. unfold at_. apply (gsum_zero HC). intros i Hi. unfold zs. rewrite zsum_nil by lia. apply RC_eq; cbn; ring.
    - intros t Ht IH Hk. rewrite gsum_S by lia. rewrite <- IH by lia.
      rewrite (slot_ext N _ (fun i => zs (fun i => zsum t (fun t => if skip t then 0 else negconv N (fun i => mr t i + e t i) (cc t) i)%Z) i
         + zs (fun i => if skip t then 0 else negconv N (fun i => mr t i + e t i) (cc t) i)%Z i)%R).
      2:{ intros i Hi. unfold zs. rewrite zsum_S by lia. apply plus_IZR. }
      rewrite slot_add. f_equal. destruct (skip t) eqn:Hk'.
      + rewrite slot_at by auto. unfold at_. apply (gsum_zero HC). intros i Hi. unfold zs. apply RC_eq; cbn; ring.
      + rewrite (slot_ext N _ (rnegconv N (fun i => zs (mr t) i + zs (e t) i)%R (c t))).
        2:{ intros i Hi. unfold zs at 1. rewrite (real_negconv LOGN). fold N. unfold rnegconv. apply (gsum_ext (K := Rops)). intros k2 Hk2. unfold zs, c. rewrite plus_IZR. reflexivity. }
        rewrite slot_negconv, slot_add by lia. f_equal. f_equal.
        apply (slot_rot LOGN HL' (zs m) (zs (mr t)) j (o t)); [lia|apply Ho; auto; lia|]. apply (real_sub LOGN). apply Hmr; auto. lia. }
  unfold slots. change (fun i => (IZR (ww i) / (IZR Delta * D0))%R) with (fun i => (zs ww i / (IZR Delta * D0))%R).
  rewrite (slots_zs LOGN) by (apply Rgt_not_eq; nra). fold N. rewrite EW. rewrite <- (gsum_scale HC), <- (gsum_sub HC).
  unfold f_lt_error. apply modulus_rsum; auto. intros t Ht. unfold live. change (zr t && zi t) with (skip t). destruct (skip t) eqn:Hk.
  { match goal with |- (modulus ?x <= _)%R => replace x with (0%num : RC) by ring end. rewrite modulus_0. lra. }
  change (fun i => (IZR (m i) / D0)%R) with (fun i => (zs m i / D0)%R).
  set (zt := slot N (fun i => zs m i / D0)%R ((j + o t) mod n)).
  set (et := slot N (fun i => zs (e t) i / D0)%R j). set (pt := slot N (fun i => c t i / IZR Delta)%R j).
  match goal with |- (modulus ?x <= _)%R => replace x with ((pt - A t j) * zt + pt * et)%num end.
  2:{ unfold pt, zt, et, c. rewrite !(slots_zs LOGN) by (apply Rgt_not_eq; auto). fold N. rewrite Rinv_mult.
    replace (real (/ IZR Delta * / D0)%R) with (real (/ IZR Delta) * real (/ D0))%num by (apply RC_eq; cbn; ring). ring. }
  assert (Hp : (modulus (pt - A t j)%num <= h)%R).
  { unfold pt. rewrite <- Hmc by auto. rewrite <- slot_sub. unfold h, encoded_error. apply modulus_slot; auto. intros i Hi. destruct (Hmr t Ht Hk) as (_ & _ & Hc).
    unfold c, zs. replace (IZR (cc t i) / IZR Delta - mc t i)%R with ((IZR (cc t i) - mc t i * IZR Delta) / IZR Delta)%R by (field; lra).
    unfold Rdiv. rewrite Rabs_mult, (Rabs_right (/ IZR Delta)) by (apply Rle_ge, Rlt_le, Rinv_0_lt_compat; lra).
    apply Rmult_le_compat_r; [apply Rlt_le, Rinv_0_lt_compat; lra|]. apply Hc. auto. }
  assert (Hp2 : (modulus pt <= modulus (A t j) + h)%R) by (eapply Rle_trans; [apply (modulus_near pt (A t j))|lra]).
  assert (He : (modulus et <= if o t =? 0 then 0 else IZR N * IZR E / (2 * D0))%R).
  { destruct (Hmr t Ht Hk) as (_ & He & _). unfold et. destruct (o t =? 0).
    - rewrite slot_at by auto. unfold at_. rewrite (gsum_zero HC); [rewrite modulus_0; lra|]. intros i Hi. specialize (He i Hi). unfold zs.
      replace (e t i) with 0 by lia. apply RC_eq; cbn; unfold Rdiv; ring.
    - replace (IZR N * IZR E / (2 * D0))%R with (IZR N * (IZR E / (2 * D0)))%R by (unfold Rdiv; ring). apply modulus_slot; auto.
      intros i Hi. specialize (He i Hi). apply IZR_le in He. rewrite mult_IZR, abs_IZR in He. unfold zs, Rdiv.
      rewrite Rabs_mult, (Rabs_right (/ D0)) by (apply Rle_ge, Rlt_le, Rinv_0_lt_compat; auto). rewrite Rinv_mult.
      assert (0 < / D0)%R by (apply Rinv_0_lt_compat; auto). nra. }
  eapply Rle_trans; [apply modulus_add|]. rewrite !modulus_mul. apply Rplus_le_compat.
  - apply Rmult_le_compat_r; auto. apply modulus_nonneg.
  - apply Rmult_le_compat; auto using modulus_nonneg.
Qed.
End One.

(** Several transforms, one after the other. *)
Let n_ok : 0 < n <= 2 ^ 30.
Proof. unfold n. split; [apply Z.pow_pos_nonneg; lia|apply Z.pow_le_mono_r; lia]. Qed.
Lemma rows_apply M a (x : Z -> CC) b : rows n M a -> (0 <= b)%R -> (forall j, 0 <= j < n -> (modulus (x j) <= b)%R) -> forall j, 0 <= j < n -> (modulus (apply n M x j) <= a * b)%R.
Proof.
  intros HM Hb0 Hx j Hj. unfold apply. eapply Rle_trans; [apply (modulus_rsum n _ (fun k => b * modulus (M j k) + 0)%R); [lia|]|].
  - intros k Hk. rewrite modulus_mul, Rplus_0_r, Rmult_comm. apply Rmult_le_compat_r; [apply modulus_nonneg|auto].
  - rewrite rsum_lin by lia. rewrite Rmult_0_r, Rplus_0_r, Rmult_comm. apply Rmult_le_compat_r; auto.
Qed.
Lemma apply_sub M (x y : Z -> CC) j : (apply n M x j - apply n M y j)%num = apply n M (fun k => x k - y k)%num j.
Proof. unfold apply. rewrite <- (gsum_sub HC). apply gsum_ext. intros. ring. Qed.
Lemma apply_diff M M' (x : Z -> CC) j : (apply n M x j - apply n M' x j)%num = apply n (fun i k => M i k - M' i k)%num x j.
Proof. unfold apply. rewrite <- (gsum_sub HC). apply gsum_ext. intros. ring. Qed.

Lemma f_serial B ee S D Ar Ai (M : Z -> Z -> Z -> CC) (a b r : Z -> R) rr z0 D0 ct m st pos Act :
  encodes_within B ee -> (0 <= ee)%R -> 0 <= S -> fgood n S (Z.of_nat D) (Z.of_nat D) Ar Ai M a b r ->
  (forall d, (d < D)%nat -> (b (Z.of_nat d) + r (Z.of_nat d) <= B)%R /\ (r (Z.of_nat d) <= rr)%R) -> (0 < D0)%R ->
  f_ifft_static F LOGN st -> decrypts LOGQ N ct (coef s) m -> object2 LOGQ N Act ->
  (forall j, 0 <= j < n -> (modulus (slots N D0 m j) <= z0)%R) ->
  let a' d := a (Z.of_nat d) in
  let dl := (rr + IZR S * encoded_error N Delta ee)%R in
  let kp d := (IZR N * IZR E / (2 * (IZR Delta ^ d * D0)))%R in
  exists st' pos' Act' w, f_serial_lt F LOGQ LOGN LOGDELTA RM rng S (Z.of_nat D) st pos Ar Ai ct (map Some s) Act = Ok (st', pos', Act') /\ f_ifft_static F LOGN st' /\
    decrypts LOGQ N Act' (coef s) w /\
    forall j, 0 <= j < n -> (modulus (slots N (IZR Delta ^ D * D0) w j) <= size_after a' dl z0 kp D)%R /\
      (modulus (slots N (IZR Delta ^ D * D0) w j - chain n (fun d => M (Z.of_nat d)) D (slots N D0 m) j)%num <= error_after a' dl z0 kp D)%R.
Proof.
  intros Henc Hee HS HG Hb HD0 Hst Hct Hact Hz a' dl kp. assert (HQ1 : 1 <= LOGQ) by (unfold widths in HQ; lia). pose proof (Npos LOGN ltac:(lia)) as HN. fold N in HN.
  pose proof n_ok as Hn. pose proof (pow2_word LOGDELTA HD) as HDp. fold Delta in HDp. assert (HDr : (0 < IZR Delta)%R) by (apply IZR_lt; lia).
  unfold f_serial_lt. fold N. rewrite (copy_decrypts LOGQ N Act ct (coef s) m) by (auto; lia). cbn [bind].
  match goal with |- context [for_ 0 (Z.of_nat D) ?body ?s0] =>
    destruct (for_inv body (fun k (v : tables * nat * sq * sq) => let '(st, pos, Act, tmp) := v in f_ifft_static F LOGN st /\ object2 LOGQ N tmp /\ exists w,
      decrypts LOGQ N Act (coef s) w /\ forall j, 0 <= j < n -> (modulus (slots N (IZR Delta ^ Z.to_nat k * D0) w j) <= size_after a' dl z0 kp (Z.to_nat k))%R /\
      (modulus (slots N (IZR Delta ^ Z.to_nat k * D0) w j - chain n (fun d => M (Z.of_nat d)) (Z.to_nat k) (slots N D0 m) j)%num <= error_after a' dl z0 kp (Z.to_nat k))%R)
      0 (Z.of_nat D) s0 ltac:(lia)) as (v & Ev & Hv) end.
  - split; [auto|]. split; [apply new_object2; lia|]. exists m. split; [auto|]. intros j Hj. cbn [Z.to_nat]. cbn [pow chain size_after error_after]. rewrite Rmult_1_l.
    split; [auto|]. match goal with |- (modulus ?x <= _)%R => replace x with (0%num : RC) by ring end. rewrite modulus_0. apply Rle_refl.
  - intros d [[[st1 pos1] Act1] tmp] Hd (H1 & H2 & w & H3 & H4). rewrite (copy_decrypts LOGQ N tmp Act1 (coef s) w) by (auto; lia). cbn [bind].
    destruct (fgood_get n S _ _ Ar Ai M a b r d HG ltac:(lia) ltac:(lia)) as (P & P1 & P2 & A & o & zr & zi & -> & Fl & RD & RM0 & Row & Hab & Hent & _).
    rewrite P1, P2. cbn [bind fst snd]. specialize (Hb (Z.to_nat d) ltac:(lia)). rewrite Z2Nat.id in Hb by lia. destruct Hb as [HbB Hrr].
    destruct (f_lt_slots B ee Henc S A o zr zi HS) with (ct := Act1) (m := w) (st := st1) (pos := pos1) (Act := Act1) as (st2 & pos2 & Act2 & w2 & E2 & H5 & H6 & H7); auto.
    { intros t Ht Hk. specialize (Fl t Ht). rewrite Hk in Fl. lia. }
    { intros t j Ht _ Hj. eapply Rle_trans; [apply Hent; auto|exact HbB]. }
    { eapply decrypts_object; eauto; lia. }
    match goal with |- context [bind ?x _] => replace x with (Ok (st2, pos2, Act2)) by (symmetry; exact E2) end. cbn [bind].
    eexists. split; [reflexivity|]. split; [auto|]. split; [eapply decrypts_object; eauto; lia|]. exists w2. split; [auto|].
    replace (Z.to_nat (d + 1)) with (Datatypes.S (Z.to_nat d)) by lia. set (k := Z.to_nat d) in *. assert (Ek : d = Z.of_nat k) by (unfold k; lia). rewrite Ek in *. clearbody k.
    cbn [pow chain size_after error_after]. assert (Hp : (0 < IZR Delta ^ k * D0)%R) by (apply Rmult_lt_0_compat; auto; apply pow_lt; auto).
    set (sz := size_after a' dl z0 kp k) in *. set (er := error_after a' dl z0 kp k) in *.
    assert (Hs0 : (0 <= sz)%R) by (eapply Rle_trans; [apply modulus_nonneg|apply (H4 0); lia]).
    assert (He0 : (0 <= er)%R) by (eapply Rle_trans; [apply modulus_nonneg|apply (H4 0); lia]).
    rewrite Rmult_assoc. intros j Hj. specialize (H7 _ j Hp Hj). set (x := slots N (IZR Delta ^ k * D0) w) in *.
    set (h := encoded_error N Delta ee) in *.
    assert (Hh : (0 <= h)%R). { unfold h, encoded_error. apply Rmult_le_pos; [apply IZR_le; lia|]. apply Rmult_le_pos; [lra|]. apply Rlt_le, Rinv_0_lt_compat. auto. }
    assert (HE : 0 <= E). { unfold E, noise. pose proof (norm1_nonneg N (coef s)). lia. }
    assert (Hk : (0 <= kp k)%R).
    { unfold kp. apply Rmult_le_pos; [apply Rmult_le_pos; apply IZR_le; lia|]. apply Rlt_le, Rinv_0_lt_compat. lra. }
    assert (Hrd : (0 <= r (Z.of_nat k))%R) by (apply (rows_nonneg n ltac:(lia) _ _ RD)).
    assert (EL : forall i i', 0 <= i < n -> 0 <= i' < n -> matrix_of n S (live zr zi A) o i i' = matrix_of n S A o i i').
    { intros i i' Hi Hi'. unfold matrix_of. apply gsum_ext. intros t Ht. rewrite (live_zero n S _ o) by auto. reflexivity. }
    set (at' := a (Z.of_nat k)) in *. set (rt := r (Z.of_nat k)) in *.
    assert (H8 : (f_lt_error N n E S h A o zr zi x (IZR Delta ^ k * D0) j <= IZR S * h * sz + (at' + rt + IZR S * h) * kp k)%R).
    { eapply Rle_trans; [apply (rsum_le S _ (fun t => kp k * modulus (A t j) + (h * sz + h * kp k))%R); auto|].
      - intros t Ht. assert (0 <= h * sz)%R by (apply Rmult_le_pos; auto). assert (0 <= h * kp k)%R by (apply Rmult_le_pos; auto). pose proof (modulus_nonneg (A t j)) as Hm.
        destruct (zr t && zi t); [assert (0 <= kp k * modulus (A t j))%R by (apply Rmult_le_pos; auto); lra|].
        assert (h * modulus (x ((j + o t) mod n)%Z) <= h * sz)%R by (apply Rmult_le_compat_l; auto; apply H4; apply Z.mod_pos_bound; lia).
        assert ((modulus (A t j) + h) * (if o t =? 0 then 0 else IZR N * IZR E / (2 * (IZR Delta ^ k * D0))) <= (modulus (A t j) + h) * kp k)%R.
        { apply Rmult_le_compat_l; [lra|]. destruct (o t =? 0); [auto|apply Rle_refl]. }
        lra.
      - rewrite rsum_lin by auto. assert (kp k * gsum (K := Rops) S (fun t => modulus (A t j)) <= kp k * (at' + rt))%R by (apply Rmult_le_compat_l; auto). lra. }
    assert (H9 : (modulus (slots N (IZR Delta * (IZR Delta ^ k * D0)) w2 j - apply n (matrix_of n S A o) x j)%num <= IZR S * h * sz + (at' + rt + IZR S * h) * kp k)%R).
    { rewrite (apply_ext n _ (matrix_of n S (live zr zi A) o) x x j); auto; [|intros; symmetry; auto]. eapply Rle_trans; [exact H7|exact H8]. }
    assert (RA : rows n (matrix_of n S A o) (at' + rt)) by (apply rows_of; auto; lia).
    pose proof (rows_apply _ _ x sz RA Hs0 (fun j Hj => proj1 (H4 j Hj)) j Hj) as H10.
    pose proof (rows_apply _ _ x sz RD Hs0 (fun j Hj => proj1 (H4 j Hj)) j Hj) as H11. rewrite <- apply_diff in H11.
    pose proof (rows_apply _ _ _ er RM0 He0 (fun j Hj => proj2 (H4 j Hj)) j Hj) as H12. rewrite <- apply_sub in H12.
    assert (K1 : (rt * sz <= rr * sz)%R) by (apply Rmult_le_compat_r; auto). assert (K2 : (rt * kp k <= rr * kp k)%R) by (apply Rmult_le_compat_r; auto).
    unfold a', dl. split.
    + eapply Rle_trans; [apply modulus_near with (y := apply n (matrix_of n S A o) x j)|]. fold at'. lra.
    + match goal with |- (modulus (?p - ?q)%num <= _)%R =>
        replace (p - q)%num with ((p - apply n (matrix_of n S A o) x j) + ((apply n (matrix_of n S A o) x j - apply n (M (Z.of_nat k)) x j) + (apply n (M (Z.of_nat k)) x j - q)))%num by ring end.
      eapply Rle_trans; [apply modulus_add|]. eapply Rle_trans; [apply Rplus_le_compat_l, modulus_add|]. fold at'. lra.
  - match goal with |- context [bind ?x _] => replace x with (Ok v) by (symmetry; exact Ev) end. destruct v as [[[st1 pos1] Act1] tmp]. destruct Hv as (H1 & _ & w & H3 & H4).
    cbn [bind]. exists st1, pos1, Act1, w. rewrite Nat2Z.id in H4. auto.
Qed.
End LT.
