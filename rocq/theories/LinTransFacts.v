(** The linear transform with the secret key, on polynomials. *)
From Coq Require Import ZArith List Bool Lia Reals Lra.
From Verif Require Import Base BaseFacts Sums ZQ ZQFacts ZQFacts2 ZQFacts3 RQ RQFacts Conv ConvFacts Core CoreFacts Rot RotFacts Util GSum Matrix MatrixFacts
  DFT DFTFacts PolyRing PolyCong SpecZQ SpecPoly SpecPolyFacts SpecScheme SpecMat Properties_Mat SpecDFT SpecEnc Encode EncodeFacts LinTrans
  Properties_Conv Properties_Core Properties_Rot Properties_Enc.
Import ListNotations.
Open Scope Z_scope.

Lemma one_shl_ok d : 0 <= d < 64 -> one_shl d = Ok (2 ^ d).
Proof. intros H. unfold one_shl. rewrite (proj2 (Z.leb_le 0 d)), (proj2 (Z.ltb_lt d 64)) by lia. reflexivity. Qed.
Lemma pow2_word d : 0 <= d < 64 -> 0 < 2 ^ d < 2 ^ 64.
Proof. intros H. split; [apply Z.pow_pos_nonneg; lia|]. apply Z.pow_lt_mono_r; lia. Qed.

Lemma encode_static LOGQ LOGN st zr zi D pt st' pt' : ifft_static LOGN st -> encode LOGQ LOGN st zr zi D pt = Ok (st', pt') -> ifft_static LOGN st'.
Proof.
  intros Hst E. unfold encode in E. destruct (ifft LOGN st _ _ _) as [[st3 m3]| | |] eqn:Ei; try discriminate E. cbn [bind] in E.
  match type of E with bind ?x _ = _ => destruct x as [q| | |]; try discriminate E end. cbn [bind] in E. injection E as -> _.
  eapply ifft_next; eauto.
Qed.
Lemma decrypts_ext LOGQ N ct s m m' : (forall i, 0 <= i < N -> m i = m' i) -> decrypts LOGQ N ct s m -> decrypts LOGQ N ct s m'.
Proof. intros H (a & b & Ha & Hb & E). exists a, b. split; auto. split; auto. intros i Hi. rewrite <- H by auto. auto. Qed.
Lemma setzero_decrypts LOGQ N ct s : 1 <= LOGQ -> 1 <= N -> object2 LOGQ N ct -> exists ct', sq_setzero LOGQ N ct = Ok ct' /\ decrypts LOGQ N ct' s (fun _ => 0).
Proof.
  intros HQ HN [H1 H2]. apply objectP_obj in H1, H2; try lia. unfold sq_setzero. rewrite !rq_setzero_ok by (auto; lia). cbn [bind].
  eexists. split; [reflexivity|]. exists (fun _ => 0), (fun _ => 0). cbn [fst snd]. split; [apply repP_holds; lia|]. split; [apply repP_holds; lia|].
  intros i Hi. f_equal. unfold negconv. rewrite zsum_zero; [lia|]. intros k Hk. destruct (k <=? i); lia.
Qed.
Lemma copy_decrypts LOGQ N D ct s m : 1 <= LOGQ -> 1 <= N -> object2 LOGQ N D -> decrypts LOGQ N ct s m -> sq_copy LOGQ N D ct = Ok ct.
Proof.
  intros HQ HN [H1 H2] H. apply objectP_obj in H1, H2; try lia. apply decrypts_rep in H; try lia. destruct H as (a & b & -> & _).
  apply sq_copy_rep; try lia. split; auto.
Qed.
Lemma decrypts_object LOGQ N ct s m : 1 <= LOGQ -> 1 <= N -> decrypts LOGQ N ct s m -> object2 LOGQ N ct.
Proof. intros HQ HN (a & b & Ha & Hb & _). split; apply objP_object; try lia; apply holdsP_rep in Ha, Hb; try lia; [rewrite Ha|rewrite Hb]; apply objP_rep. Qed.
Lemma new_object2 LOGQ N : 1 <= LOGQ -> 0 <= N -> object2 LOGQ N (sq_new LOGQ N).
Proof. intros. split; apply objP_object; auto; apply objP_new. Qed.

Section LT.
Context (LOGQ LOGN LOGDELTA RM : Z) (rnd : nat -> Z) (s : list Z).
Context (HQ : widths LOGQ) (HQ2 : widths (2 * LOGQ)) (HL : 2 <= LOGN <= 17) (HD : 0 <= LOGDELTA < 64) (Hr : rand_stream RM rnd).
Let N := 2 ^ LOGN.
Let n := 2 ^ (LOGN - 1).
Context (Hs : ternary N s).
Let Delta := 2 ^ LOGDELTA.
Let E := 16 * N + 1 + norm1 N (coef s).

Section One.
Context (S : Z) (A : Z -> Z -> CC) (o : Z -> Z) (zr zi : Z -> bool) (mc : Z -> Z -> R).
Let Ar := diagonals n S (fun t j => cre Rops (A t j)) o zr.
Let Ai := diagonals n S (fun t j => cim Rops (A t j)) o zi.
Let skip t := zr t && zi t.
Context (HS : 0 <= S).
Context (Ho : forall t, 0 <= t < S -> skip t = false -> 0 <= o t).
Context (Hmc : forall t j, 0 <= t < S -> skip t = false -> 0 <= j < n -> slot N (mc t) j = A t j).
Context (Hb : forall t i, 0 <= t < S -> skip t = false -> 0 <= i < N ->
  (Rabs (mc t i) * IZR Delta < IZR (2 ^ 64) - / 2)%R /\ (Rabs (mc t i) * IZR Delta < IZR (2 ^ LOGQ) - / 2)%R).
Definition cof (t i : Z) : Z := rround (mc t i * IZR Delta).

Lemma lt_skip ct st pos Act t : 0 <= t < S -> skip t = true -> lt_step LOGQ LOGN LOGDELTA RM rnd Ar Ai ct (map Some s) t (st, pos, Act) = Ok (st, pos, Act).
Proof.
  intros Ht Hk. unfold skip in Hk. apply andb_prop in Hk. destruct Hk as [H1 H2]. unfold lt_step. unfold Ar, Ai.
  rewrite !diagonals_sdi, !get_off_sdi by auto. cbn [bind]. rewrite Z.eqb_refl. cbn [assert_ bind]. rewrite !get_zero_sdi by auto. cbn [bind].
  rewrite H1, H2. reflexivity.
Qed.
Lemma lt_one ct m st pos Act w t : 0 <= t < S -> skip t = false -> ifft_static LOGN st -> decrypts LOGQ N ct (coef s) m -> decrypts LOGQ N Act (coef s) w ->
  exists st' pos' Act' mr e, lt_step LOGQ LOGN LOGDELTA RM rnd Ar Ai ct (map Some s) t (st, pos, Act) = Ok (st', pos', Act') /\ ifft_static LOGN st' /\
    substituted N (5 ^ o t) m mr /\ (forall i, 0 <= i < N -> 2 * Z.abs (e i) <= if o t =? 0 then 0 else E) /\
    decrypts LOGQ N Act' (coef s) (fun i => w i + negconv N (fun i => mr i + e i) (cof t) i).
Proof.
  intros Ht Hk Hst Hct Hw. assert (HQ1 : 1 <= LOGQ) by (unfold widths in HQ; lia). pose proof (Npos LOGN ltac:(lia)) as HN. fold N in HN.
  assert (HL' : 2 <= LOGN <= 27) by lia. pose proof (pow2_word LOGDELTA HD) as HDp. fold Delta in HDp.
  destruct (C54_encode LOGQ LOGN HQ1 HL' Delta st (A t) (mc t) (rq_new LOGQ N) HDp Hst) as (st' & pt & c & E1 & Hc & Hc2).
  { apply objP_object; try lia. apply objP_new. }
  { intros j Hj. apply Hmc; auto. }
  { intros i Hi. apply Hb; auto. }
  fold N n in E1, Hc, Hc2.
  assert (Hrot : exists pos' ct_rot mr e,
    (if negb (o t =? 0) then
         skey_rot <- rot_int N (map Some s) (fresh N) (o t) ;;
         '(rkey, pos) <- swkgen LOGQ N RM rnd skey_rot (map Some s) (sq_new (2 * LOGQ) N) pos ;;
         ct_rot <- rot_ct LOGQ N ct (o t) rkey ct ;; Ok (pos, ct_rot)
       else Ok (pos, ct)) = Ok (pos', ct_rot) /\ substituted N (5 ^ o t) m mr /\
    (forall i, 0 <= i < N -> 2 * Z.abs (e i) <= if o t =? 0 then 0 else E) /\ decrypts LOGQ N ct_rot (coef s) (fun i => mr i + e i)).
  { destruct (Z.eqb_spec (o t) 0) as [E0|Hne]; cbn [negb].
    - exists pos, ct, m, (fun _ => 0). split; [reflexivity|]. split; [|split; [intros; lia|]].
      + rewrite E0. change (5 ^ 0) with 1. intros i Hi. rewrite Z.mul_1_l. cbv zeta. rewrite Z.mod_small by lia. destruct (Z.ltb_spec i N); [reflexivity|lia].
      + eapply decrypts_ext; [|exact Hct]. intros i Hi. cbv beta. lia.
    - destruct (C42_rot_ct LOGN LOGQ RM rnd s (fresh N) (sq_new (2 * LOGQ) N) pos ct m ct (o t)) as (s' & rkey & pos' & ct' & mr & e & R1 & R2 & R3 & R4 & R5 & R6); auto; try lia.
      { apply repeat_length. }
      { apply new_object2; lia. }
      { eapply decrypts_object; eauto; lia. }
      fold N in R1, R2, R3, R4, R5, R6. rewrite R1. cbn [bind]. rewrite R2. cbn [bind]. rewrite R3. cbn [bind]. exists pos', ct', mr, e. auto. }
  destruct Hrot as (pos' & ct_rot & mr & e & ER & Hmr & He & Hd).
  destruct (C36_mul_plain LOGN LOGQ ct_rot (coef s) _ pt c ltac:(lia) HQ Hd Hc) as (ct2 & E2 & Hd2). fold N in E2, Hd2.
  destruct (C36_add LOGQ N Act ct2 (coef s) _ _ HQ1 ltac:(lia) Hw Hd2) as (Act' & E3 & Hd3).
  exists st', pos', Act', mr, e. split; [|split; [eapply encode_static; eauto|split; [exact Hmr|split; [exact He|]]]].
  - unfold lt_step. fold N. unfold Ar, Ai. rewrite !diagonals_sdi, !get_off_sdi by auto. cbn [bind]. rewrite Z.eqb_refl. cbn [assert_ bind]. rewrite !get_zero_sdi by auto. cbn [bind].
    assert (Hz : (if zr t then Ok (zi t) else Ok false) = Ok false) by (unfold skip in Hk; destruct (zr t), (zi t); auto; discriminate).
    rewrite Hz. cbn [bind]. unfold sdi at 1 2; cbn [vec]. rewrite !lget_tab by auto. cbn [bind]. rewrite one_shl_ok by auto. cbn [bind]. fold Delta.
    unfold carray in E1; cbn [fst snd] in E1. rewrite !array_gtab in E1. rewrite E1. cbn [bind].
    rewrite (copy_decrypts LOGQ N (sq_new LOGQ N) ct (coef s) m) by (auto; try lia; apply new_object2; lia). cbn [bind].
    match goal with |- bind ?x _ = _ => replace x with (Ok (pos', ct_rot)) by (symmetry; exact ER) end. cbn [bind]. rewrite E2. cbn [bind]. rewrite E3. reflexivity.
  - eapply decrypts_ext; [|exact Hd3]. intros i Hi. cbv beta. f_equal. unfold negconv. apply zsum_ext. intros k Hk'. f_equal.
    destruct (Z.leb_spec k i); unfold cof; [|f_equal]; apply Hc2; lia.
Qed.

Lemma lt_loop ct m st pos Act : ifft_static LOGN st -> decrypts LOGQ N ct (coef s) m -> object2 LOGQ N Act ->
  exists st' pos' Act' mr e, linear_transform LOGQ LOGN LOGDELTA RM rnd S st pos Ar Ai ct (map Some s) Act = Ok (st', pos', Act') /\ ifft_static LOGN st' /\
    (forall t, 0 <= t < S -> skip t = false -> substituted N (5 ^ o t) m (mr t) /\ forall i, 0 <= i < N -> 2 * Z.abs (e t i) <= if o t =? 0 then 0 else E) /\
    decrypts LOGQ N Act' (coef s) (fun i => zsum S (fun t => if skip t then 0 else negconv N (fun i => mr t i + e t i) (cof t) i)).
Proof.
  intros Hst Hct Hact. assert (HQ1 : 1 <= LOGQ) by (unfold widths in HQ; lia). pose proof (Npos LOGN ltac:(lia)) as HN. fold N in HN.
  destruct (setzero_decrypts LOGQ N Act (coef s) HQ1 ltac:(lia) Hact) as (A0 & E0 & H0). unfold linear_transform. fold N. rewrite E0. cbn [bind].
  destruct (for_inv (lt_step LOGQ LOGN LOGDELTA RM rnd Ar Ai ct (map Some s)) (fun k (w : tables * nat * sq) => let '(st, pos, Act) := w in
      ifft_static LOGN st /\ exists mr e,
      (forall t, 0 <= t < k -> skip t = false -> substituted N (5 ^ o t) m (mr t) /\ forall i, 0 <= i < N -> 2 * Z.abs (e t i) <= if o t =? 0 then 0 else E) /\
      decrypts LOGQ N Act (coef s) (fun i => zsum k (fun t => if skip t then 0 else negconv N (fun i => mr t i + e t i) (cof t) i)))
    0 S (st, pos, A0) HS) as (w & Ew & Hw).
  - split; [auto|]. exists (fun _ _ => 0), (fun _ _ => 0). split; [intros; lia|]. eapply decrypts_ext; [|exact H0]. intros i Hi. rewrite zsum_nil by lia. reflexivity.
  - intros t [[st1 pos1] Act1] Ht (Hst1 & mr & e & H1 & H2). destruct (skip t) eqn:Hk.
    + rewrite lt_skip by auto. eexists. split; [reflexivity|]. split; auto. exists mr, e. split.
      * intros u Hu Hsu. destruct (Z.eq_dec u t) as [->|]; [congruence|]. apply H1; auto. lia.
      * eapply decrypts_ext; [|exact H2]. intros i Hi. cbv beta. rewrite zsum_S by lia. rewrite Hk. lia.
    + destruct (lt_one ct m st1 pos1 Act1 _ t Ht Hk Hst1 Hct H2) as (st2 & pos2 & Act2 & mr2 & e2 & E2 & Hst2 & Hm2 & He2 & Hd2).
      eexists. split; [exact E2|]. split; auto.
      exists (fun u => if u =? t then mr2 else mr u), (fun u => if u =? t then e2 else e u). split.
      * intros u Hu Hsu. destruct (Z.eqb_spec u t) as [->|]; [auto|]. apply H1; auto. lia.
      * eapply decrypts_ext; [|exact Hd2]. intros i Hi. cbv beta. rewrite zsum_S by lia. rewrite Hk, Z.eqb_refl. f_equal. apply zsum_ext.
        intros u Hu. destruct (Z.eqb_spec u t); [lia|]. reflexivity.
  - destruct w as [[st1 pos1] Act1]. destruct Hw as (H1 & mr & e & H2 & H3). exists st1, pos1, Act1, mr, e. auto.
Qed.
End One.
End LT.
