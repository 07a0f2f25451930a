(** C71-C73: EvalMod. *)
From Coq Require Import ZArith List Bool Lia Reals Lra Ring.
From Verif Require Import Base BaseFacts Sums ZQ ZQFacts RQ RQFacts Conv ConvFacts Rot Core CoreFacts Util UtilFacts GSum Matrix MatrixFacts DFT DFTTheory DFTFacts FFTFacts
  SpecZQ SpecPoly SpecPolyFacts SpecScheme SpecMat SpecDFT SpecEnc SlotFacts Encode EncodeFacts PolyRing PolyCong Noise Properties_DFT Properties_Conv Properties_Core Properties_Plain LinTrans LinTransFacts LinSlots BootSlots
  SpecCheb Poly ChebFacts SpecEval EvalFacts EvalPoly Properties_Poly PiBound CosTaylor PolyZ CosApprox SpecMod ModApprox EvalMod EvalModFacts EvalModBound.
Import ListNotations.
Open Scope Z_scope.
Add Ring RCpm : HR.

(** The parameters: dimension 2^LOGN, scale 2^LD, modulus 2^Q before EvalMod *)
Record evalmod_params (LOGN LD Q K : Z) : Prop := {
  em_N : 1 <= LOGN <= 17;
  em_LD : 1 <= LD <= 61;
  em_K : 1 <= K /\ 4 * K < 2 ^ 31;
  em_Q : 12 * LD < Q;
  em_widths : forall i, 1 <= i <= 11 -> widths (Q - i * LD) /\ widths (2 * (Q - i * LD)) }.
(** The evaluation key number i, from 1 to 11 *)
Definition em_keys (LOGN LD Q : Z) (s : Z -> Z) (key : Z -> sq) : Prop :=
  forall i, 1 <= i <= 11 -> switching_key (Q - i * LD) (2 ^ LOGN) (key i) (negconv (2 ^ LOGN) s s) s.

Theorem C71_EvalMod_keys : forall LOGN LD Q K s key ct r e p, evalmod_params LOGN LD Q K -> em_keys LOGN LD Q s key ->
  (forall j, Rabs (r j - / 4) <= IZR K)%R -> carries Q (2 ^ LOGN) s ct (IZR (2 ^ LD)) (fun j => real (r j)) e -> object2 (Q - 12 * LD) (2 ^ LOGN) p ->
  exists p', EvalMod_keys Q (2 ^ LOGN) LD K ct (key 1) (key 2) (key 3) (key 4) (key 5) (key 6) (key 7) (key 8) (key 9) (key 10) (key 11) p = Ok p' /\
    carries (Q - 12 * LD) (2 ^ LOGN) s p' (IZR (2 ^ LD)) (fun j => real (evalmod_value K (r j)))
      (evalmod_error (2 ^ LOGN) (norm1 (2 ^ LOGN) s) (IZR (2 ^ LD)) K e).
Proof.
  intros LOGN LD Q K s key ct r e p [HL HLD [HK HK4] HQ HW] Hkey Hr Hct Hp. set (N := 2 ^ LOGN) in *. set (Delta := IZR (2 ^ LD)) in *. set (h := norm1 N s).
  assert (HLD' : 1 <= LD <= 63) by lia. pose proof (HDelta LD HLD') as HD; fold Delta in HD. pose proof (pow_LD LD HLD') as HpLD.
  assert (HN : 2 <= N) by (unfold N; change 2 with (2 ^ 1) at 1; apply Z.pow_le_mono_r; lia). assert (HK1 : (1 <= IZR K)%R) by (apply IZR_le; lia).
  assert (W1 : forall i, 1 <= i <= 11 -> widths (Q - i * LD)) by (intros; apply HW; auto). assert (W2 : forall i, 1 <= i <= 11 -> widths (2 * (Q - i * LD))) by (intros; apply HW; auto).
  assert (Hr1 : forall j, 0 <= j < N / 2 -> (Rabs (r j) <= IZR K + 1)%R).
  { intros j _. specialize (Hr j). replace (r j) with ((r j - / 4) + / 4)%R by ring. eapply Rle_trans; [apply Rabs_triang|]. rewrite (Rabs_right (/ 4)) by lra. lra. }
  destruct (em_scale_ok LOGN LD HL HLD s Q K ct r e ltac:(lia) HK Hr1 Hct) as (ct1 & E1 & H1). fold N Delta h in E1, H1.
  destruct (em_shift_ok LOGN LD HL HLD s (Q - LD) K ct1 _ _ ltac:(lia) HK HK4 H1) as (ct1' & E2 & H2). fold N Delta in H2.
  set (t := fun j => ((r j - / 4) / IZR K)%R).
  assert (Ht : forall j, (-1 <= t j <= 1)%R).
  { intros j. specialize (Hr j). unfold t. assert (Rabs ((r j - / 4) / IZR K) <= 1)%R.
    { unfold Rdiv. rewrite Rabs_mult, (Rabs_right (/ IZR K)) by (apply Rle_ge, Rlt_le, Rinv_0_lt_compat; lra). apply Rmult_le_reg_r with (IZR K); [lra|]. rewrite Rmult_assoc, Rinv_l; lra. }
    split; [pose proof (Rle_abs (- ((r j - / 4) / IZR K))) as A; rewrite Rabs_Ropp in A; lra|pose proof (Rle_abs ((r j - / 4) / IZR K)); lra]. }
  assert (H2' : carries (Q - LD) N s ct1' Delta (fun j => real (t j)) (em_arg_error N h Delta K e)).
  { eapply carries_ext; [| |exact H2].
    - intros j Hj. apply (f_equal real). unfold t. field. lra.
    - unfold em_arg_error. right. field. lra. }
  destruct (C62_deg31 LOGN LD (Q - LD) s (key 1) (key 2) (key 3) (key 4) (key 5) (fun _ => 1%R) (65 / 100)%R (em_arg_error N h Delta K e) evalmod_u (fun j => real (t j)) ct1' (sq_new (Q - 6 * LD) N))
    as (ct2 & E3 & H3).
  { constructor; auto; try lia.
    - cbn [length]. lia.
    - intros i Hi. cbn [length] in Hi. replace (Q - LD - LD * i) with (Q - (i + 1) * LD) by ring. apply HW. lia.
    - intros i evk E. assert (Hi : (i < 5)%nat) by (assert (nth_error [key 1; key 2; key 3; key 4; key 5] i <> None) as G by congruence; apply nth_error_Some in G; exact G).
      replace (Q - LD - LD * Z.of_nat i) with (Q - (Z.of_nat i + 1) * LD) by ring.
      replace evk with (key (Z.of_nat i + 1)); [apply Hkey; lia|]. do 5 (destruct i as [|i]; [cbn in E; injection E as <-; reflexivity|]). lia.
    - eapply Forall_impl; [|exact evalmod_u_bound]. intros u Hu. split; [exact Hu|discriminate].
    - fold Delta. split; (apply Rlt_trans with Delta; [lra|]); apply IZR_lt; [lia|]. apply Z.pow_lt_mono_r; lia.
    - intros b Hb j Hj. apply C62_real_slots. apply Ht.
    - cbn [length]. replace (Q - LD - LD * Z.of_nat 5) with (Q - 6 * LD) by ring. apply new_object2; fold N; lia. }
  { reflexivity. }
  fold N Delta h in E3, H3. replace (Q - LD - LD * 5) with (Q - 6 * LD) in H3 by ring.
  assert (H3' : carries (Q - 6 * LD) N s ct2 Delta (fun j => real (cos (3 * PI * t j))) (em_cos_error N h Delta K e)).
  { apply (carries_near LOGN s _ _ _ _ (fun j => real (cos (3 * PI * t j))) _ (24 / IZR (10 ^ 15))) in H3; [exact H3|]. intros j Hj. apply evalmod_poly. apply Ht. }
  clear H3. pose proof (fun (i : Z) (T : sq) (a : Z -> R) (er : R) (Hi : 1 <= i <= 11) => carries_angle LOGN LD HL HLD s (Q - i * LD) T (key i) a er ltac:(nia) (W1 i Hi) (W2 i Hi) (Hkey i Hi)) as AN.
  fold N Delta h in AN.
  destruct (AN 6 ct2 _ _ ltac:(lia) H3') as (ct3 & E4 & H4). replace (Q - 6 * LD - LD) with (Q - 7 * LD) in E4, H4 by ring.
  destruct (AN 7 ct3 _ _ ltac:(lia) H4) as (ct4 & E5 & H5). replace (Q - 7 * LD - LD) with (Q - 8 * LD) in E5, H5 by ring.
  destruct (AN 8 ct4 _ _ ltac:(lia) H5) as (ct5 & E6 & H6). replace (Q - 8 * LD - LD) with (Q - 9 * LD) in E6, H6 by ring.
  destruct (AN 9 ct5 _ _ ltac:(lia) H6) as (ct6 & E7 & H7). replace (Q - 9 * LD - LD) with (Q - 10 * LD) in E7, H7 by ring.
  set (y := fun j => cos (48 * PI * t j)).
  assert (H7' : carries (Q - 10 * LD) N s ct6 Delta (fun j => real (y j)) (em_y_error N h Delta K e)).
  { eapply carries_ext; [|apply Rle_refl|exact H7]. intros j Hj. cbv beta. apply (f_equal real). unfold y. f_equal. ring. }
  clear H4 H5 H6 H7 AN. assert (Hy : forall j, (Rabs (y j) <= 1)%R) by (intros; apply Rabs_le, COS_bound).
  destruct (em_square6_ok LOGN LD HL HLD s (Q - 10 * LD) ct6 (key 10) y _ ltac:(lia) (W1 10 ltac:(lia)) (W2 10 ltac:(lia)) (Hkey 10 ltac:(lia)) (fun j _ => Hy j) H7') as (ct7 & E8 & H8).
  destruct (em_times_ok LOGN LD HL HLD s (Q - 10 * LD) ct6 y _ ltac:(lia) (fun j _ => Hy j) H7') as (ct8 & E9 & H9).
  fold N Delta h in E8, H8, E9, H9. replace (Q - 10 * LD - LD) with (Q - 11 * LD) in H8, H9 by ring.
  destruct (PI_macro_near LOGN LD HLD s) as (_ & _ & P36).
  assert (M7 : forall j, 0 <= j < N / 2 -> (modulus (real (y j * y j + 6)) <= 7)%R).
  { intros j _. rewrite modulus_real. pose proof (COS_bound (48 * PI * t j)) as CB. fold (y j) in CB. rewrite Rabs_right by nra. nra. }
  assert (M8 : forall j, 0 <= j < N / 2 -> (modulus (real (y j / (12 * PI))) <= / 36)%R).
  { intros j _. rewrite modulus_real. unfold Rdiv. rewrite Rabs_mult, (Rabs_right (/ (12 * PI))) by (apply Rle_ge, Rlt_le, Rinv_0_lt_compat; lra).
    replace (/ 36)%R with (1 * / 36)%R by ring. apply Rmult_le_compat; [apply Rabs_pos|apply Rlt_le, Rinv_0_lt_compat; lra|apply Hy|apply Rinv_le_contravar; lra]. }
  destruct (carries_Mul LOGN HL s (Q - 11 * LD) ct7 ct8 (key 11) (sq_new (Q - 11 * LD) N) Delta Delta _ _ _ _ _ _ (W1 11 ltac:(lia)) (W2 11 ltac:(lia)) (Hkey 11 ltac:(lia))
      ltac:(apply new_object2; lia) ltac:(lra) ltac:(lra) M7 M8 H8 H9) as (ct9 & E10 & H10). fold N h in E10, H10.
  replace (Delta * Delta)%R with (Delta * IZR (2 ^ (Q - 11 * LD - (Q - 12 * LD))))%R in H10 at 1 by (replace (Q - 11 * LD - (Q - 12 * LD)) with LD by ring; reflexivity).
  destruct (carries_RS LOGN HL s (Q - 11 * LD) (Q - 12 * LD) ct9 p Delta _ _ ltac:(lia) ltac:(lra) Hp H10) as (p' & E11 & H11). fold N h in E11, H11.
  exists p'. split.
  - unfold EvalMod_keys. rewrite E1. cbn [bind]. rewrite E2. cbn [bind]. rewrite E3. cbn [bind]. rewrite E4. cbn [bind]. rewrite E5. cbn [bind]. rewrite E6. cbn [bind]. rewrite E7. cbn [bind].
    rewrite E8. cbn [bind]. rewrite E9. cbn [bind]. rewrite E10. cbn [bind]. exact E11.
  - eapply carries_ext; [| |exact H11].
    + intros j Hj. cbv beta. unfold evalmod_value, asin3. fold (t j). fold (y j). pose proof PI_RGT_0. set (v := y j). clearbody v. apply RC_eq; cbn; field; lra.
    + unfold evalmod_error. unfold mul_noise at 1. right. field. lra.
Qed.

(** With the secret key, EvalMod makes its own evaluation keys. *)
Theorem C71_EvalMod : forall LOGN LD Q K RM rnd pos s ct r e p, evalmod_params LOGN LD Q K -> rand_stream RM rnd -> ternary (2 ^ LOGN) s ->
  (forall j, Rabs (r j - / 4) <= IZR K)%R -> carries Q (2 ^ LOGN) (coef s) ct (IZR (2 ^ LD)) (fun j => real (r j)) e -> object2 (Q - 12 * LD) (2 ^ LOGN) p ->
  exists pos' p', EvalMod Q (2 ^ LOGN) LD K RM rnd pos ct (map Some s) p = Ok (pos', p') /\
    carries (Q - 12 * LD) (2 ^ LOGN) (coef s) p' (IZR (2 ^ LD)) (fun j => real (evalmod_value K (r j)))
      (evalmod_error (2 ^ LOGN) (norm1 (2 ^ LOGN) (coef s)) (IZR (2 ^ LD)) K e).
Proof.
  intros LOGN LD Q K RM rnd pos s ct r e p HP Hrnd Hs Hr Hct Hp. pose proof HP as [HL HLD _ HQ HW]. set (N := 2 ^ LOGN) in *.
  assert (HN : 2 <= N <= 2 ^ 17) by (unfold N; split; [change 2 with (2 ^ 1) at 1|]; apply Z.pow_le_mono_r; lia).
  pose proof Hs as [Hsl Hst].
  destruct (C33_conv_int_ternary N s s (fresh N) ltac:(lia) Hsl Hsl ltac:(apply fresh_length) Hst Hst) as (s2 & Es & Hl2 & Hs2).
  assert (Hb2 : Forall (fun x => Z.abs x < 2 ^ 31) s2).
  { apply Forall_forall. intros x Hx. destruct (In_nth s2 x 0 Hx) as (n & Hn & <-). destruct (Hs2 (Z.of_nat n) ltac:(lia)) as [_ B]. unfold coef in B. rewrite Nat2Z.id in B. lia. }
  assert (GK : forall i ps, 1 <= i <= 11 -> exists k ps', em_key Q N LD RM rnd (map Some s) (map Some s2) i ps = Ok (k, ps') /\ switching_key (Q - i * LD) N k (negconv N (coef s) (coef s)) (coef s)).
  { intros i ps Hi. assert (1 <= Q - i * LD) by nia.
    destruct (C38_swkgen (Q - i * LD) N RM rnd s2 s (sq_new (2 * (Q - i * LD)) N) ps ltac:(lia) ltac:(lia) Hrnd Hl2 Hb2 Hs ltac:(apply new_object2; lia)) as (k & ps' & E & Hk).
    exists k, ps'. split; [exact E|]. destruct Hk as (er & He & Hd). exists er. split; [exact He|]. eapply decrypts_mod; [|exact Hd]. intros j Hj. cbv beta. rewrite (proj1 (Hs2 j Hj)). reflexivity. }
  destruct (GK 1 pos ltac:(lia)) as (k1 & p1 & E1 & K1). destruct (GK 2 p1 ltac:(lia)) as (k2 & p2 & E2 & K2). destruct (GK 3 p2 ltac:(lia)) as (k3 & p3 & E3 & K3).
  destruct (GK 4 p3 ltac:(lia)) as (k4 & p4 & E4 & K4). destruct (GK 5 p4 ltac:(lia)) as (k5 & p5 & E5 & K5). destruct (GK 6 p5 ltac:(lia)) as (k6 & p6 & E6 & K6).
  destruct (GK 7 p6 ltac:(lia)) as (k7 & p7 & E7 & K7). destruct (GK 8 p7 ltac:(lia)) as (k8 & p8 & E8 & K8). destruct (GK 9 p8 ltac:(lia)) as (k9 & p9 & E9 & K9).
  destruct (GK 10 p9 ltac:(lia)) as (k10 & p10 & E10 & K10). destruct (GK 11 p10 ltac:(lia)) as (k11 & p11 & E11 & K11).
  set (key := fun i => nth (Z.to_nat i) [k1; k1; k2; k3; k4; k5; k6; k7; k8; k9; k10; k11] k1).
  assert (HK : em_keys LOGN LD Q (coef s) key).
  { intros i Hi. fold N. assert (i = 1 \/ i = 2 \/ i = 3 \/ i = 4 \/ i = 5 \/ i = 6 \/ i = 7 \/ i = 8 \/ i = 9 \/ i = 10 \/ i = 11) as D by lia.
    destruct D as [->|[->|[->|[->|[->|[->|[->|[->|[->|[->| ->]]]]]]]]]]; assumption. }
  destruct (C71_EvalMod_keys LOGN LD Q K (coef s) key ct r e p HP HK Hr Hct Hp) as (p' & E & H'). fold N in E, H'.
  exists p11, p'. split; [|exact H'].
  unfold EvalMod. rewrite Es. cbn [bind]. cbv zeta. rewrite E1. cbn [bind]. rewrite E2. cbn [bind]. rewrite E3. cbn [bind]. rewrite E4. cbn [bind]. rewrite E5. cbn [bind]. rewrite E6. cbn [bind].
  rewrite E7. cbn [bind]. rewrite E8. cbn [bind]. rewrite E9. cbn [bind]. rewrite E10. cbn [bind]. rewrite E11. cbn [bind].
  change (EvalMod_keys Q N LD K ct k1 k2 k3 k4 k5 k6 k7 k8 k9 k10 k11 p = Ok p') in E. rewrite E. reflexivity.
Qed.

(** ** EvalMod with K = 24 subtracts the nearest integer *)
Theorem C72_value : forall (I : Z) d, (Rabs (evalmod_value 24 (IZR I + d) - d) <= 6 / 5 * PI ^ 4 * Rabs d ^ 5)%R.
Proof.
  intros I d. unfold evalmod_value. replace (48 * PI * ((IZR I + d - / 4) / 24))%R with (2 * PI * (IZR I + d - / 4))%R by field. rewrite cos_shift. apply mod_approx.
Qed.
Theorem C72_EvalMod : forall LOGN LD Q RM rnd pos s ct I d dmax e p, evalmod_params LOGN LD Q 24 -> rand_stream RM rnd -> ternary (2 ^ LOGN) s ->
  (forall j, Rabs (IZR (I j) + d j - / 4) <= 24)%R -> (forall j, Rabs (d j) <= dmax)%R ->
  carries Q (2 ^ LOGN) (coef s) ct (IZR (2 ^ LD)) (fun j => real (IZR (I j) + d j)) e -> object2 (Q - 12 * LD) (2 ^ LOGN) p ->
  exists pos' p', EvalMod Q (2 ^ LOGN) LD 24 RM rnd pos ct (map Some s) p = Ok (pos', p') /\
    carries (Q - 12 * LD) (2 ^ LOGN) (coef s) p' (IZR (2 ^ LD)) (fun j => real (d j))
      (evalmod_error (2 ^ LOGN) (norm1 (2 ^ LOGN) (coef s)) (IZR (2 ^ LD)) 24 e + 6 / 5 * PI ^ 4 * dmax ^ 5).
Proof.
  intros LOGN LD Q RM rnd pos s ct I d dmax e p HP Hrnd Hs Hr Hd Hct Hp.
  destruct (C71_EvalMod LOGN LD Q 24 RM rnd pos s ct (fun j => IZR (I j) + d j)%R e p HP Hrnd Hs Hr Hct Hp) as (pos' & p' & E & H').
  exists pos', p'. split; [exact E|]. apply (carries_near LOGN (coef s) _ _ _ _ (fun j => real (d j)) _ (6 / 5 * PI ^ 4 * dmax ^ 5)) in H'; [exact H'|].
  intros j Hj. cbv beta. rewrite real_minus, modulus_real. eapply Rle_trans; [apply C72_value|].
  apply Rmult_le_compat_l; [apply Rmult_le_pos; [lra|apply pow_le, Rlt_le, PI_RGT_0]|]. apply pow_incr. split; [apply Rabs_pos|apply Hd].
Qed.

(** A number for the error *)
Theorem C72_numeric : forall LOGN LD Q RM rnd pos s ct I d dmax e delta p, evalmod_params LOGN LD Q 24 -> rand_stream RM rnd -> ternary (2 ^ LOGN) s ->
  (forall j, Rabs (IZR (I j) + d j - / 4) <= 24)%R -> (forall j, Rabs (d j) <= dmax)%R ->
  carries Q (2 ^ LOGN) (coef s) ct (IZR (2 ^ LD)) (fun j => real (IZR (I j) + d j)) e -> object2 (Q - 12 * LD) (2 ^ LOGN) p ->
  let N := IZR (2 ^ LOGN) in let h := norm1 (2 ^ LOGN) (coef s) in let Delta := IZR (2 ^ LD) in
  (e / 24 + 26 / Delta + N * IZR (1 + h) / (2 * Delta) + N * (8 * N + IZR (1 + h)) / (Delta * Delta) <= delta)%R -> (delta <= / IZR (10 ^ 8))%R ->
  exists pos' p', EvalMod Q (2 ^ LOGN) LD 24 RM rnd pos ct (map Some s) p = Ok (pos', p') /\
    carries (Q - 12 * LD) (2 ^ LOGN) (coef s) p' Delta (fun j => real (d j)) (340000 * delta + 2 / IZR (10 ^ 12) + 117 * dmax ^ 5).
Proof.
  intros LOGN LD Q RM rnd pos s ct I d dmax e delta p HP Hrnd Hs Hr Hd Hct Hp N h Delta H1 H2.
  destruct (C72_EvalMod LOGN LD Q RM rnd pos s ct I d dmax e p HP Hrnd Hs Hr Hd Hct Hp) as (pos' & p' & E & H'). exists pos', p'. split; [exact E|].
  eapply carries_ext; [reflexivity| |exact H']. destruct HP as [HL HLD _ _ _].
  assert (HN : 2 <= 2 ^ LOGN) by (change 2 with (2 ^ 1) at 1; apply Z.pow_le_mono_r; lia). pose proof (HDelta LD ltac:(lia)) as HDl.
  pose proof (err_nonneg LOGN HL (coef s) _ _ _ _ _ Hct) as He.
  apply Rplus_le_compat.
  - apply evalmod_error_bound; auto; try lia; [apply norm1_nonneg; lia|lra|].
    eapply Rle_trans; [|exact H1]. unfold em_arg_error, rescale_noise, mul_noise. fold h Delta N. apply Req_le.
    replace (IZR (8 * 2 ^ LOGN + 1 + h)) with (8 * N + IZR (1 + h))%R by (unfold N; rewrite !plus_IZR, mult_IZR; ring). field. unfold Delta. lra.
  - assert (P : (6 / 5 * PI ^ 4 <= 117)%R).
    { destruct PI_bounds as [P1 P2]. pose proof PI_RGT_0. assert (PI <= 3.1416)%R by lra. assert (PI * PI <= 9.86966)%R by nra. assert (0 <= PI * PI)%R by nra. nra. }
    apply Rmult_le_compat_r; [|exact P]. apply pow_le. eapply Rle_trans; [apply Rabs_pos|apply (Hd 0)].
Qed.

(** ** What a ciphertext carries is determined by it, unless the modulus is exceeded *)
Theorem C71_unique : forall LOGN Q s ct D x y e1 e2 B, 2 <= LOGN <= 17 -> 1 <= Q -> (0 < D)%R ->
  carries Q (2 ^ LOGN) s ct D x e1 -> carries Q (2 ^ LOGN) s ct D y e2 ->
  (forall j, 0 <= j < 2 ^ LOGN / 2 -> (modulus (x j - y j)%num <= B)%R) -> (D * (B + e1 + e2) < IZR (2 ^ Q))%R ->
  forall j, 0 <= j < 2 ^ LOGN / 2 -> (modulus (x j - y j)%num <= e1 + e2)%R.
Proof.
  intros LOGN Q s ct D x y e1 e2 B HL HQ HD (m1 & M1 & S1) (m2 & M2 & S2) HB HX. set (N := 2 ^ LOGN) in *. pose proof (pow2_pos Q ltac:(lia)) as Hq.
  assert (HN : 2 <= N) by (unfold N; change 2 with (2 ^ 1) at 1; apply Z.pow_le_mono_r; lia). assert (EN : N / 2 = 2 ^ (LOGN - 1)) by (unfold N; replace LOGN with (Z.succ (LOGN - 1)) at 1 by lia; rewrite Z.pow_succ_r, Z.mul_comm, Z.div_mul by lia; reflexivity).
  assert (C : pcong N (2 ^ Q) m1 m2).
  { apply decrypts_rep in M1, M2; try lia. destruct M1 as (a & b & -> & C1), M2 as (a' & b' & E & C2). unfold repS in E. injection E as Ea Eb.
    pose proof (repP_inj Q N _ _ HQ Ea) as Ra. pose proof (repP_inj Q N _ _ HQ Eb) as Rb.
    eapply pcong_trans; [apply pcong_sym; exact C1|]. eapply pcong_trans; [|exact C2]. apply padd_proper; [apply pcong_mod; auto|]. apply negconv_proper; try lia; [apply pcong_refl|apply pcong_mod; auto]. }
  assert (G : forall j, 0 <= j < N / 2 -> (modulus (slots N D (fun i => m1 i - m2 i)%Z j) <= B + e1 + e2)%R).
  { intros j Hj. rewrite slots_sub. specialize (HB j Hj). specialize (S1 j Hj). specialize (S2 j Hj).
    replace (slots N D m1 j - slots N D m2 j)%num with ((x j - y j) + (slots N D m1 j - x j) - (slots N D m2 j - y j))%num by ring.
    eapply Rle_trans; [apply modulus_sub|]. pose proof (modulus_add (x j - y j)%num (slots N D m1 j - x j)%num). lra. }
  assert (Z0 : forall i, 0 <= i < N -> m1 i = m2 i).
  { intros i Hi. pose proof (coef_slots_Z LOGN (fun i => m1 i - m2 i) D (B + e1 + e2)%R ltac:(lia) HD ltac:(intros; apply G; fold N; lia) i Hi) as T. cbv beta in T. rewrite <- abs_IZR in T.
    assert (Z.abs (m1 i - m2 i) < 2 ^ Q) by (apply lt_IZR; lra). destruct (C i Hi) as [k Hk]. set (M := 2 ^ Q) in *. assert (k = 0) by (destruct (Z.lt_trichotomy k 0) as [|[|]]; [exfalso|auto|exfalso]; nia). subst k. lia. }
  intros j Hj. specialize (S1 j Hj). specialize (S2 j Hj). assert (ES : slots N D m1 j = slots N D m2 j) by (apply slot_ext; intros i Hi; rewrite Z0 by exact Hi; reflexivity).
  rewrite ES in S1. replace (x j - y j)%num with ((slots N D m2 j - y j) - (slots N D m2 j - x j))%num by ring. eapply Rle_trans; [apply modulus_sub|]. lra.
Qed.

(** ** The polynomial and the four doublings are for K = 24: with another template argument EvalMod does something else *)
Definition em_ex_key (i : Z) : sq := ex_key (700 - i * 50).
Lemma em_ex_params K : 1 <= K <= 1000 -> evalmod_params 2 50 700 K.
Proof. intros HK. constructor; try lia. intros i Hi. unfold widths. lia. Qed.
Lemma em_ex_keys : em_keys 2 50 700 ex_s em_ex_key.
Proof. intros i Hi. apply ex_key_ok. lia. Qed.
Definition em_ex_ct : sq := repS 700 4 (const (2 ^ 50)) (fun _ => 0).
Lemma em_ex_carries : carries 700 (2 ^ 2) ex_s em_ex_ct (IZR (2 ^ 50)) (fun _ => real 1) 0.
Proof.
  exists (const (2 ^ 50)). split.
  - apply decrypts_rep; try lia. eexists _, _. split; [reflexivity|]. apply pcong_peq. intros i Hi. unfold padd. rewrite negconv_zero_r. lia.
  - intros j Hj. change (2 ^ 2) with 4. rewrite slots_const by lia. unfold Rdiv. rewrite Rinv_r by (apply not_0_IZR; discriminate). rewrite real_minus, modulus_real, Rminus_diag_eq, Rabs_R0; lra.
Qed.
Lemma em_ex_error K : 1 <= K <= 1000 -> (evalmod_error (2 ^ 2) (norm1 (2 ^ 2) ex_s) (IZR (2 ^ 50)) K 0 <= 1 / 100000)%R.
Proof.
  intros HK. eapply Rle_trans; [apply (evalmod_error_bound _ _ _ K 0 (/ IZR (10 ^ 11))); try lia|].
  - apply norm1_nonneg.
  - lra.
  - lra.
  - change (norm1 (2 ^ 2) ex_s) with 2. change (2 ^ 2) with 4. unfold em_arg_error, rescale_noise, mul_noise. assert (IZR K <= 1000)%R by (apply IZR_le; lia).
    change (2 ^ 50) with 1125899906842624. cbn [Z.mul Z.add Z.opp Z.sub Pos.mul Pos.add]. unfold Rdiv. rewrite Rmult_0_l. change (10 ^ 11) with 100000000000. lra.
  - change (10 ^ 11) with 100000000000. change (10 ^ 8) with 100000000. lra.
  - change (10 ^ 11) with 100000000000. change (10 ^ 12) with 1000000000000. lra.
Qed.
Lemma em_ex_run K : 1 <= K <= 1000 ->
  exists p', EvalMod_keys 700 4 50 K em_ex_ct (em_ex_key 1) (em_ex_key 2) (em_ex_key 3) (em_ex_key 4) (em_ex_key 5) (em_ex_key 6) (em_ex_key 7) (em_ex_key 8) (em_ex_key 9) (em_ex_key 10) (em_ex_key 11) (sq_new 100 4) = Ok p' /\
    carries 100 4 ex_s p' (IZR (2 ^ 50)) (fun _ => real (evalmod_value K 1)) (1 / 100000).
Proof.
  intros HK. destruct (C71_EvalMod_keys 2 50 700 K ex_s em_ex_key em_ex_ct (fun _ => 1%R) 0%R (sq_new 100 4) (em_ex_params K HK) em_ex_keys) as (p' & E & H').
  - intros _. rewrite Rabs_right by lra. assert (1 <= IZR K)%R by (apply IZR_le; lia). lra.
  - apply em_ex_carries.
  - apply new_object2; lia.
  - exists p'. split; [exact E|]. eapply (carries_ext 2); [reflexivity| |exact H']. apply em_ex_error. auto.
Qed.
Example C71_case : exists p',
  EvalMod_keys 700 4 50 24 em_ex_ct (em_ex_key 1) (em_ex_key 2) (em_ex_key 3) (em_ex_key 4) (em_ex_key 5) (em_ex_key 6) (em_ex_key 7) (em_ex_key 8) (em_ex_key 9) (em_ex_key 10) (em_ex_key 11) (sq_new 100 4) = Ok p' /\
  carries 100 4 ex_s p' (IZR (2 ^ 50)) (fun _ => real 0) (1 / 100000).
Proof.
  destruct (em_ex_run 24 ltac:(lia)) as (p' & E & H'). exists p'. split; [exact E|]. eapply (carries_ext 2); [|apply Rle_refl|exact H'].
  intros j _. apply (f_equal real). pose proof (C72_value 1 0) as V. rewrite Rplus_0_r, Rminus_0_r, Rabs_R0 in V. rewrite pow_ne_zero, Rmult_0_r in V by lia.
  destruct (Req_dec (evalmod_value 24 1) 0) as [|F]; [auto|]. apply Rabs_pos_lt in F. lra.
Qed.
Theorem C73_other_K_refuted : carries 700 4 ex_s em_ex_ct (IZR (2 ^ 50)) (fun _ => real 1) 0 /\
  exists p', EvalMod_keys 700 4 50 12 em_ex_ct (em_ex_key 1) (em_ex_key 2) (em_ex_key 3) (em_ex_key 4) (em_ex_key 5) (em_ex_key 6) (em_ex_key 7) (em_ex_key 8) (em_ex_key 9) (em_ex_key 10) (em_ex_key 11) (sq_new 100 4) = Ok p' /\
  ~ carries 100 4 ex_s p' (IZR (2 ^ 50)) (fun _ => real 0) (1 / 10).
Proof.
  split; [apply em_ex_carries|]. destruct (em_ex_run 12 ltac:(lia)) as (p' & E & H'). exists p'. split; [exact E|]. intros H0.
  assert (V : evalmod_value 12 1 = (- 7 / (12 * PI))%R).
  { unfold evalmod_value. replace (48 * PI * ((1 - / 4) / 12))%R with (PI + 2 * PI)%R by field. rewrite cos_plus, cos_PI, sin_PI, cos_2PI. unfold asin3. field. apply PI_neq0. }
  destruct PI_bounds as [P1 P2]. pose proof PI_RGT_0. assert (P3 : (PI <= 4)%R) by lra.
  assert (Q1 : (7 / 48 <= 7 / (12 * PI) <= 7 / 12)%R).
  { assert (1 <= PI)%R by lra. split; (apply Rmult_le_compat_l; [lra|]); apply Rinv_le_contravar; lra. }
  pose proof (C71_unique 2 100 ex_s p' (IZR (2 ^ 50)) (fun _ => real (evalmod_value 12 1)) (fun _ => real 0) (1 / 100000) (1 / 10) 1 ltac:(lia) ltac:(lia) ltac:(apply IZR_lt; lia) H' H0) as U. cbv beta in U.
  rewrite real_minus, modulus_real, Rminus_0_r, V in U.
  replace (- 7 / (12 * PI))%R with (- (7 / (12 * PI)))%R in U by (field; lra). rewrite Rabs_Ropp, Rabs_right in U by lra.
  specialize (U ltac:(intros; lra)). change (2 ^ 50) with 1125899906842624 in U. change (2 ^ 100) with 1267650600228229401496703205376 in U. specialize (U ltac:(lra) 0 ltac:(change (2 ^ 2 / 2) with 2; lia)). lra.
Qed.
(** The secret-key version: slots 1 = 1 + 0, key 1-X^2, any stream of random numbers *)
Example C72_case RM rnd pos : rand_stream RM rnd -> exists pos' p',
  EvalMod 700 4 50 24 RM rnd pos em_ex_ct (map Some [1; 0; -1; 0]) (sq_new 100 4) = Ok (pos', p') /\
  carries 100 4 (coef [1; 0; -1; 0]) p' (IZR (2 ^ 50)) (fun _ => real 0) (1 / 100000).
Proof.
  intros Hrnd. assert (E4 : forall i, coef [1; 0; -1; 0] i = ex_s i \/ i < 0).
  { intros i. destruct (Z.lt_ge_cases i 0); [right; auto|left]. assert (i = 0 \/ i = 1 \/ i = 2 \/ i = 3 \/ 4 <= i) as [->|[->|[->|[->|G]]]] by lia; try reflexivity.
    unfold coef, ex_s. rewrite nth_overflow by (cbn [length]; lia). destruct (Z.eqb_spec i 0), (Z.eqb_spec i 2); lia. }
  destruct (C72_numeric 2 50 700 RM rnd pos [1; 0; -1; 0] em_ex_ct (fun _ => 1) (fun _ => 0%R) 0%R 0%R (/ IZR (10 ^ 11))%R (sq_new 100 4) (em_ex_params 24 ltac:(lia)) Hrnd) as (pos' & p' & E & H').
  - split; [reflexivity|]. repeat constructor; lia.
  - intros _. rewrite Rplus_0_r, Rabs_right; lra.
  - intros _. rewrite Rabs_R0. lra.
  - destruct em_ex_carries as (m & Hm & Hs). exists m. split.
    + apply decrypts_rep in Hm; try lia. apply decrypts_rep; try lia. destruct Hm as (a & b & E & C). exists a, b. split; [exact E|]. eapply pcong_trans; [|exact C].
      apply padd_proper; [apply pcong_refl|]. apply negconv_proper; try lia; [|apply pcong_refl]. apply pcong_peq. intros i Hi. destruct (E4 i); [auto|lia].
    + intros j Hj. cbv beta. rewrite Rplus_0_r. apply (Hs j Hj).
  - apply new_object2; lia.
  - change (norm1 (2 ^ 2) (coef [1; 0; -1; 0])) with 2. change (2 ^ 2) with 4. change (2 ^ 50) with 1125899906842624. change (10 ^ 11) with 100000000000. change (1 + 2) with 3. lra.
  - change (10 ^ 11) with 100000000000. change (10 ^ 8) with 100000000. lra.
  - exists pos', p'. split; [exact E|]. eapply (carries_ext 2); [reflexivity| |exact H']. rewrite pow_ne_zero by lia. change (10 ^ 11) with 100000000000. change (10 ^ 12) with 1000000000000. lra.
Qed.

Print Assumptions C71_EvalMod_keys.
Print Assumptions C71_EvalMod.
Print Assumptions C71_unique.
Print Assumptions C72_value.
Print Assumptions C72_EvalMod.
Print Assumptions C72_numeric.
Print Assumptions C73_other_K_refuted.
