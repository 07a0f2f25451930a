(** Floating-point decoding. *)
From Coq Require Import ZArith List Bool Lia Reals Lra Ring.
From Verif Require Import Base BaseFacts Util UtilFacts ZQ ZQFacts ZQFacts2 RQ RQFacts SpecZQ SpecPoly SpecPolyFacts GSum Matrix MatrixFacts MatMulFacts DFT DFTTheory DFTFacts FFTFacts Encode EncodeFacts SpecMat Properties_Mat SpecDFT Properties_DFT SpecEnc SlotFacts LinSlots.
From Verif Require Import Float SpecFloat FloatFacts FloatError FloatStage FloatMain.
Import ListNotations.
Open Scope Z_scope.

Section Dec.
Context (F : fpu) (LOGQ : Z) (HQ : 1 <= LOGQ).
Context (u eta top t : R) (ar : arithmetic u eta top t (rnd F) (dpi F) (lcos F) (lsin F)) (Hbig : (IZR (2 ^ 66) <= top)%R).
Let v1 := (u + eta)%R.

Lemma v1_bounds : (0 <= v1 <= / 512)%R.
Proof. unfold v1. destruct ar. lra. Qed.
Lemma v1_mul x : (0 <= x)%R -> (0 <= v1 * x <= x / 512)%R.
Proof. pose proof v1_bounds. intros Hx. split; [apply Rmult_le_pos; lra|]. unfold Rdiv. rewrite (Rmult_comm x). apply Rmult_le_compat_r; lra. Qed.
Lemma pow_exact k : 0 <= k -> (IZR (2 ^ k) <= top)%R -> rnd F (IZR (2 ^ k)) = IZR (2 ^ k).
Proof.
  intros Hk Ht. destruct ar as [_ _ _ _ _ ex _ _ _]. specialize (ex 1 k ltac:(lia) Hk). rewrite Rmult_1_l in ex. apply ex.
  rewrite Rabs_right; auto. apply Rle_ge, IZR_le. pose proof (Z.pow_nonneg 2 k). lia.
Qed.
Lemma f_beta_is : f_beta F = IZR W.
Proof.
  assert (H32 : (IZR (2 ^ 32) <= top)%R) by (eapply Rle_trans; [|exact Hbig]; apply IZR_le; vm_compute; discriminate).
  assert (H64 : (IZR (2 ^ 64) <= top)%R) by (eapply Rle_trans; [|exact Hbig]; apply IZR_le; vm_compute; discriminate).
  unfold f_beta. rewrite pow_exact by (auto; lia). rewrite <- mult_IZR. change (2 ^ 32 * 2 ^ 32) with (2 ^ 64). rewrite pow_exact by (auto; lia). reflexivity.
Qed.
(** relative error of rounding numbers that are at least 1 *)
Lemma rnd_rel x : (1 <= x)%R -> (x <= top)%R -> (Rabs (rnd F x - x) <= v1 * x)%R.
Proof.
  intros H1 H2. destruct ar as [? ? _ _ ar_rnd0 _ _ _ _]. pose proof (ar_rnd0 x ltac:(rewrite Rabs_right; lra)) as E. rewrite (Rabs_right x) in E by lra. unfold v1. nra.
Qed.

(** one word of decode: w*power/Delta *)
Lemma word_err (w p D : R) : (1 <= w)%R -> (1 <= p)%R -> (1 <= D)%R -> (2 * (w * p) <= top)%R -> (2 * D <= top)%R ->
  (Rabs (rnd F (rnd F (rnd F w * p) / rnd F D) - w * p / D) <= 5 * v1 * (w * p / D) + eta)%R.
Proof.
  intros Hw Hp HD Ht1 Ht2. pose proof v1_bounds as Hv. assert (Hwp : (w <= w * p)%R) by nra.
  pose proof (rnd_rel w Hw ltac:(lra)) as R1. apply abs_le in R1. pose proof (rnd_rel D HD ltac:(lra)) as R2. apply abs_le in R2.
  set (w' := rnd F w) in *. set (D' := rnd F D) in *. set (q := (w * p)%R) in *.
  pose proof (v1_mul q ltac:(lra)) as V1. pose proof (v1_mul D ltac:(lra)) as V2. pose proof (v1_mul (v1 * q) ltac:(lra)) as V3.
  assert (E1 : (Rabs (w' * p - q) <= v1 * q)%R). { unfold q. rewrite <- Rmult_minus_distr_r, Rabs_mult, (Rabs_right p) by lra. rewrite <- Rmult_assoc. apply Rmult_le_compat_r; [lra|]. apply Rabs_le. lra. }
  apply abs_le in E1. destruct ar as [ar_u0 ar_eta0 _ _ ar_rnd0 _ _ _ _].
  assert (E2 : (Rabs (rnd F (w' * p) - q) <= 21 / 10 * (v1 * q))%R).
  { pose proof (ar_rnd0 (w' * p)%R ltac:(apply Rabs_le; lra)) as R3. rewrite (Rabs_right (w' * p)) in R3 by lra. apply abs_le in R3.
    assert (u * (w' * p) <= u * (q + v1 * q))%R by (apply Rmult_le_compat_l; lra). assert (eta <= eta * q)%R by nra.
    assert (u * q + eta * q = v1 * q)%R by (unfold v1; ring). assert (u * (v1 * q) <= v1 * (v1 * q))%R by (apply Rmult_le_compat_r; unfold v1 in *; lra). apply Rabs_le. lra. }
  apply abs_le in E2. set (r := rnd F (w' * p)) in *.
  assert (HD' : (0 < D')%R) by lra. set (y := (q / D)%R). assert (Hy : (0 <= y)%R) by (unfold y; apply Rmult_le_pos; [lra|apply Rlt_le, Rinv_0_lt_compat; lra]).
  assert (Eq : (q = y * D)%R) by (unfold y; field; lra).
  pose proof (v1_mul y Hy) as V4. pose proof (v1_mul (v1 * y) ltac:(lra)) as V5.
  assert (E3 : (Rabs (r / D' - y) <= 32 / 10 * (v1 * y))%R).
  { replace (r / D' - y)%R with ((r - y * D') / D')%R by (field; lra). unfold Rdiv. rewrite Rabs_mult, (Rabs_right (/ D')) by (apply Rle_ge, Rlt_le, Rinv_0_lt_compat; lra).
    apply Rmult_le_reg_r with D'; auto. rewrite Rmult_assoc, Rinv_l, Rmult_1_r by lra.
    assert (K1 : (Rabs (y * D' - q) <= v1 * q)%R). { rewrite Eq. rewrite <- Rmult_minus_distr_l, Rabs_mult, (Rabs_right y) by lra. replace (v1 * (y * D))%R with (y * (v1 * D))%R by ring. apply Rmult_le_compat_l; [lra|]. apply Rabs_le. lra. }
    apply abs_le in K1. assert (K2 : (v1 * q * (511 / 512) <= v1 * y * D')%R). { rewrite Eq. replace (v1 * (y * D) * (511 / 512))%R with (v1 * y * (D * (511 / 512)))%R by ring. apply Rmult_le_compat_l; lra. }
    apply Rabs_le. lra. }
  apply abs_le in E3.
  assert (Hyq : (y <= q)%R). { rewrite Eq. rewrite <- (Rmult_1_r y) at 1. apply Rmult_le_compat_l; lra. }
  pose proof (ar_rnd0 (r / D')%R ltac:(apply Rabs_le; lra)) as R4.
  assert (Hr0 : (0 <= r / D')%R) by (apply Rmult_le_pos; [lra|apply Rlt_le, Rinv_0_lt_compat; lra]). rewrite (Rabs_right (r / D')) in R4 by lra. apply abs_le in R4.
  assert (M : (u * (r / D') <= v1 * (y + 32 / 10 * (v1 * y)))%R). { apply Rmult_le_compat; try lra. unfold v1; lra. }
  apply Rabs_le. lra.
Qed.

(** one addition *)
Lemma add_err (x P a y b c j : R) : (0 <= P)%R -> (0 <= y)%R -> (0 <= j)%R -> (j * v1 <= / 8)%R -> (4 * (P + y) + 1 <= top)%R ->
  (Rabs (x - P) <= (5 * v1 + 2 * j * u) * P + 4 * j * eta)%R -> (Rabs (a - y) <= 5 * v1 * y + eta)%R ->
  b = (P + y)%R -> c = (j + 1)%R -> (Rabs (rnd F (x + a) - b) <= (5 * v1 + 2 * c * u) * b + 4 * c * eta)%R.
Proof.
  intros HP Hy Hj Hjv Ht Hx Ha -> ->. pose proof v1_bounds as Hv. destruct ar as [ar_u0 ar_eta0 _ _ ar_rnd0 _ _ _ _].
  assert (K0 : (0 <= j * u <= / 8)%R). { split; [apply Rmult_le_pos; lra|]. eapply Rle_trans; [|exact Hjv]. apply Rmult_le_compat_l; unfold v1; lra. }
  assert (K2 : (0 <= j * eta <= / 8)%R). { split; [apply Rmult_le_pos; lra|]. eapply Rle_trans; [|exact Hjv]. apply Rmult_le_compat_l; unfold v1; lra. }
  assert (K1 : (0 <= 5 * v1 + 2 * j * u <= 3 / 10)%R) by lra.
  assert (K3 : (u * (j * eta) <= / 8 * eta)%R) by (replace (u * (j * eta))%R with (j * u * eta)%R by ring; apply Rmult_le_compat_r; lra).
  set (al := (5 * v1 + 2 * j * u)%R) in *. set (s := (P + y)%R) in *. assert (Hs : (0 <= s)%R) by (unfold s; lra).
  assert (K5 : (5 * v1 * y <= al * y)%R) by (apply Rmult_le_compat_r; auto; unfold al; lra).
  assert (K4 : (al * P + al * y = al * s)%R) by (unfold s; ring).
  assert (K6 : (0 <= al * s <= 3 / 10 * s)%R) by (split; [apply Rmult_le_pos; lra|apply Rmult_le_compat_r; lra]).
  apply abs_le in Hx, Ha.
  assert (S1 : (- (al * s + (4 * j + 1) * eta) <= x + a - s <= al * s + (4 * j + 1) * eta)%R) by (assert (Es : s = (P + y)%R) by reflexivity; clearbody s; clearbody al; lra).
  assert (B : (Rabs (x + a) <= 13 / 10 * s + (4 * j + 1) * eta)%R) by (apply Rabs_le; lra).
  pose proof (ar_rnd0 (x + a)%R ltac:(lra)) as R1. assert (M : (u * Rabs (x + a) <= u * (13 / 10 * s + (4 * j + 1) * eta))%R) by (apply Rmult_le_compat_l; lra).
  assert (Hus : (0 <= u * s)%R) by (apply Rmult_le_pos; lra). assert (Hue : (u * eta <= eta / 1024)%R) by (unfold Rdiv; rewrite (Rmult_comm eta); apply Rmult_le_compat_r; lra).
  apply abs_le in R1.
  assert (T : ((5 * v1 + 2 * (j + 1) * u) * s = al * s + 2 * (u * s))%R) by (unfold al; ring). rewrite T. apply Rabs_le. lra.
Qed.

Context (Hlen : (IZR (len LOGQ) * v1 <= / 8)%R).

Lemma f_sum_digits v Delta : 0 <= v < Wp (len LOGQ) -> 0 < Delta < 2 ^ 64 -> (8 * IZR v + 1 <= top)%R ->
  exists x pw, for_ 0 (len LOGQ) (fun j '(x, power) =>
      w <- rd (raw (len LOGQ) v) j ;;
      Ok ((if negb (w =? 0) then rnd F (x + rnd F (rnd F (rnd F (IZR w) * power) / rnd F (IZR Delta))) else x)%R, rnd F (power * f_beta F))) (0%R, 1%R) = Ok (x, pw) /\
    (Rabs (x - IZR v / IZR Delta) <= coeff_error u eta (len LOGQ) (IZR v / IZR Delta))%R.
Proof.
  intros Hv HD Ht. pose proof (len_bounds LOGQ HQ) as Hl. assert (HDR : (1 <= IZR Delta)%R) by (apply IZR_le; lia).
  assert (HDW : (4 * IZR Delta <= top)%R). { eapply Rle_trans; [|exact Hbig]. rewrite <- mult_IZR. apply IZR_le. change (2 ^ 66) with (4 * 2 ^ 64). lia. }
  assert (Hu := ar_u _ _ _ _ _ _ _ _ ar). assert (Heta := ar_eta _ _ _ _ _ _ _ _ ar). pose proof v1_bounds as Hv1.
  pose (P := fun (j : Z) (s : R * R) => ((Rabs (fst s - IZR (v mod Wp j) / IZR Delta) <= (5 * v1 + 2 * IZR j * u) * (IZR (v mod Wp j) / IZR Delta) + 4 * IZR j * eta)%R
    /\ ((IZR (Wp j) <= top)%R -> snd s = IZR (Wp j)))).
  destruct (for_inv (fun j '(x, power) =>
      w <- rd (raw (len LOGQ) v) j ;;
      Ok ((if negb (w =? 0) then rnd F (x + rnd F (rnd F (rnd F (IZR w) * power) / rnd F (IZR Delta))) else x)%R, rnd F (power * f_beta F))) P 0 (len LOGQ) (0%R, 1%R)) as ([x pw] & E & HP & _).
  - lia.
  - split; cbn [fst snd]; [|rewrite Wp_0; auto]. rewrite Wp_0, Z.mod_1_r. unfold Rdiv. rewrite Rmult_0_l, Rminus_0_r, Rabs_R0. lra.
  - intros j [x pw] Hj [I1 I2]. cbn [fst snd] in I1, I2. rewrite rd_raw by auto. cbn [bind]. eexists. split; [reflexivity|].
    pose proof (Wp_pos j ltac:(lia)) as HWj. pose proof (Z.mod_pos_bound v (Wp j) HWj) as Hmod. pose proof (Z.mod_pos_bound v (Wp (j + 1)) ltac:(apply Wp_pos; lia)) as Hmod1.
    assert (Hdg : 0 <= dg v j < W) by (apply Z.mod_pos_bound; reflexivity).
    assert (Hj8 : (IZR j * v1 <= / 8)%R). { eapply Rle_trans; [|exact Hlen]. apply Rmult_le_compat_r; [lra|]. apply IZR_le. lia. }
    assert (Hle : v mod Wp (j + 1) <= v) by (apply Z.mod_le; [lia|apply Wp_pos; lia]).
    split; cbn [fst snd].
    + rewrite mod_Wp_S in * by lia. destruct (Z.eqb_spec (dg v j) 0) as [E0|E0]; cbn [negb].
      * rewrite E0, Z.mul_0_r, Z.add_0_r. eapply Rle_trans; [exact I1|]. rewrite plus_IZR.
        assert (0 <= IZR (v mod Wp j) / IZR Delta)%R by (apply Rmult_le_pos; [apply IZR_le; lia|apply Rlt_le, Rinv_0_lt_compat; lra]). nra.
      * assert (Hwp : Wp j <= dg v j * Wp j) by nia.
        assert (HWt : (IZR (Wp j) <= IZR v)%R) by (apply IZR_le; nia).
        assert (Hvp : (0 <= IZR v)%R) by (apply IZR_le; lia).
        rewrite I2 by lra.
        assert (Hsum : (IZR (v mod Wp j) + IZR (dg v j) * IZR (Wp j) <= IZR v)%R) by (rewrite <- mult_IZR, <- plus_IZR; apply IZR_le; nia).
        assert (Hm0 : (0 <= IZR (v mod Wp j))%R) by (apply IZR_le; lia).
        assert (Hd1 : (1 <= IZR (dg v j))%R) by (apply IZR_le; lia). assert (Hp1 : (1 <= IZR (Wp j))%R) by (apply IZR_le; lia).
        pose proof (word_err (IZR (dg v j)) (IZR (Wp j)) (IZR Delta) Hd1 Hp1 HDR ltac:(lra) ltac:(lra)) as WE.
        assert (Hinv : (0 < / IZR Delta <= 1)%R). { split; [apply Rinv_0_lt_compat; lra|]. rewrite <- Rinv_1. apply Rinv_le_contravar; lra. }
        eapply (add_err x (IZR (v mod Wp j) / IZR Delta)) with (j := IZR j) (y := (IZR (dg v j) * IZR (Wp j) / IZR Delta)%R); auto.
        -- apply Rmult_le_pos; lra.
        -- apply Rmult_le_pos; [apply Rmult_le_pos; lra|lra].
        -- apply IZR_le; lia.
        -- unfold Rdiv. rewrite <- Rmult_plus_distr_r. assert ((IZR (v mod Wp j) + IZR (dg v j) * IZR (Wp j)) * / IZR Delta <= IZR v * 1)%R; [|lra].
           apply Rmult_le_compat; try lra. apply Rplus_le_le_0_compat; [lra|apply Rmult_le_pos; lra].
        -- rewrite plus_IZR, mult_IZR. unfold Rdiv. ring.
        -- rewrite plus_IZR. reflexivity.
    + intros Hle2. rewrite Wp_S in Hle2 |- * by lia. rewrite mult_IZR in Hle2. assert (HWR : (1 <= IZR W)%R) by (apply IZR_le; discriminate). assert (Hp1 : (1 <= IZR (Wp j))%R) by (apply IZR_le; lia).
      rewrite I2 by nra. rewrite f_beta_is. rewrite <- mult_IZR, <- Wp_S by lia. unfold Wp. apply pow_exact; [lia|]. fold (Wp (j + 1)). rewrite Wp_S, mult_IZR by lia. exact Hle2.
  - exists x, pw. split; [exact E|]. cbn [fst snd] in HP. rewrite Z.mod_small in HP by auto. exact HP.
Qed.

Lemma f_decode_coeff_ok v Delta : 0 < Delta < 2 ^ 64 -> (8 * Rabs (IZR (cent LOGQ v)) + 1 <= top)%R ->
  exists x, f_decode_coeff F LOGQ Delta (rep LOGQ v) = Ok x /\ (Rabs (x - IZR (cent LOGQ v) / IZR Delta) <= coeff_error u eta (len LOGQ) (Rabs (IZR (cent LOGQ v) / IZR Delta)))%R.
Proof.
  intros HD Ht. assert (HD' : (0 < IZR Delta)%R) by (apply IZR_lt; lia). unfold f_decode_coeff.
  rewrite zq_copy_rep by (auto using zq_new_length). cbn [bind]. rewrite zq_is_big_rep by auto. cbn [bind].
  destruct (abs_obj LOGQ 2 HQ ltac:(lia) v _ eq_refl) as (-> & Hb & _). cbn [bind].
  destruct (f_sum_digits (Z.abs (cent LOGQ v)) Delta Hb HD) as (x & pw & E & Hx); [rewrite abs_IZR; exact Ht|]. rewrite E. cbn [bind].
  destruct (cent_abs LOGQ 2 HQ ltac:(lia) v) as [_ Ec]. rewrite Ec. eexists. split; [reflexivity|].
  assert (Ea : (Rabs (IZR (cent LOGQ v) / IZR Delta) = IZR (Z.abs (cent LOGQ v)) / IZR Delta)%R).
  { unfold Rdiv. rewrite Rabs_mult, <- abs_IZR, (Rabs_right (/ IZR Delta)); auto. apply Rle_ge, Rlt_le, Rinv_0_lt_compat; auto. }
  rewrite Ea. destruct (Z.ltb_spec (cent LOGQ v) 0).
  - rewrite Z.abs_neq in * by lia. rewrite opp_IZR in *. replace (- x - IZR (cent LOGQ v) / IZR Delta)%R with (- (x - - IZR (cent LOGQ v) / IZR Delta))%R by (unfold Rdiv; ring). rewrite Rabs_Ropp. exact Hx.
  - rewrite Z.abs_eq in * by lia. exact Hx.
Qed.

(** ** decode_log *)
Lemma horner_step x X w : (0 <= X <= IZR W)%R -> (Rabs (x - X) <= 4 * u * IZR W + 4 * eta)%R -> (0 <= w <= IZR W)%R ->
  (Rabs (rnd F (rnd F (x / IZR W) + rnd F w) - (X / IZR W + w)) <= 21 / 10 * (u * w) + 65 / 10 * u + 4 * eta)%R.
Proof.
  intros HX Hx Hw. destruct ar as [ar_u0 ar_eta0 _ _ ar_rnd0 _ _ _ _].
  assert (HW : (1024 <= IZR W)%R) by (apply IZR_le; vm_compute; discriminate).
  assert (HT : (2 * IZR W + 8 <= top)%R). { eapply Rle_trans; [|exact Hbig]. rewrite <- mult_IZR, <- plus_IZR. apply IZR_le. vm_compute. discriminate. }
  set (B := IZR W) in *. clearbody B.
  assert (Hi : (0 < / B <= / 1024)%R) by (split; [apply Rinv_0_lt_compat; lra|apply Rinv_le_contravar; lra]).
  assert (Q0 : (0 <= X / B <= 1)%R). { split; [apply Rmult_le_pos; lra|]. apply Rmult_le_reg_r with B; [lra|]. unfold Rdiv. rewrite Rmult_assoc, Rinv_l, Rmult_1_r, Rmult_1_l; lra. }
  assert (Q1 : (Rabs (x / B - X / B) <= 4 * u + eta / 256)%R).
  { replace (x / B - X / B)%R with ((x - X) * / B)%R by (unfold Rdiv; ring). rewrite Rabs_mult, (Rabs_right (/ B)) by lra.
    apply Rle_trans with ((4 * u * B + 4 * eta) * / B)%R; [apply Rmult_le_compat_r; lra|]. rewrite Rmult_plus_distr_r. rewrite Rmult_assoc, Rinv_r, Rmult_1_r by lra.
    apply Rplus_le_compat_l. replace (eta / 256)%R with (4 * eta * / 1024)%R by field. apply Rmult_le_compat_l; lra. }
  set (q := (x / B)%R) in *. set (Q := (X / B)%R) in *. clearbody q Q. apply abs_le in Q1.
  assert (Aq : (Rabs q <= 101 / 100)%R) by (apply Rabs_le; lra).
  pose proof (ar_rnd0 q ltac:(lra)) as R1. assert (M1 : (u * Rabs q <= u * (101 / 100))%R) by (apply Rmult_le_compat_l; lra). apply abs_le in R1.
  pose proof (ar_rnd0 w ltac:(rewrite Rabs_right; lra)) as R2. rewrite (Rabs_right w) in R2 by lra. apply abs_le in R2.
  set (a := rnd F q) in *. set (b := rnd F w) in *. clearbody a b.
  assert (Huw : (0 <= u * w <= / 1024 * w)%R) by (split; [apply Rmult_le_pos; lra|apply Rmult_le_compat_r; lra]).
  assert (Ab : (Rabs (a + b) <= 102 / 100 + 1025 / 1024 * w)%R) by (apply Rabs_le; lra).
  pose proof (ar_rnd0 (a + b)%R ltac:(lra)) as R3.
  assert (M3 : (u * Rabs (a + b) <= u * (102 / 100 + 1025 / 1024 * w))%R) by (apply Rmult_le_compat_l; lra). apply abs_le in R3. apply Rabs_le. lra.
Qed.

Lemma f_horner v d : 0 <= d < len LOGQ -> 1 <= dg v d ->
  exists x, for_ 0 (d + 1) (fun j x => w <- rd (raw (len LOGQ) v) j ;; Ok (rnd F (rnd F (x / f_beta F) + rnd F (IZR w)))%R) 0%R = Ok x /\
    (Rabs (x - IZR (v mod Wp (d + 1)) / IZR (Wp d)) <= (87 / 10 * u + 4 * eta) * (IZR (v mod Wp (d + 1)) / IZR (Wp d)))%R.
Proof.
  intros Hd H1. assert (HW : (1024 <= IZR W)%R) by (apply IZR_le; vm_compute; discriminate).
  assert (Hu := ar_u _ _ _ _ _ _ _ _ ar). assert (Heta := ar_eta _ _ _ _ _ _ _ _ ar).
  assert (HWp : forall j, 0 <= j -> (0 < IZR (Wp j))%R) by (intros j Hj; apply IZR_lt, Wp_pos; auto).
  set (X := fun j => (IZR (v mod Wp j) * IZR W / IZR (Wp j))%R).
  assert (HX : forall j, 0 <= j -> (0 <= X j <= IZR W)%R).
  { intros j Hj. pose proof (HWp j Hj) as P. pose proof (Z.mod_pos_bound v (Wp j) (Wp_pos j Hj)) as Hm. assert (M1 : (0 <= IZR (v mod Wp j))%R) by (apply IZR_le; lia). assert (M2 : (IZR (v mod Wp j) <= IZR (Wp j))%R) by (apply IZR_le; lia).
    unfold X. split; [apply Rmult_le_pos; [apply Rmult_le_pos; lra|apply Rlt_le, Rinv_0_lt_compat; auto]|].
    apply Rmult_le_reg_r with (IZR (Wp j)); auto. unfold Rdiv. rewrite Rmult_assoc, Rinv_l, Rmult_1_r, Rmult_comm by lra. apply Rmult_le_compat_l; lra. }
  assert (Hdg : forall j, 0 <= dg v j < W) by (intros; apply Z.mod_pos_bound; reflexivity).
  assert (XS : forall j, 0 <= j -> X (j + 1) = (X j / IZR W + IZR (dg v j))%R).
  { intros j Hj. pose proof (HWp j Hj). unfold X. rewrite mod_Wp_S, Wp_S, plus_IZR, !mult_IZR by lia. field. split; lra. }
  pose (P := fun (j : Z) (x : R) => (Rabs (x - X j) <= 4 * u * IZR W + 4 * eta)%R /\ (0 < j -> (Rabs (x - X j) <= 21 / 10 * (u * IZR (dg v (j - 1))) + 65 / 10 * u + 4 * eta)%R)).
  rewrite f_beta_is.
  destruct (for_inv (fun j x => w <- rd (raw (len LOGQ) v) j ;; Ok (rnd F (rnd F (x / IZR W) + rnd F (IZR w)))%R) P 0 (d + 1) 0%R) as (x & E & HP).
  - lia.
  - split; [|lia]. unfold X. rewrite Wp_0, Z.mod_1_r. unfold Rdiv. rewrite !Rmult_0_l, Rminus_0_r, Rabs_R0. assert (0 <= u * IZR W)%R by (apply Rmult_le_pos; lra). lra.
  - intros j x Hj [I1 _]. rewrite rd_raw by lia. cbn [bind]. eexists. split; [reflexivity|].
    assert (Hw : (0 <= IZR (dg v j) <= IZR W)%R) by (specialize (Hdg j); split; apply IZR_le; lia).
    pose proof (horner_step x (X j) (IZR (dg v j)) (HX j ltac:(lia)) I1 Hw) as S. rewrite <- XS in S by lia.
    assert (u * IZR (dg v j) <= u * IZR W)%R by (apply Rmult_le_compat_l; lra). assert (1024 * u <= u * IZR W)%R by (rewrite (Rmult_comm 1024); apply Rmult_le_compat_l; lra).
    split; [lra|]. intros _. replace (j + 1 - 1) with j by lia. exact S.
  - exists x. split; [exact E|]. destruct HP as [_ HP]. specialize (HP ltac:(lia)). replace (d + 1 - 1) with d in HP by lia.
    assert (EX : X (d + 1) = (IZR (v mod Wp (d + 1)) / IZR (Wp d))%R). { pose proof (HWp d ltac:(lia)). unfold X. rewrite (Wp_S d), mult_IZR by lia. field. split; lra. }
    rewrite <- EX. eapply Rle_trans; [exact HP|]. pose proof (HX d ltac:(lia)). rewrite XS by lia.
    assert (Q0 : (0 <= X d / IZR W)%R) by (apply Rmult_le_pos; [lra|apply Rlt_le, Rinv_0_lt_compat; lra]).
    assert (D1 : (1 <= IZR (dg v d))%R) by (apply IZR_le; auto).
    assert (U1 : (u <= u * IZR (dg v d))%R) by (rewrite <- (Rmult_1_r u) at 1; apply Rmult_le_compat_l; lra).
    assert (U2 : (eta <= eta * IZR (dg v d))%R) by (rewrite <- (Rmult_1_r eta) at 1; apply Rmult_le_compat_l; lra).
    assert (U3 : (0 <= (87 / 10 * u + 4 * eta) * (X d / IZR W))%R) by (apply Rmult_le_pos; lra). lra.
Qed.

Lemma f_decode_log_coeff_ok v LD : LOGQ <= 2 ^ 30 -> - 2 ^ 30 <= LD <= 2 ^ 30 -> (2 * Rabs (IZR (cent LOGQ v) * powerRZ 2 (- LD)) <= top)%R ->
  exists x, f_decode_log_coeff F LOGQ LD (rep LOGQ v) = Ok x /\
    (Rabs (x - IZR (cent LOGQ v) * powerRZ 2 (- LD)) <= coeff_log_error u eta (Rabs (IZR (cent LOGQ v) * powerRZ 2 (- LD))))%R.
Proof.
  intros HQ' HLD Ht. assert (HL2 : 2 <= 2 <= 27) by lia. unfold f_decode_log_coeff.
  assert (Hu := ar_u _ _ _ _ _ _ _ _ ar). assert (Heta := ar_eta _ _ _ _ _ _ _ _ ar). assert (Hr := ar_rnd _ _ _ _ _ _ _ _ ar).
  rewrite zq_copy_rep by (auto using zq_new_length). cbn [bind]. rewrite zq_is_big_rep by auto. cbn [bind].
  destruct (abs_obj LOGQ 2 HQ HL2 v _ eq_refl) as (-> & Hb & Hrep). cbn [bind]. set (c := Z.abs (cent LOGQ v)) in *.
  rewrite Hrep. pose proof (pow2_half LOGQ HQ). pose proof (pow2_pos (LOGQ - 1) ltac:(lia)). pose proof (cent_bounds LOGQ v HQ).
  destruct (zq_max_valid_digit_rep LOGQ c HQ) as (d & Ed & Hd & Hz & Hnz). rewrite Ed. cbn [bind]. rewrite <- Hrep.
  rewrite Z.mod_small in Hz, Hnz by lia. pose proof (len_bounds LOGQ HQ) as Hl.
  assert (Hval : c mod Wp (d + 1) = c /\ (0 <= d -> 1 <= dg c d)).
  { destruct (Z.leb_spec (2 ^ (LOGQ - 1)) c) as [Hh|Hh].
    - assert (Ec : c = 2 ^ (LOGQ - 1)) by lia. pose proof (top_digit LOGQ 2 HQ HL2 c d ltac:(auto) Hz ltac:(lia)). subst d.
      replace (len LOGQ - 1 + 1) with (len LOGQ) by lia. split; [apply Z.mod_small; auto|]. intros _. rewrite dg_top by (auto; lia).
      apply Z.div_le_lower_bound; [apply Wp_pos; lia|]. rewrite Z.mul_1_r, Ec. unfold Wp. apply Z.pow_le_mono_r; lia.
    - assert (G : forall j, d + 1 <= j <= len LOGQ -> c mod Wp j = c mod Wp (d + 1)).
      { intros j Hj. assert (P : d + 1 <= j -> j <= len LOGQ -> c mod Wp j = c mod Wp (d + 1)).
        { apply (Zlt_lower_bound_ind (fun j => d + 1 <= j -> j <= len LOGQ -> c mod Wp j = c mod Wp (d + 1)) (d + 1)); [|lia].
          intros x IH Hx _ Hxl. destruct (Z.eq_dec x (d + 1)) as [->|]; auto.
          replace x with (x - 1 + 1) by lia. rewrite mod_Wp_S by lia. rewrite Hz, Z.mul_0_r, Z.add_0_r by lia. apply IH; lia. }
        apply P; lia. }
      split; [rewrite <- (G (len LOGQ)) by lia; apply Z.mod_small; auto|]. intros Hd0. specialize (Hnz Hd0). assert (0 <= dg c d < W) by (apply Z.mod_pos_bound; reflexivity). lia. }
  destruct Hval as [Hval Hdig].
  rewrite int_in by lia. cbn [bind]. rewrite int_in by lia. cbn [bind].
  assert (Ea : (Rabs (IZR (cent LOGQ v) * powerRZ 2 (- LD)) = IZR c * powerRZ 2 (- LD))%R).
  { assert (0 < powerRZ 2 (- LD))%R by (apply powerRZ_lt; lra). rewrite Rabs_mult, (Rabs_right (powerRZ 2 (- LD))) by lra. unfold c. rewrite abs_IZR. reflexivity. }
  assert (Ex : exists x, for_ 0 (d + 1) (fun j x => w <- rd (raw (len LOGQ) c) j ;; Ok (rnd F (rnd F (x / f_beta F) + rnd F (IZR w)))%R) 0%R = Ok x /\
      (Rabs (rnd F (x * powerRZ 2 (64 * d - LD)) - IZR c * powerRZ 2 (- LD)) <= coeff_log_error u eta (IZR c * powerRZ 2 (- LD)))%R).
  { assert (Hp : (0 < powerRZ 2 (- LD))%R) by (apply powerRZ_lt; lra). unfold coeff_log_error. destruct (Z.eq_dec d (-1)) as [->|Hne].
    - exists 0%R. split; [apply for_nil; lia|]. change (-1 + 1) with 0 in Hval. rewrite Wp_0, Z.mod_1_r in Hval. rewrite <- Hval, !Rmult_0_l. specialize (Hr 0%R). rewrite Rabs_R0 in Hr.
      assert (8 <= top)%R by (destruct ar; lra). specialize (Hr ltac:(lra)). lra.
    - destruct (f_horner c d ltac:(lia) ltac:(apply Hdig; lia)) as (x & E & Hx). exists x. split; [exact E|]. rewrite Hval in Hx.
      replace (64 * d - LD) with (64 * d + - LD) by lia. rewrite powerRZ_add by lra. rewrite powerRZ_2 by lia. fold (Wp d).
      assert (HWd : (0 < IZR (Wp d))%R) by (apply IZR_lt, Wp_pos; lia).
      set (A := (IZR c * powerRZ 2 (- LD))%R) in *. set (p := powerRZ 2 (- LD)) in *.
      assert (HA : (0 <= A)%R) by (apply Rmult_le_pos; [apply IZR_le; lia|lra]).
      assert (Hy : (Rabs (x * (IZR (Wp d) * p) - A) <= (87 / 10 * u + 4 * eta) * A)%R).
      { replace (x * (IZR (Wp d) * p) - A)%R with ((x - IZR c / IZR (Wp d)) * (IZR (Wp d) * p))%R by (unfold A; field; lra).
        replace ((87 / 10 * u + 4 * eta) * A)%R with ((87 / 10 * u + 4 * eta) * (IZR c / IZR (Wp d)) * (IZR (Wp d) * p))%R by (unfold A; field; lra).
        assert (0 < IZR (Wp d) * p)%R by (apply Rmult_lt_0_compat; lra). rewrite Rabs_mult, (Rabs_right (IZR (Wp d) * p)) by lra. apply Rmult_le_compat_r; lra. }
      rewrite Ea in Ht. set (y := (x * (IZR (Wp d) * p))%R) in *. clearbody y A. apply abs_le in Hy.
      assert (K1 : (0 <= (87 / 10 * u + 4 * eta) * A <= 13 / 1024 * A)%R) by (split; [apply Rmult_le_pos; lra|apply Rmult_le_compat_r; lra]).
      assert (Ay : (Rabs y <= A + 13 / 1024 * A)%R) by (apply Rabs_le; lra).
      specialize (Hr y ltac:(lra)). assert (M : (u * Rabs y <= u * (A + (87 / 10 * u + 4 * eta) * A))%R) by (apply Rmult_le_compat_l; [lra|apply Rabs_le; lra]).
      assert (K2 : (u * (u * A) <= / 1024 * (u * A))%R) by (apply Rmult_le_compat_r; [apply Rmult_le_pos; lra|lra]).
      assert (K3 : (u * (eta * A) <= / 1024 * (eta * A))%R) by (apply Rmult_le_compat_r; [apply Rmult_le_pos; lra|lra]).
      assert (0 <= u * A)%R by (apply Rmult_le_pos; lra). assert (0 <= eta * A)%R by (apply Rmult_le_pos; lra).
      apply abs_le in Hr. apply Rabs_le. lra. }
  destruct Ex as (x & -> & Ex). cbn [bind].
  destruct (cent_abs LOGQ 2 HQ HL2 v) as [_ E]. rewrite E. rewrite Ea. eexists. split; [reflexivity|]. destruct (Z.ltb_spec (cent LOGQ v) 0).
  - replace (IZR (cent LOGQ v)) with (- IZR c)%R by (unfold c; rewrite Z.abs_neq, opp_IZR by lia; ring). rewrite <- Ropp_mult_distr_l.
    set (r := rnd F (x * powerRZ 2 (64 * d - LD))) in *. set (A := (IZR c * powerRZ 2 (- LD))%R) in *. replace (- r - - A)%R with (- (r - A))%R by ring. rewrite Rabs_Ropp. exact Ex.
  - replace (cent LOGQ v) with c by (unfold c; rewrite Z.abs_eq by lia; reflexivity). exact Ex.
Qed.
End Dec.
