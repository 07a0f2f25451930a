(** The layers of the floating-point transforms against the exact ones. *)
From Coq Require Import ZArith List Bool Lia Reals Lra Ring.
From Verif Require Import Base BaseFacts Util UtilFacts GSum Matrix MatrixFacts MatMulFacts DFT DFTTheory DFTFacts FFTFacts Encode EncodeFacts SpecMat SpecDFT SpecEnc SlotFacts LinSlots BootFacts PiBound.
From Verif Require Import Float SpecFloat FloatFacts FloatError.
Import ListNotations.
Open Scope Z_scope.

Section Stage.
Context (F : fpu) (u eta top t : R) (ar : arithmetic u eta top t (rnd F) (dpi F) (lcos F) (lsin F)).
Context (LOGN : Z) (HL : 2 <= LOGN <= 27).
Let n := 2 ^ (LOGN - 1).
Let N := 2 * n.
Let L := Z.to_nat (LOGN - 1).
Let e := eN N.
Notation tau := (table_error u eta t N).
Notation lam := (lambda u eta t N).
Context (Hsmall : (tau <= / 64)%R).
Let W d := tw L e (Z.to_nat (LOGN - 2 - d)).

Lemma N_pos : 4 <= N.
Proof. unfold N, n. assert (2 ^ 1 <= 2 ^ (LOGN - 1)) by (apply Z.pow_le_mono_r; lia). lia. Qed.
Lemma cosN_mod k : cosN N (k mod (2 * N)) = cosN N k.
Proof. pose proof N_pos. pose proof (eN_mod N k ltac:(lia)) as E. unfold eN in E. injection E as E1 E2. exact E1. Qed.
Lemma sinN_mod k : sinN N (k mod (2 * N)) = sinN N k.
Proof. pose proof N_pos. pose proof (eN_mod N k ltac:(lia)) as E. unfold eN in E. injection E as E1 E2. exact E2. Qed.
Lemma fcs_err d i : (Rabs (fcs F LOGN d i - csd LOGN d i) <= tau)%R.
Proof.
  unfold fcs, csd. fold n. fold N. rewrite <- cosN_mod. pose proof N_pos. apply (f_cos_err F u eta top t ar); auto; [lia|]. apply Z.mod_pos_bound. lia.
Qed.
Lemma fsn_err d i : (Rabs (fsn F LOGN d i - snd_ LOGN d i) <= tau)%R.
Proof.
  unfold fsn, snd_. fold n. fold N. rewrite <- sinN_mod. pose proof N_pos. apply (f_sin_err F u eta top t ar); auto; [lia|]. apply Z.mod_pos_bound. lia.
Qed.
Lemma unit_d d i : (csd LOGN d i * csd LOGN d i + snd_ LOGN d i * snd_ LOGN d i = 1)%R.
Proof. unfold csd, snd_, cosN, sinN. rewrite Rplus_comm. exact (sin2_cos2 _). Qed.
Lemma tau_pos : (0 <= tau)%R.
Proof. pose proof N_pos. apply (table_pos F u eta top t ar); auto; lia. Qed.

Lemma neg_err (a b : R) : (Rabs (a - b) <= tau -> Rabs (- a - - b) <= tau)%R.
Proof. intros H. replace (- a - - b)%R with (- (a - b))%R by ring. rewrite Rabs_Ropp. auto. Qed.
Lemma self_err (a : R) : (Rabs (a - a) <= tau)%R.
Proof. rewrite Rminus_eq_0, Rabs_R0. apply tau_pos. Qed.

Lemma entry_fwd d k p : 0 <= k < 3 -> entry tau (VR (Md LOGN d) (2 ^ d) (fcs F LOGN d) k p) (VI (Md LOGN d) (fsn F LOGN d) k p)
  (VR (Md LOGN d) (2 ^ d) (csd LOGN d) k p) (VI (Md LOGN d) (snd_ LOGN d) k p) (modulus (fA (Md LOGN d) (2 ^ d) (csd LOGN d) (snd_ LOGN d) k p)).
Proof.
  intros Hk. rewrite fA_val by (auto using unit_d). unfold VR, VI, entry, sH.
  assert (k = 0 \/ k = 1 \/ k = 2) as [->|[->| ->]] by lia; destruct (p mod (2 * Md LOGN d) <? Md LOGN d); destruct (2 ^ d =? 1); cbn [Z.eqb Pos.eqb];
  first [left; repeat split; reflexivity | right; split; [reflexivity|]; split; [first [apply unit_d | rewrite <- (unit_d d (p mod Md LOGN d)); ring | ring]|]];
  split; auto using neg_err, fcs_err, fsn_err, self_err.
Qed.
Lemma entry_bwd d k p : 0 <= k < 3 -> entry tau (TR n (Md LOGN d) (2 ^ d) (fcs F LOGN d) k p) (TI n (Md LOGN d) (fsn F LOGN d) k p)
  (TR n (Md LOGN d) (2 ^ d) (csd LOGN d) k p) (TI n (Md LOGN d) (snd_ LOGN d) k p) (modulus (bA n (Md LOGN d) (2 ^ d) (csd LOGN d) (snd_ LOGN d) k p)).
Proof.
  intros Hk. rewrite bA_idx. unfold TR, TI, tr_vec.
  assert (E : forall q, entry tau (VR (Md LOGN d) (2 ^ d) (fcs F LOGN d) k q) (- VI (Md LOGN d) (fsn F LOGN d) k q)%R
    (VR (Md LOGN d) (2 ^ d) (csd LOGN d) k q) (- VI (Md LOGN d) (snd_ LOGN d) k q)%R (modulus (fA (Md LOGN d) (2 ^ d) (csd LOGN d) (snd_ LOGN d) k q))).
  { intros q. destruct (entry_fwd d k q Hk) as [(A & B & C & D & E)|(A & B & C & D)].
    - left. rewrite B, C, D, E, Ropp_0. auto.
    - right. split; auto. split; [rewrite <- B; ring|]. auto using neg_err. }
  destruct (o3 n (Md LOGN d) k >? 0); apply E.
Qed.

Section One.
Context (X : R) (HX0 : (0 <= X)%R) (HX : (4 * X + 1 <= top)%R).
Let mu := (32 * eta)%R.

Lemma lam_mul : (6 * (tau * X) + 20 * (u * X) + 32 * eta = lam * X + mu)%R.
Proof. unfold lambda, mu. ring. Qed.

Lemma f_stage_err d (x : Z -> RC) p : 0 <= d < LOGN - 1 -> (forall q, 0 <= q < n -> (modulus (x q) <= X)%R) -> 0 <= p < n ->
  (modulus (f_stage F LOGN d x p - stage (Md LOGN d) (W d) x p)%num <= lam * X + mu)%R.
Proof.
  intros Hd Hx Hp. pose proof (Md_pos LOGN d Hd). pose proof (n_Md LOGN d Hd) as HnM. fold n in HnM. assert (0 < 2 ^ d) by (apply Z.pow_pos_nonneg; lia).
  assert (ES : stage (Md LOGN d) (W d) x p = gsum (K := RC) 3 (fun k => (mk Rops (VR (Md LOGN d) (2 ^ d) (csd LOGN d) k p) (VI (Md LOGN d) (snd_ LOGN d) k p) : RC) * x ((p + o3 n (Md LOGN d) k) mod n))%num).
  { pose proof (apply_stage n (Md LOGN d) (2 ^ d) ltac:(auto) ltac:(auto) HnM (csd LOGN d) (snd_ LOGN d) x p Hp) as E.
    rewrite (dense_apply (Clawful Rlawful)) in E by lia. unfold cvec in E. etransitivity; [|symmetry; exact E].
    unfold stage, W. unfold L, e, N, n. rewrite !(tw_d LOGN) by auto. reflexivity. }
  rewrite ES. rewrite <- lam_mul. destruct ar.
  apply (row_err F u eta top tau) with (c := fun k => modulus (fA (Md LOGN d) (2 ^ d) (csd LOGN d) (snd_ LOGN d) k p)); auto using tau_pos, conj; try lia.
  - intros k Hk. apply entry_fwd. auto.
  - pose proof (fA_rows (Md LOGN d) (2 ^ d) (csd LOGN d) (snd_ LOGN d) (unit_d d) p) as R. rewrite gsum3 in R. cbn [oadd o0 Rops] in R. change (car Rops) with R in *. lra.
Qed.
Lemma f_istage_err d (x : Z -> RC) p : 0 <= d < LOGN - 1 -> (forall q, 0 <= q < n -> (modulus (x q) <= X)%R) -> 0 <= p < n ->
  (modulus (f_istage F LOGN d x p - istage (Md LOGN d) (W d) x p)%num <= lam * X + mu)%R.
Proof.
  intros Hd Hx Hp. pose proof (Md_pos LOGN d Hd). pose proof (n_Md LOGN d Hd) as HnM. fold n in HnM. assert (0 < 2 ^ d) by (apply Z.pow_pos_nonneg; lia).
  assert (ES : istage (Md LOGN d) (W d) x p = gsum (K := RC) 3 (fun k => (mk Rops (TR n (Md LOGN d) (2 ^ d) (csd LOGN d) k p) (TI n (Md LOGN d) (snd_ LOGN d) k p) : RC) * x ((p + tr_off n (o3 n (Md LOGN d)) k) mod n))%num).
  { pose proof (apply_istage n (Md LOGN d) (2 ^ d) ltac:(auto) ltac:(auto) HnM (csd LOGN d) (snd_ LOGN d) x p Hp) as E.
    rewrite (dense_apply (Clawful Rlawful)) in E by lia. unfold cvec in E. etransitivity; [|symmetry; exact E].
    unfold istage, W. unfold L, e, N, n. rewrite !(tw_d LOGN) by auto. reflexivity. }
  rewrite ES. rewrite <- lam_mul. destruct ar.
  apply (row_err F u eta top tau) with (c := fun k => modulus (bA n (Md LOGN d) (2 ^ d) (csd LOGN d) (snd_ LOGN d) k p)); auto using tau_pos, conj; try lia.
  - intros k Hk. apply entry_bwd. auto.
  - pose proof (bA_rows n (Md LOGN d) (2 ^ d) ltac:(auto) ltac:(auto) HnM (csd LOGN d) (snd_ LOGN d) (unit_d d) p Hp) as R. rewrite gsum3 in R. cbn [oadd o0 Rops] in R. change (car Rops) with R in *. lra.
Qed.
End One.

(** the exact layers: linear, with rows of at most two entries of modulus 1 *)
Lemma mod_W d i : modulus (W d i) = 1%R.
Proof. unfold W, tw, e. apply modulus_eN. Qed.
Lemma sub_add (a b c d : RC) : ((a + b) - (c + d) = (a - c) + (b - d))%num.
Proof. apply RC_eq; cbn; ring. Qed.
Lemma stage_lip d (x y : Z -> RC) E p : 0 <= d < LOGN - 1 -> (forall q, 0 <= q < n -> (modulus (x q - y q)%num <= E)%R) -> 0 <= p < n ->
  (modulus (stage (Md LOGN d) (W d) x p - stage (Md LOGN d) (W d) y p)%num <= 2 * E)%R.
Proof.
  intros Hd Hx Hp. pose proof (Md_pos LOGN d Hd) as HM. pose proof (n_Md LOGN d Hd) as HnM. fold n in HnM. assert (Hc : 0 < 2 ^ d) by (apply Z.pow_pos_nonneg; lia).
  unfold stage. destruct (Z.ltb_spec (p mod (2 * Md LOGN d)) (Md LOGN d)) as [Hq|Hq].
  - pose proof (pos_low n (Md LOGN d) (2 ^ d) HM Hc HnM p Hp Hq). set (M := Md LOGN d) in *. set (w := W d (p mod M)).
    replace ((x p + w * x (p + M)%Z) - (y p + w * y (p + M)%Z))%num with ((x p - y p) + w * (x (p + M)%Z - y (p + M)%Z))%num by (apply RC_eq; cbn; ring).
    eapply Rle_trans; [apply modulus_add|]. rewrite modulus_mul. unfold w. rewrite mod_W, Rmult_1_l. pose proof (Hx p Hp). pose proof (Hx (p + M) ltac:(lia)). lra.
  - pose proof (pos_high n (Md LOGN d) (2 ^ d) HM Hc p Hp Hq). set (M := Md LOGN d) in *. set (w := W d (p mod M)).
    replace ((x (p - M)%Z - w * x p) - (y (p - M)%Z - w * y p))%num with ((x (p - M)%Z - y (p - M)%Z) - w * (x p - y p))%num by (apply RC_eq; cbn; ring).
    eapply Rle_trans; [apply modulus_sub|]. rewrite modulus_mul. unfold w. rewrite mod_W, Rmult_1_l. pose proof (Hx p Hp). pose proof (Hx (p - M) ltac:(lia)). lra.
Qed.
Lemma istage_lip d (x y : Z -> RC) E p : 0 <= d < LOGN - 1 -> (forall q, 0 <= q < n -> (modulus (x q - y q)%num <= E)%R) -> 0 <= p < n ->
  (modulus (istage (Md LOGN d) (W d) x p - istage (Md LOGN d) (W d) y p)%num <= 2 * E)%R.
Proof.
  intros Hd Hx Hp. pose proof (Md_pos LOGN d Hd) as HM. pose proof (n_Md LOGN d Hd) as HnM. fold n in HnM. assert (Hc : 0 < 2 ^ d) by (apply Z.pow_pos_nonneg; lia).
  unfold istage. destruct (Z.ltb_spec (p mod (2 * Md LOGN d)) (Md LOGN d)) as [Hq|Hq].
  - pose proof (pos_low n (Md LOGN d) (2 ^ d) HM Hc HnM p Hp Hq). set (M := Md LOGN d) in *.
    replace ((x p + x (p + M)%Z) - (y p + y (p + M)%Z))%num with ((x p - y p) + (x (p + M)%Z - y (p + M)%Z))%num by (apply RC_eq; cbn; ring).
    eapply Rle_trans; [apply modulus_add|]. pose proof (Hx p Hp). pose proof (Hx (p + M) ltac:(lia)). lra.
  - pose proof (pos_high n (Md LOGN d) (2 ^ d) HM Hc p Hp Hq). set (M := Md LOGN d) in *. set (w := cconj Rops (W d (p mod M)) : RC).
    replace (w * (x (p - M)%Z - x p) - w * (y (p - M)%Z - y p))%num with (w * ((x (p - M)%Z - y (p - M)%Z) - (x p - y p)))%num by (apply RC_eq; cbn; ring).
    rewrite modulus_mul. unfold w. rewrite (modulus_conj (W d (p mod M))), mod_W, Rmult_1_l.
    eapply Rle_trans; [apply modulus_sub|]. pose proof (Hx p Hp). pose proof (Hx (p - M) ltac:(lia)). lra.
Qed.

(** ** all layers *)
Section All.
Context (B : R) (HB : (0 <= B)%R).
Let mu := (32 * eta)%R.
Let S_ (k : nat) : R := ((2 + lam) ^ k * B + ((2 + lam) ^ k - 1) * mu)%R.

Lemma lam_pos : (0 <= lam)%R.
Proof. unfold lambda. pose proof tau_pos. destruct ar. lra. Qed.
Lemma mu_pos : (0 <= mu)%R.
Proof. unfold mu. destruct ar. lra. Qed.
Lemma pow_ge1 k : (1 <= (2 + lam) ^ k)%R.
Proof. apply pow_R1_Rle. pose proof lam_pos. lra. Qed.
Lemma S_pos k : (0 <= S_ k)%R.
Proof. unfold S_. pose proof (pow_ge1 k). pose proof mu_pos. apply Rplus_le_le_0_compat; apply Rmult_le_pos; lra. Qed.
Lemma S_step k : ((2 + lam) * S_ k + mu <= S_ (S k))%R.
Proof. unfold S_. cbn [pow]. pose proof (pow_ge1 k). pose proof mu_pos. pose proof lam_pos. assert (0 <= lam * mu)%R by (apply Rmult_le_pos; lra). set (P := ((2 + lam) ^ k)%R) in *. lra. Qed.
Lemma S_mono k k' : (k <= k')%nat -> (S_ k <= S_ k')%R.
Proof.
  intros H. unfold S_. assert ((2 + lam) ^ k <= (2 + lam) ^ k')%R by (apply Rle_pow; [pose proof lam_pos; lra|auto]). pose proof mu_pos.
  apply Rplus_le_compat; apply Rmult_le_compat_r; lra.
Qed.
Lemma S_err k : (fft_error u eta t N k B = S_ k - 2 ^ k * B)%R.
Proof. unfold fft_error, S_, mu. ring. Qed.

Lemma step_err (z z' w : RC) Xk k : (modulus (z - w)%num <= lam * S_ k + mu)%R -> (modulus (w - z')%num <= 2 * (S_ k - 2 ^ k * Xk))%R ->
  (modulus (z - z')%num <= S_ (S k) - 2 ^ S k * Xk)%R.
Proof.
  intros H1 H2. replace (z - z')%num with ((z - w) + (w - z'))%num by (apply RC_eq; cbn; ring).
  eapply Rle_trans; [apply modulus_add|]. pose proof (S_step k). cbn [pow]. lra.
Qed.
Lemma sz (x : Z -> RC) z E k p : (modulus (x p - z)%num <= S_ k - 2 ^ k * B)%R -> (modulus z <= 2 ^ k * B)%R -> (E = S_ k) -> (modulus (x p) <= E)%R.
Proof. intros H1 H2 ->. pose proof (modulus_near (x p) z). lra. Qed.

Lemma fwd_err (x : Z -> RC) : (4 * S_ L + 1 <= top)%R -> (forall q, 0 <= q < n -> (modulus (x q) <= B)%R) -> forall k, (k <= L)%nat -> forall p, 0 <= p < n ->
  (modulus (f_fwd F LOGN k x p - fwd L e k x p)%num <= S_ k - 2 ^ k * B)%R /\ (modulus (fwd L e k x p) <= 2 ^ k * B)%R.
Proof.
  intros Htop Hx. induction k; intros Hk p Hp.
  - cbn [f_fwd fwd pow]. replace (x p - x p)%num with (0%num : RC) by (apply RC_eq; cbn; ring). rewrite modulus_0. rewrite Rmult_1_l. split; auto. unfold S_. cbn [pow]. lra.
  - cbn [f_fwd fwd]. set (d := LOGN - 2 - Z.of_nat k). assert (Hd : 0 <= d < LOGN - 1) by (unfold d, L in *; lia).
    assert (EM : 2 ^ Z.of_nat k = Md LOGN d) by (unfold Md, d; f_equal; lia). rewrite EM.
    assert (EW : tw L e k = W d) by (unfold W, d; f_equal; lia). rewrite EW. specialize (IHk ltac:(lia)).
    split.
    + apply (step_err _ _ (stage (Md LOGN d) (W d) (f_fwd F LOGN k x) p)).
      * apply f_stage_err; auto using S_pos. { pose proof (S_mono k L ltac:(lia)). lra. }
        intros q Hq. destruct (IHk q Hq) as [I1 I2]. apply (sz (f_fwd F LOGN k x) _ _ k q I1 I2). reflexivity.
      * apply stage_lip; auto. intros q Hq. apply IHk. auto.
    + replace (2 ^ S k * B)%R with (2 * (2 ^ k * B))%R by (cbn [pow]; ring).
      pose proof (stage_lip d (fwd L e k x) (fun _ => 0%num : RC) (2 ^ k * B) p Hd) as SL.
      replace (stage (Md LOGN d) (W d) (fwd L e k x) p) with (stage (Md LOGN d) (W d) (fwd L e k x) p - stage (Md LOGN d) (W d) (fun _ => 0%num : RC) p)%num.
      * apply SL; auto. intros q Hq. replace (fwd L e k x q - 0)%num with (fwd L e k x q) by (apply RC_eq; cbn; ring). apply IHk. auto.
      * unfold stage. destruct (_ <? _); apply RC_eq; cbn; ring.
Qed.
Lemma bwd_err (y : Z -> RC) : (4 * S_ L + 1 <= top)%R -> (forall q, 0 <= q < n -> (modulus (y q) <= B)%R) -> forall k, (k <= L)%nat -> forall p, 0 <= p < n ->
  (modulus (f_hb F LOGN k y p - hb LOGN k y p)%num <= S_ k - 2 ^ k * B)%R /\ (modulus (hb LOGN k y p) <= 2 ^ k * B)%R.
Proof.
  intros Htop Hy. induction k; intros Hk p Hp.
  - cbn [f_hb hb pow]. replace (y p - y p)%num with (0%num : RC) by (apply RC_eq; cbn; ring). rewrite modulus_0. rewrite Rmult_1_l. split; auto. unfold S_. cbn [pow]. lra.
  - cbn [f_hb hb]. fold L. fold n. fold N. fold e. set (d := Z.of_nat k). assert (Hd : 0 <= d < LOGN - 1) by (unfold d, L in *; lia).
    assert (EM : 2 ^ Z.of_nat (L - 1 - k) = Md LOGN d) by (unfold Md, d, L in *; f_equal; lia). rewrite EM.
    assert (EW : tw L e (L - 1 - k) = W d) by (unfold W, d; f_equal; unfold L in *; lia). rewrite EW. specialize (IHk ltac:(lia)).
    split.
    + apply (step_err _ _ (istage (Md LOGN d) (W d) (f_hb F LOGN k y) p)).
      * apply f_istage_err; auto using S_pos. { pose proof (S_mono k L ltac:(lia)). lra. }
        intros q Hq. destruct (IHk q Hq) as [I1 I2]. apply (sz (f_hb F LOGN k y) _ _ k q I1 I2). reflexivity.
      * apply istage_lip; auto. intros q Hq. apply IHk. auto.
    + replace (2 ^ S k * B)%R with (2 * (2 ^ k * B))%R by (cbn [pow]; ring).
      pose proof (istage_lip d (hb LOGN k y) (fun _ => 0%num : RC) (2 ^ k * B) p Hd) as SL.
      replace (istage (Md LOGN d) (W d) (hb LOGN k y) p) with (istage (Md LOGN d) (W d) (hb LOGN k y) p - istage (Md LOGN d) (W d) (fun _ => 0%num : RC) p)%num.
      * apply SL; auto. intros q Hq. replace (hb LOGN k y q - 0)%num with (hb LOGN k y q) by (apply RC_eq; cbn; ring). apply IHk. auto.
      * unfold istage. destruct (_ <? _); apply RC_eq; cbn; ring.
Qed.
End All.
End Stage.
