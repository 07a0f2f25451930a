(** The product of matrices in floating-point arithmetic. *)
From Coq Require Import ZArith List Bool Lia Reals Lra Ring.
From Verif Require Import Base BaseFacts GSum Matrix MatrixFacts MatMulFacts DFT DFTTheory DFTFacts FFTFacts SpecMat Properties_Mat SpecDFT SpecEnc SlotFacts
  Properties_Plain SpecLin LinTrans LinSlots GroupFacts.
From Verif Require Import Float SpecFloat FloatFacts FloatError.
From Verif Require Import SpecFloatLin.
Import ListNotations.
Open Scope Z_scope.
Add Ring RCfm : HR.

Section MM.
Context (F : fpu) (u eta top t : R) (ar : arithmetic u eta top t (rnd F) (dpi F) (lcos F) (lsin F)).

(** matrix.h:216-219: an entry after the term x*y has been added *)
Definition facc (x y c : RC) : RC :=
  mk Rops (rnd F (rnd F (fst c + rnd F (fst x * fst y)) - rnd F (snd x * snd y)))%R
          (rnd F (rnd F (snd c + rnd F (fst x * snd y)) + rnd F (snd x * fst y)))%R.

Lemma acc_err c p q sg Y : sg = 1%R \/ sg = (-1)%R -> (0 <= Y)%R -> (Rabs c <= Y)%R -> (Rabs p <= Y)%R -> (Rabs q <= Y)%R -> (Rabs (p + sg * q) <= Y)%R -> (4 * Y + 1 <= top)%R ->
  (Rabs (rnd F (rnd F (c + rnd F p) + sg * rnd F q) - (c + (p + sg * q))) <= 61 / 10 * (u * Y) + 42 / 10 * eta)%R.
Proof.
  intros Hsg HY Hc Hp Hq Hpq Ht. pose proof (ar_u _ _ _ _ _ _ _ _ ar) as Hu. pose proof (ar_eta _ _ _ _ _ _ _ _ ar) as He. pose proof (ar_rnd _ _ _ _ _ _ _ _ ar) as Hr.
  pose proof (small_mul u Y Hu HY) as F1. pose proof (small_mul u (u * Y)%R Hu ltac:(lra)) as F2. pose proof (small_mul u eta Hu ltac:(lra)) as F3.
  pose proof (small_mul u (u * (u * Y))%R Hu ltac:(lra)) as F4. pose proof (small_mul u (u * eta)%R Hu ltac:(lra)) as F5.
  assert (G : forall p, (Rabs p <= Y)%R -> (Rabs (rnd F p - p) <= u * Y + eta)%R).
  { intros x Hx. eapply Rle_trans; [apply Hr; lra|]. apply Rplus_le_compat_r, Rmult_le_compat_l; lra. }
  pose proof (G p Hp) as P1. pose proof (G q Hq) as Q1.
  assert (A : (Rabs (rnd F (c + rnd F p) - (c + p)) <= (u * Y + eta) + u * (2 * Y + (u * Y + eta)) + eta)%R).
  { apply (round_near u eta top (rnd F) Hu Hr); [|pose proof (Rabs_triang c p); lra|lra]. replace (c + rnd F p - (c + p))%R with (rnd F p - p)%R by ring. exact P1. }
  eapply Rle_trans; [apply (round_near u eta top (rnd F) Hu Hr _ (c + (p + sg * q)) ((u * Y + eta) + u * (2 * Y + (u * Y + eta)) + eta + (u * Y + eta)) (2 * Y))|].
  - replace (rnd F (c + rnd F p) + sg * rnd F q - (c + (p + sg * q)))%R with ((rnd F (c + rnd F p) - (c + p)) + sg * (rnd F q - q))%R by ring.
    eapply Rle_trans; [apply Rabs_triang|]. rewrite Rabs_mult. replace (Rabs sg) with 1%R; [lra|]. destruct Hsg as [-> | ->]; unfold Rabs; destruct (Rcase_abs _); lra.
  - pose proof (Rabs_triang c (p + sg * q)). lra.
  - rewrite !Rmult_plus_distr_l. lra.
  - rewrite !Rmult_plus_distr_l. lra.
Qed.
Lemma facc_err c x y Y : (0 <= Y)%R -> (modulus c <= Y)%R -> (modulus (x * y : RC)%num <= Y)%R -> (4 * Y + 1 <= top)%R ->
  (modulus (facc x y c - (c + x * y))%num <= 9 * (u * Y) + 6 * eta)%R.
Proof.
  intros HY Hc Hxy Ht. pose proof (ar_u _ _ _ _ _ _ _ _ ar) as Hu. pose proof (ar_eta _ _ _ _ _ _ _ _ ar) as He. pose proof (small_mul u Y Hu HY) as F1.
  assert (Hm : forall a b, (Rabs a <= modulus x)%R -> (Rabs b <= modulus y)%R -> (Rabs (a * b) <= Y)%R).
  { intros a b Ha Hb. eapply Rle_trans; [apply abs_mul_le; [exact Ha|exact Hb]|]. rewrite <- modulus_mul. exact Hxy. }
  pose proof (modulus_cre x) as Ax. pose proof (modulus_cim x) as Bx. pose proof (modulus_cre y) as Ay. pose proof (modulus_cim y) as By.
  pose proof (modulus_cre c) as Ac. pose proof (modulus_cim c) as Bc. pose proof (modulus_cre (x * y)%num) as Axy. pose proof (modulus_cim (x * y)%num) as Bxy.
  destruct x as [xr xi], y as [yr yi], c as [cr ci]. unfold cre, cim in *. cbn [fst snd] in *. cbn in Axy, Bxy. change (car Rops) with R in *.
  eapply Rle_trans; [apply (modulus_comp _ (61 / 10 * (u * Y) + 42 / 10 * eta)%R)|lra]; unfold cre, cim; cbn.
  - pose proof (acc_err cr (xr * yr) (xi * yi) (-1) Y ltac:(auto) HY ltac:(lra) ltac:(auto) ltac:(auto)) as A.
    replace (xr * yr + -1 * (xi * yi))%R with (xr * yr - xi * yi)%R in A by ring.
    replace (rnd F (rnd F (cr + rnd F (xr * yr)) + -1 * rnd F (xi * yi)))%R with (rnd F (rnd F (cr + rnd F (xr * yr)) - rnd F (xi * yi)))%R in A by (f_equal; ring).
    apply A; auto. eapply Rle_trans; [|exact Hxy]. assumption.
  - pose proof (acc_err ci (xr * yi) (xi * yr) 1 Y ltac:(auto) HY ltac:(lra) ltac:(auto) ltac:(auto)) as A.
    rewrite !Rmult_1_l in A. apply A; auto. eapply Rle_trans; [|exact Hxy]. assumption.
Qed.

(** the row [s] updated by [g] *)
Definition setrow {K : ops} (v : Z -> Z -> Cops K) (s : Z) (g : Z -> Cops K -> Cops K) : Z -> Z -> Cops K := fun t i => if t =? s then g i (v t i) else v t i.
Lemma setrow_loop {K : ops} N S (v : Z -> Z -> Cops K) o z zi s (g : Z -> Cops K -> Cops K) body : 0 <= N -> 0 <= s < S ->
  (forall i w, 0 <= i < N -> body i (sdi N S (reals w) o z, sdi N S (imags w) o zi) =
     (Cr <- set_vec (sdi N S (reals w) o z) s i (cre K (g i (w s i))) ;;
      Ci <- set_vec (sdi N S (imags w) o zi) s i (cim K (g i (w s i))) ;; Ok (Cr, Ci))) ->
  for_ 0 N body (sdi N S (reals v) o z, sdi N S (imags v) o zi) =
  Ok (sdi N S (reals (setrow v s g)) o z, sdi N S (imags (setrow v s g)) o zi).
Proof.
  intros HN Hs H.
  set (w i := (fun t j => if (t =? s) && (j <? i) then g j (v t j) else v t j) : Z -> Z -> Cops K).
  rewrite (for_closed _ (fun i => (sdi N S (reals (w i)) o z, sdi N S (imags (w i)) o zi)) _ _ _
    (sdi N S (reals (setrow v s g)) o z, sdi N S (imags (setrow v s g)) o zi)); auto; try lia.
  - f_equal; apply sdi_ext; auto; intros t1 j _ Hj; unfold reals, imags, w; destruct (Z.ltb_spec j 0); try lia; rewrite andb_false_r; auto.
  - f_equal; apply sdi_ext; auto; intros t1 j _ Hj; unfold reals, imags, w, setrow; destruct (Z.ltb_spec j N); try lia; rewrite andb_true_r; auto.
  - intros i Hi. rewrite H by auto. rewrite !set_vec_sdi by auto. cbn [bind].
    assert (Ew : w i s i = v s i) by (unfold w; rewrite Z.eqb_refl; destruct (Z.ltb_spec i i); [lia|auto]).
    assert (E : forall t j, w (i + 1) t j = if (t =? s) && (j =? i) then g i (w i s i) else w i t j).
    { intros t1 j. rewrite Ew. unfold w. destruct (Z.eqb_spec t1 s); cbn [andb]; auto.
      destruct (Z.eqb_spec j i), (Z.ltb_spec j i), (Z.ltb_spec j (i + 1)); try lia; subst; auto. }
    do 2 f_equal; apply sdi_ext; auto; intros t1 j _ Hj; unfold up2, reals, imags; rewrite E;
      destruct ((t1 =? s) && (j =? i)); auto.
Qed.

Lemma gsum_member_mod k (f : Z -> RC) s : 0 <= s < k -> (modulus (f s) <= gsum (K := Rops) k (fun t => modulus (f t)))%R.
Proof. intros Hs. apply (rsum_member k (fun t => modulus (f t))); auto. intros. apply modulus_nonneg. Qed.
(** changing one term of a sum *)
Lemma gsum_change k (f g : Z -> R) s e : 0 <= s < k -> (forall t, 0 <= t < k -> t <> s -> f t = g t) -> (f s <= g s + e)%R -> (gsum (K := Rops) k f <= gsum (K := Rops) k g + e)%R.
Proof.
  intros Hs H1 H2. pose proof (gsum_delta Rlawful k s (fun _ => e) Hs) as D. rewrite <- D at 1. pose proof (gsum_add Rlawful k g (fun t => if t =? s then e else 0%num)) as A.
  cbn [oadd Rops] in A. change (car Rops) with R in *. rewrite <- A. apply rsum_le; [lia|]. intros i Hi. destruct (Z.eqb_spec i s) as [->|]; [exact H2|]. rewrite H1 by auto. cbn. lra.
Qed.

Section Prod.
Context (N S1 S2 : Z) (A B : Z -> Z -> RC) (o1 o2 : Z -> Z) (zr1 zi1 zr2 zi2 : Z -> bool) (x1 x2 : R).
Context (HN : 0 < N <= 2 ^ 30) (HS1 : 0 <= S1) (HS2 : 0 <= S2).
Let vr1 : Z -> Z -> Fops F := fun t j => cre Rops (A t j).
Let vi1 : Z -> Z -> Fops F := fun t j => cim Rops (A t j).
Let vr2 : Z -> Z -> Fops F := fun t j => cre Rops (B t j).
Let vi2 : Z -> Z -> Fops F := fun t j => cim Rops (B t j).
Context (F1 : fits (K := Rops) N S1 (fun t j => cre Rops (A t j)) (fun t j => cim Rops (A t j)) o1 o1 zr1 zi1).
Context (F2 : fits (K := Rops) N S2 (fun t j => cre Rops (B t j)) (fun t j => cim Rops (B t j)) o2 o2 zr2 zi2).
Context (R1 : forall i, 0 <= i < N -> (gsum (K := Rops) S1 (fun s => modulus (A s i)) <= x1)%R).
Context (R2 : forall i, 0 <= i < N -> (gsum (K := Rops) S2 (fun s => modulus (B s i)) <= x2)%R).
Let X := (x1 * x2)%R.
Context (Hsm : (IZR S1 * IZR S2 * (18 * u + 6 * eta) <= 1)%R) (Htop : (8 * X + 5 <= top)%R).
Let d s1 s2 i : RC := (A s1 i * B s2 ((i + o1 s1) mod N))%num.
Let off3 s1 s2 := (o1 s1 + o2 s2) mod N.
Let rho := (9 * (u * (2 * X + 1)) + 6 * eta)%R.
(** sums of moduli of the terms added so far *)
Let W a b i := (gsum (K := Rops) a (fun s1 => modulus (A s1 i)) * x2 + modulus (A a i) * gsum (K := Rops) b (fun s2 => modulus (B s2 ((i + o1 a) mod N))))%R.

Definition near (cap : Z) (a b : Z) (vf : Z -> Z -> RC) (v : Z -> Z -> RC) : Prop :=
  forall i, 0 <= i < N -> (gsum (K := Rops) (S1 * S2) (fun s => modulus (vf s i - v s i)%num) <= IZR cap * rho)%R /\
    (gsum (K := Rops) (S1 * S2) (fun s => modulus (v s i)) <= W a b i)%R.

Lemma x2_nonneg : (0 <= x2)%R.
Proof. eapply Rle_trans; [|apply (R2 0); lia]. apply rsum_nonneg'. intros. apply modulus_nonneg. Qed.
Lemma x1_nonneg : (0 <= x1)%R.
Proof. eapply Rle_trans; [|apply (R1 0); lia]. apply rsum_nonneg'. intros. apply modulus_nonneg. Qed.
Lemma X_nonneg : (0 <= X)%R.
Proof. apply Rmult_le_pos; [apply x1_nonneg|apply x2_nonneg]. Qed.
Lemma rho_nonneg : (0 <= rho)%R.
Proof. pose proof (ar_u _ _ _ _ _ _ _ _ ar) as Hu. pose proof (ar_eta _ _ _ _ _ _ _ _ ar) as He. pose proof X_nonneg. unfold rho. assert (0 <= u * (2 * X + 1))%R by (apply Rmult_le_pos; lra). lra. Qed.
Lemma rho_total cap : 0 <= cap <= S1 * S2 -> (IZR cap * rho <= X + 1)%R.
Proof.
  intros Hc. pose proof rho_nonneg as Hr. pose proof X_nonneg as HX. pose proof (ar_u _ _ _ _ _ _ _ _ ar) as Hu. pose proof (ar_eta _ _ _ _ _ _ _ _ ar) as He.
  eapply Rle_trans; [apply Rmult_le_compat_r; [auto|apply IZR_le, (proj2 Hc)]|]. rewrite mult_IZR.
  assert (Hk : (0 <= IZR S1 * IZR S2)%R) by (apply Rmult_le_pos; apply IZR_le; lia). set (k := (IZR S1 * IZR S2)%R) in *. unfold rho.
  assert (k * (9 * (u * (2 * X + 1)) + 6 * eta) <= k * (18 * u + 6 * eta) * (X + 1))%R; [|nra].
  rewrite Rmult_assoc. apply Rmult_le_compat_l; auto. nra.
Qed.
Lemma W_le a b i : 0 <= a < S1 -> 0 <= b <= S2 -> 0 <= i < N -> (W a b i <= X)%R.
Proof.
  intros Ha Hb Hi. pose proof x2_nonneg as H2. unfold W, X. assert (Hk : 0 <= (i + o1 a) mod N < N) by (apply Z.mod_pos_bound; lia).
  assert (M : forall k (f : Z -> R) m, 0 <= m <= k -> (forall t, (0 <= f t)%R) -> (gsum (K := Rops) m f <= gsum (K := Rops) k f)%R).
  { intros k f m Hm Hf. replace k with (m + (k - m)) by lia. assert (Hq : 0 <= k - m) by lia. revert Hq.
    apply (GSum.gsum_ind (k - m) (fun q => 0 <= q -> (gsum (K := Rops) m f <= gsum (K := Rops) (m + q) f)%R)); [| |lia].
    - intros _. rewrite Z.add_0_r. apply Rle_refl.
    - intros q Hq IH Hq2. rewrite Z.add_assoc, gsum_S by lia. specialize (IH ltac:(lia)). pose proof (Hf (m + q)). cbn. cbn in IH. lra. }
  assert (B1 : (gsum (K := Rops) b (fun s2 => modulus (B s2 ((i + o1 a) mod N))) <= x2)%R).
  { eapply Rle_trans; [|apply (R2 _ Hk)]. apply (M S2 (fun s2 => modulus (B s2 ((i + o1 a) mod N))) b Hb). intros. apply modulus_nonneg. }
  eapply Rle_trans; [apply Rplus_le_compat_l, Rmult_le_compat_l; [apply modulus_nonneg|exact B1]|]. rewrite <- Rmult_plus_distr_r. apply Rmult_le_compat_r; auto.
  eapply Rle_trans; [|apply (R1 i Hi)]. eapply Rle_trans; [|apply (M S1 (fun s => modulus (A s i)) (a + 1)); [lia|intros; apply modulus_nonneg]].
  rewrite gsum_S by lia. apply Rle_refl.
Qed.
Lemma W_step a b i : 0 <= b -> W a (b + 1) i = (W a b i + modulus (d a b i))%R.
Proof. intros Hb. unfold W, d. rewrite gsum_S by lia. rewrite modulus_mul. cbn. ring. Qed.
Lemma W_row a i : 0 <= a -> 0 <= i < N -> (W a S2 i <= W (a + 1) 0 i)%R.
Proof.
  intros Ha Hi. unfold W. rewrite gsum_S by lia. rewrite (gsum_0 0) by lia. cbn. rewrite Rmult_0_r, Rplus_0_r, Rmult_plus_distr_r. apply Rplus_le_compat_l.
  apply Rmult_le_compat_l; [apply modulus_nonneg|]. apply R2. apply Z.mod_pos_bound. lia.
Qed.

(** one pair of diagonals *)
Lemma near_step a b vf v s3 : 0 <= a < S1 -> 0 <= b < S2 -> 0 <= s3 < S1 * S2 -> near (a * S2 + b) a b vf v ->
  near (a * S2 + b + 1) a (b + 1) (setrow vf s3 (fun i => facc (A a i) (B b ((i + o1 a) mod N)))) (addrow v s3 (d a b)).
Proof.
  intros Ha Hb Hs H i Hi. destruct (H i Hi) as [H1 H2]. assert (Hc : 0 <= a * S2 + b <= S1 * S2) by nia.
  pose proof (rho_total _ Hc) as HT. pose proof (W_le a b i Ha ltac:(lia) Hi) as HW. pose proof (W_le a (b + 1) i Ha ltac:(lia) Hi) as HW'. rewrite W_step in HW' by lia.
  pose proof X_nonneg as HX. split.
  - rewrite plus_IZR. replace ((IZR (a * S2 + b) + 1) * rho)%R with (IZR (a * S2 + b) * rho + rho)%R by ring.
    eapply Rle_trans; [apply (gsum_change (S1 * S2) _ (fun s => modulus (vf s i - v s i)%num) s3 rho Hs)|].
    + intros s _ Hne. unfold setrow, addrow. destruct (Z.eqb_spec s s3); [contradiction|]. reflexivity.
    + unfold setrow, addrow. rewrite Z.eqb_refl. cbn [cre].
      set (c := vf s3 i). set (w := v s3 i). fold (d a b i).
      match goal with |- (modulus ?e <= _)%R => replace e with ((facc (A a i) (B b ((i + o1 a) mod N)) c - (c + A a i * B b ((i + o1 a) mod N))) + (c - w))%num by (unfold d; ring) end.
      eapply Rle_trans; [apply modulus_add|]. rewrite Rplus_comm. apply Rplus_le_compat_l. unfold rho. apply facc_err.
      * lra.
      * eapply Rle_trans; [apply (modulus_near c w)|]. pose proof (gsum_member_mod (S1 * S2) (fun s => (vf s i - v s i)%num) s3 Hs) as M1. pose proof (gsum_member_mod (S1 * S2) (fun s => v s i) s3 Hs) as M2.
        cbv beta in M1, M2. fold c in M1. fold w in M1, M2. lra.
      * change (A a i * B b ((i + o1 a) mod N))%num with (d a b i). pose proof (modulus_nonneg (v s3 i)). pose proof (gsum_member_mod (S1 * S2) (fun s => v s i) s3 Hs) as M2. cbv beta in M2. lra.
      * lra.
    + apply Rplus_le_compat_r. exact H1.
  - rewrite W_step by lia. eapply Rle_trans; [apply (gsum_change (S1 * S2) _ (fun s => modulus (v s i)) s3 (modulus (d a b i)) Hs)|].
    + intros s _ Hne. unfold addrow. destruct (Z.eqb_spec s s3); [contradiction|]. reflexivity.
    + unfold addrow. rewrite Z.eqb_refl. apply modulus_add.
    + apply Rplus_le_compat_r. exact H2.
Qed.
Lemma near_skip a b vf v : 0 <= b -> near (a * S2 + b) a b vf v -> near (a * S2 + b + 1) a (b + 1) vf v.
Proof.
  intros Hb H i Hi. destruct (H i Hi) as [H1 H2]. rewrite W_step by auto. pose proof (modulus_nonneg (d a b i)). pose proof rho_nonneg. split; [|lra]. rewrite plus_IZR. lra.
Qed.

Theorem f_matmul2_ok Cr Ci a0 b0 c0 a0' b0' c0' :
  Cr = sdt N (S1 * S2) a0 b0 c0 -> Ci = sdt N (S1 * S2) a0' b0' c0' ->
  exists (vf v : Z -> Z -> RC) o z c,
    matmul2 (K := Fops F) N S1 S2 (sdi (F := Fops F) N S1 vr1 o1 zr1) (sdi (F := Fops F) N S1 vi1 o1 zi1) (sdi (F := Fops F) N S2 vr2 o2 zr2) (sdi (F := Fops F) N S2 vi2 o2 zi2) Cr Ci
    = Ok (sdi (F := Fops F) N (S1 * S2) (reals (K := Fops F) vf) o z, sdi (F := Fops F) N (S1 * S2) (imags (K := Fops F) vf) o z) /\
    Inv (K := RC) N (S1 * S2) (S1 * S2) (fun i j => gsum N (fun k => (dense N S1 A o1 i k * dense N S2 B o2 k j)%num)) v o z c /\
    (forall k i, c <= k < S1 * S2 -> 0 <= i < N -> vf k i = 0%num) /\
    forall i, 0 <= i < N -> (gsum (K := Rops) (S1 * S2) (fun s => modulus (vf s i - v s i)%num) <= mm_round u eta S1 S2 X)%R /\
      (gsum (K := Rops) (S1 * S2) (fun s => modulus (v s i)) <= X)%R.
Proof.
  intros ECr ECi. unfold matmul2.
  rewrite (sd_setzero_ok N (S1 * S2) Cr a0 b0 c0) by (auto; nia). cbn [bind].
  rewrite (sd_setzero_ok N (S1 * S2) Ci a0' b0' c0') by (auto; nia). cbn [bind].
  set (Good := fun cap a b (st : sd (Fops F) * sd (Fops F) * Z) => exists (vf v : Z -> Z -> RC) o z,
     st = (sdi (F := Fops F) N (S1 * S2) (reals (K := Fops F) vf) o z, sdi (F := Fops F) N (S1 * S2) (imags (K := Fops F) vf) o z, snd st) /\
     Inv (K := RC) N (S1 * S2) cap (pairs N S2 d off3 a b) v o z (snd st) /\ (forall k i, snd st <= k < S1 * S2 -> 0 <= i < N -> vf k i = 0%num) /\ near cap a b vf v).
  match goal with |- context [for_ 0 S1 ?b ?s] => set (body := b); set (st0 := s) end.
  assert (H : exists st, for_ 0 S1 body st0 = Ok st /\ Good (S1 * S2) S1 0 st).
  { apply (for_inv body (fun a st => Good (a * S2) a 0 st)); [lia| |].
    - unfold st0, Good. cbn [snd]. exists (fun _ _ => 0%num), (fun _ _ => 0%num), (fun _ => 0), (fun _ => true). split; [reflexivity|]. split; [|split; [auto|]].
      + eapply Inv_f; [|apply (Inv_start HC); auto; lia]. intros i j Hi Hj. unfold pairs. rewrite !gsum_0 by lia. ring.
      + intros i Hi. rewrite Z.mul_0_l, Rmult_0_l. split.
        * apply Req_le. apply (gsum_zero Rlawful). intros s Hs. replace (0 - 0 : RC)%num with (0%num : RC) by ring. apply modulus_0.
        * replace (W 0 0 i) with 0%R. { apply Req_le. apply (gsum_zero Rlawful). intros s Hs. apply modulus_0. }
          unfold W. rewrite !gsum_0 by lia. cbn. ring.
    - intros a [[Cr' Ci'] count'] Ha (vf & v & o & z & EC' & HI & HZ & HN'). cbn [snd] in *. injection EC' as -> ->. unfold body at 1. cbv beta iota.
      match goal with |- exists s', for_ 0 S2 ?bd ?s = Ok s' /\ _ =>
        destruct (for_inv bd (fun b st => Good (a * S2 + b) a b st) 0 S2 s) as (st & E & HG) end.
      + auto.
      + exists vf, v, o, z. split; [reflexivity|]. cbn [snd]. rewrite Z.add_0_r. auto.
      + clear vf v o z HI HZ HN' count'. intros b [[Cr' Ci'] count] Hb (vf & v & o & z & EC' & HI & HZ & HN'). cbn [snd] in *. injection EC' as -> ->.
        pose proof (inv_count _ _ _ _ _ _ _ _ HI) as Hcnt.
        assert (Hcap : a * S2 + b < S1 * S2) by nia.
        rewrite !get_zero_sdi by auto. cbn [bind].
        assert (Ez1 : (if zr1 a then Ok (zi1 a) else Ok false) = Ok (zr1 a && zi1 a)) by (destruct (zr1 a); auto).
        rewrite Ez1. cbn [bind].
        assert (Ez2 : (if zr1 a && zi1 a then Ok true else if zr2 b then Ok (zi2 b) else Ok false)
             = Ok ((zr1 a && zi1 a) || (zr2 b && zi2 b))) by (destruct (zr1 a && zi1 a), (zr2 b); auto).
        rewrite Ez2. cbn [bind].
        destruct ((zr1 a && zi1 a) || (zr2 b && zi2 b)) eqn:Eskip.
        * eexists. split; [reflexivity|]. exists vf, v, o, z. cbn [snd]. split; [reflexivity|]. rewrite Z.add_assoc. split; [|split; [auto|apply near_skip; auto; lia]].
          apply (Inv_cap N (S1 * S2) (a * S2 + b)); [lia|].
          eapply Inv_f; [|exact HI]. intros i j Hi Hj. rewrite (pairs_step HC) by (auto; lia). unfold plus1.
          assert (Ed : d a b i = 0%num).
          { unfold d. apply orb_true_iff in Eskip. destruct Eskip as [Es|Es].
            - destruct (fit_zero _ _ _ _ _ _ _ _ F1 a i Ha Hi Es) as [E1 E2]. replace (A a i) with (0%num : RC) by (symmetry; apply RC_eq; [exact E1|exact E2]). ring.
            - destruct (fit_zero _ _ _ _ _ _ _ _ F2 b ((i + o1 a) mod N) Hb ltac:(apply Z.mod_pos_bound; lia) Es) as [E1 E2].
              replace (B b ((i + o1 a) mod N)) with (0%num : RC) by (symmetry; apply RC_eq; [exact E1|exact E2]). ring. }
          rewrite Ed. destruct ondiag; ring.
        * apply orb_false_iff in Eskip. destruct Eskip as [Es1 Es2].
          destruct (fit_off _ _ _ _ _ _ _ _ F1 a Ha Es1) as [Hoa _].
          destruct (fit_off _ _ _ _ _ _ _ _ F2 b Hb Es2) as [Hob _].
          rewrite !get_off_sdi by auto. cbn [bind]. rewrite !Z.eqb_refl. cbn [assert_ bind].
          rewrite int_in by lia. cbn [bind]. rewrite imod_ok by lia. cbn [bind].
          rewrite Z.rem_mod_nonneg by lia.
          destruct (find_off2_ok (K := Fops F) N (S1 * S2) (reals (K := Fops F) vf) (imags (K := Fops F) vf) o z z count ((o1 a + o2 b) mod N)) as (r & Er & Hr); [lia|].
          match goal with |- context [@find_off2 ?K0 ?x ?y ?k ?w] => replace (@find_off2 K0 x y k w) with (Ok r) by (symmetry; exact Er) end. cbn [bind].
          set (g := fun i => facc (A a i) (B b ((i + o1 a) mod N))).
          assert (Hrow : forall (v : Z -> Z -> RC) o z s3, 0 <= s3 < S1 * S2 ->
             for_ 0 N (fun i '(Cr, Ci) =>
                t <- int_ (i + o1 a) ;; k <- imod t N ;;
                ar <- get_vec (sdi (F := Fops F) N S1 vr1 o1 zr1) a i ;; ai <- get_vec (sdi (F := Fops F) N S1 vi1 o1 zi1) a i ;;
                br <- get_vec (sdi (F := Fops F) N S2 vr2 o2 zr2) b k ;; bi <- get_vec (sdi (F := Fops F) N S2 vi2 o2 zi2) b k ;;
                c <- get_vec Cr s3 i ;; Cr <- set_vec Cr s3 i (c + ar * br)%num ;;
                c <- get_vec Cr s3 i ;; Cr <- set_vec Cr s3 i (c - ai * bi)%num ;;
                c <- get_vec Ci s3 i ;; Ci <- set_vec Ci s3 i (c + ar * bi)%num ;;
                c <- get_vec Ci s3 i ;; Ci <- set_vec Ci s3 i (c + ai * br)%num ;;
                Ok (Cr, Ci)) (sdi (F := Fops F) N (S1 * S2) (reals (K := Fops F) v) o z, sdi (F := Fops F) N (S1 * S2) (imags (K := Fops F) v) o z)
             = Ok (sdi (F := Fops F) N (S1 * S2) (reals (K := Fops F) (setrow v s3 g)) o z, sdi (F := Fops F) N (S1 * S2) (imags (K := Fops F) (setrow v s3 g)) o z)).
          { intros vv oo zz s3 Hs3. apply (setrow_loop (K := Fops F)); auto; [lia|]. intros i w Hi.
            rewrite int_in by lia. cbn [bind]. rewrite imod_ok by lia. cbn [bind]. rewrite Z.rem_mod_nonneg by lia.
            assert (Hk : 0 <= (i + o1 a) mod N < N) by (apply Z.mod_pos_bound; lia).
            repeat first [rewrite get_vec_sdi by auto; cbn [bind] | rewrite set_vec_sdi by auto; cbn [bind]].
            apply f_equal. apply f_equal2; apply sdi_ext; auto; intros t1 j _ _; unfold up2;
              rewrite !Z.eqb_refl; cbn [andb]; destruct ((t1 =? s3) && (j =? i)); auto. }
          destruct Hr as [[-> Hr]|[Hr Hr2]].
          -- rewrite Z.eqb_refl. rewrite !set_zero_sdi by lia. cbn [bind]. rewrite !set_off_sdi by lia. cbn [bind].
             rewrite Hrow by lia. cbn [bind]. eexists. split; [reflexivity|].
             exists (setrow vf count g), (addrow v count (d a b)), (up1 o count ((o1 a + o2 b) mod N)), (up1 z count false). cbn [snd]. split; [reflexivity|]. rewrite Z.add_assoc. split; [|split].
             ++ eapply Inv_f. { intros i j Hi Hj. symmetry. apply (pairs_step HC); auto. lia. }
                apply (Inv_new HC); auto; try lia. unfold off3. apply Z.mod_pos_bound. lia.
             ++ intros k i Hk Hi. unfold setrow. destruct (Z.eqb_spec k count); [lia|]. apply HZ; auto. lia.
             ++ apply near_step; auto. lia.
          -- destruct (Z.eqb_spec r (-1)); [lia|]. cbn [bind]. rewrite Hrow by lia. cbn [bind].
             eexists. split; [reflexivity|]. exists (setrow vf r g), (addrow v r (d a b)), o, z. cbn [snd]. split; [reflexivity|]. rewrite Z.add_assoc. split; [|split].
             ++ eapply Inv_f. { intros i j Hi Hj. symmetry. apply (pairs_step HC); auto. lia. }
                apply (Inv_cap N (S1 * S2) (a * S2 + b)); [lia|].
                unfold off3. rewrite <- Hr2. apply (Inv_old HC); auto; lia.
             ++ intros k i Hk Hi. unfold setrow. destruct (Z.eqb_spec k r); [lia|]. apply HZ; auto.
             ++ apply near_step; auto. lia.
      + exists st. split; [exact E|]. destruct HG as (vf' & v' & o' & z' & E' & HI' & HZ' & HN''). exists vf', v', o', z'. split; [auto|]. replace ((a + 1) * S2) with (a * S2 + S2) by lia. split; [|split; [auto|]].
        * eapply Inv_f. { intros i j Hi Hj. apply (pairs_row HC); auto. lia. } exact HI'.
        * intros i Hi. destruct (HN'' i Hi) as [N1 N2]. split; [exact N1|]. eapply Rle_trans; [exact N2|]. apply W_row; auto. lia. }
  destruct H as (st & E & vf & v & o & z & E' & HI & HZ & HN'). rewrite E. cbn [bind]. rewrite E'.
  exists vf, v, o, z, (snd st). split; [reflexivity|]. split; [|split; [exact HZ|]].
  - eapply Inv_f; [|exact HI]. intros i j Hi Hj. unfold d, off3. apply (pairs_product HC); auto. lia.
  - intros i Hi. destruct (HN' i Hi) as [N1 N2]. split.
    + eapply Rle_trans; [exact N1|]. unfold mm_round, rho. rewrite mult_IZR. apply Req_le. ring.
    + eapply Rle_trans; [exact N2|]. unfold W, X. rewrite (gsum_0 0) by lia. cbn. rewrite Rmult_0_r, Rplus_0_r. apply Rmult_le_compat_r; [apply x2_nonneg|]. apply R1; auto.
Qed.
End Prod.
End MM.
