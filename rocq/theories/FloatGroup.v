(** Pairs of objects that represent a matrix up to an error, and their products in floating-point arithmetic. *)
From Coq Require Import ZArith List Bool Lia Reals Lra Ring.
From Verif Require Import Base BaseFacts GSum Matrix MatrixFacts MatMulFacts DFT DFTTheory DFTFacts FFTFacts SpecMat Properties_Mat SpecDFT SpecEnc SlotFacts
  Properties_Plain SpecLin LinTrans LinSlots GroupFacts.
From Verif Require Import Float SpecFloat FloatFacts FloatError.
From Verif Require Import SpecFloatLin FloatLin FloatMM.
Import ListNotations.
Open Scope Z_scope.
Add Ring RCfg : HR.

Section Rep.
Context (F : fpu) (u eta top t : R) (ar : arithmetic u eta top t (rnd F) (dpi F) (lcos F) (lsin F)).
Context (n : Z) (Hn : 0 < n <= 2 ^ 30).
Definition frep (S : Z) (P : sd Rops * sd Rops) (M : Z -> Z -> CC) (a b r : R) : Prop :=
  exists (A : Z -> Z -> CC) o zr zi,
    P = (diagonals n S (fun t j => cre Rops (A t j)) o zr, diagonals n S (fun t j => cim Rops (A t j)) o zi) /\
    flags_right (K := Rops) n S (fun t j => cre Rops (A t j)) (fun t j => cim Rops (A t j)) o o zr zi /\
    rows n (fun i j => matrix_of n S A o i j - M i j)%num r /\ rows n M a /\
    (forall i, 0 <= i < n -> (gsum (K := Rops) S (fun t => modulus (A t i)) <= a + r)%R) /\
    (0 <= b <= a)%R /\ (forall t i, 0 <= t < S -> 0 <= i < n -> (modulus (A t i) <= b + r)%R) /\
    (forall i j, 0 <= i < n -> 0 <= j < n -> (modulus (matrix_of n S A o i j) <= b + r)%R).

Lemma rows_le M a b : (a <= b)%R -> rows n M a -> rows n M b.
Proof. intros H HM i Hi. eapply Rle_trans; [apply HM; auto|auto]. Qed.
Lemma rows_add A B a b : rows n A a -> rows n B b -> rows n (fun i j => A i j + B i j)%num (a + b).
Proof.
  intros HA HB i Hi. eapply Rle_trans; [apply (rsum_le n _ (fun j => modulus (A i j) + modulus (B i j))%R); [lia|]; intros; apply modulus_add|].
  pose proof (gsum_add Rlawful n (fun j => modulus (A i j)) (fun j => modulus (B i j))) as E. cbn [oadd Rops] in E. change (car Rops) with R in *. rewrite E. apply Rplus_le_compat; auto.
Qed.
Lemma matrix_of_sub S (A B : Z -> Z -> CC) o i j : (matrix_of n S A o i j - matrix_of n S B o i j)%num = matrix_of n S (fun t j => A t j - B t j)%num o i j.
Proof. unfold matrix_of. rewrite <- (gsum_sub HC). apply gsum_ext. intros s Hs. destruct (_ =? 0); ring. Qed.
Lemma product_diff (A A' B B' : Z -> Z -> CC) i j :
  (product n A' B' i j - product n A B i j)%num = (product n (fun i j => A' i j - A i j)%num B' i j + product n A (fun i j => B' i j - B i j)%num i j)%num.
Proof. unfold product. rewrite <- (gsum_sub HC), <- (gsum_add HC). apply gsum_ext. intros. ring. Qed.

Lemma fmm_rep S1 S2 P1 P2 M1 M2 a1 a2 b1 b2 r1 r2 Cr Ci : 0 <= S1 -> 0 <= S2 -> frep S1 P1 M1 a1 b1 r1 -> frep S2 P2 M2 a2 b2 r2 -> shape n (S1 * S2) Cr -> shape n (S1 * S2) Ci ->
  (IZR S1 * IZR S2 * (18 * u + 6 * eta) <= 1)%R -> (8 * ((a1 + r1) * (a2 + r2)) + 5 <= top)%R ->
  exists Q, matmul2 (K := Fops F) n S1 S2 (fst P1) (snd P1) (fst P2) (snd P2) Cr Ci = Ok Q /\ frep (S1 * S2) Q (product n M1 M2) (a1 * a2) (a1 * b2) (mm_error u eta S1 S2 a1 r1 a2 r2).
Proof.
  intros HS1 HS2 (A & o & zr & zi & -> & F1 & E1 & R1 & B1 & Hb1 & _ & _) (A' & o' & zr' & zi' & -> & F2 & E2 & R2 & B2 & Hb2 & _ & Hm2) HC1 HC2 Hsm Htop. cbn [fst snd].
  destruct (shape_sdt _ _ _ HC1) as (sa & sb & sc & EC1). destruct (shape_sdt _ _ _ HC2) as (sa' & sb' & sc' & EC2).
  destruct (f_matmul2_ok F u eta top t ar n S1 S2 A A' o o' zr zi zr' zi' (a1 + r1) (a2 + r2) Hn HS1 HS2 (flags_fits _ _ _ _ _ _ _ _ F1) (flags_fits _ _ _ _ _ _ _ _ F2) B1 B2 Hsm Htop Cr Ci _ _ _ _ _ _ EC1 EC2)
    as (vf & v & oo & z & cnt & E & HI & HZ & HB).
  pose proof (rows_nonneg n ltac:(lia) _ _ R1) as Ha1. pose proof (rows_nonneg n ltac:(lia) _ _ R2) as Ha2. pose proof (rows_nonneg n ltac:(lia) _ _ E1) as Hr1. pose proof (rows_nonneg n ltac:(lia) _ _ E2) as Hr2.
  pose proof (ar_u _ _ _ _ _ _ _ _ ar) as Hu. pose proof (ar_eta _ _ _ _ _ _ _ _ ar) as He.
  set (X := ((a1 + r1) * (a2 + r2))%R) in *. assert (HX : (0 <= X)%R) by (apply Rmult_le_pos; lra).
  set (rho := mm_round u eta S1 S2 X) in *.
  assert (Hrho : (0 <= rho)%R). { unfold rho, mm_round. apply Rmult_le_pos; [apply Rmult_le_pos; apply IZR_le; lia|]. assert (0 <= u * (2 * X + 1))%R by (apply Rmult_le_pos; lra). lra. }
  assert (HS12 : 0 <= S1 * S2) by nia.
  rewrite !diagonals_sdi. eexists. split; [exact E|].
  assert (Ez : forall s, 0 <= s < S1 * S2 -> z s = true -> cnt <= s).
  { intros s Hs Es. destruct (Z.lt_ge_cases s cnt); [|auto]. destruct (inv_used _ _ _ _ _ _ _ _ HI s ltac:(lia)) as [_ E3]. congruence. }
  assert (Hoff : offsets_in n (S1 * S2) oo).
  { intros s Hs. destruct (Z.lt_ge_cases s cnt).
    - apply (inv_used _ _ _ _ _ _ _ _ HI s). lia.
    - destruct (inv_free _ _ _ _ _ _ _ _ HI s ltac:(lia)) as [-> _]. lia. }
  assert (Hd : distinct_live (S1 * S2) oo z).
  { intros s s' Hs Hs' Es Es' E3. apply (inv_dist _ _ _ _ _ _ _ _ HI); auto.
    - destruct (Z.lt_ge_cases s cnt); [lia|]. destruct (inv_free _ _ _ _ _ _ _ _ HI s ltac:(lia)) as (_ & ? & _). congruence.
    - destruct (Z.lt_ge_cases s' cnt); [lia|]. destruct (inv_free _ _ _ _ _ _ _ _ HI s' ltac:(lia)) as (_ & ? & _). congruence. }
  assert (Zf : forall s j, 0 <= s < S1 * S2 -> 0 <= j < n -> z s = true -> vf s j = 0%num) by (intros s j Hs Hj Es; apply HZ; auto; specialize (Ez s Hs Es); lia).
  assert (Zv : forall s j, 0 <= s < S1 * S2 -> 0 <= j < n -> z s = true -> v s j = 0%num).
  { intros s j Hs Hj Es. specialize (Ez s Hs Es). destruct (inv_free _ _ _ _ _ _ _ _ HI s ltac:(lia)) as (_ & _ & E3). auto. }
  assert (EM : forall i j, 0 <= i < n -> 0 <= j < n -> matrix_of n (S1 * S2) v oo i j = product n (matrix_of n S1 A o) (matrix_of n S2 A' o') i j).
  { intros i j Hi Hj. exact (inv_sum _ _ _ _ _ _ _ _ HI i j Hi Hj). }
  assert (RA : rows n (matrix_of n S1 A o) (a1 + r1)) by (apply rows_of; auto; lia).
  assert (RB : rows n (matrix_of n S2 A' o') (a2 + r2)) by (apply rows_of; auto; lia).
  assert (Ediff : forall s i, 0 <= s < S1 * S2 -> 0 <= i < n -> (modulus (vf s i - v s i)%num <= rho)%R).
  { intros s i Hs Hi. eapply Rle_trans; [|apply (proj1 (HB i Hi))]. apply (gsum_member_mod (S1 * S2) (fun s => (vf s i - v s i)%num) s Hs). }
  assert (Eent : forall s i, 0 <= s < S1 * S2 -> 0 <= i < n -> (modulus (vf s i) <= a1 * b2 + mm_error u eta S1 S2 a1 r1 a2 r2)%R).
  { intros s i Hs Hi. assert (Hq : (a1 * b2 + mm_error u eta S1 S2 a1 r1 a2 r2 >= (a1 + r1) * (b2 + r2) + rho)%R).
    { unfold mm_error. fold X rho. assert (r1 * b2 <= r1 * a2)%R by (apply Rmult_le_compat_l; lra). lra. }
    assert (Hp : (0 <= (a1 + r1) * (b2 + r2))%R) by (apply Rmult_le_pos; lra).
    destruct (z s) eqn:Es; [rewrite Zf by auto; rewrite modulus_0; lra|].
    eapply Rle_trans; [apply (modulus_near _ (v s i))|]. pose proof (Ediff s i Hs Hi). assert (modulus (v s i) <= (a1 + r1) * (b2 + r2))%R; [|lra].
    rewrite <- (entry_of n ltac:(lia) (S1 * S2) v oo z s i HS12 Hoff Hd Zv Hs Hi Es). pose proof (Z.mod_pos_bound (i + oo s) n ltac:(lia)) as Hj. rewrite EM by auto.
    apply entry_product; auto; try lia; try lra. }
  assert (Ebig : (0 <= a1 * b2 <= a1 * a2)%R) by (split; [apply Rmult_le_pos; lra|apply Rmult_le_compat_l; lra]).
  assert (Epos : (0 <= mm_error u eta S1 S2 a1 r1 a2 r2)%R).
  { unfold mm_error. fold X rho. assert (0 <= r1 * (a2 + r2))%R by (apply Rmult_le_pos; lra). assert (0 <= a1 * r2)%R by (apply Rmult_le_pos; lra). lra. }
  exists vf, oo, z, z. split; [rewrite !diagonals_sdi; reflexivity|]. split; [|split; [|split; [|split; [|split; [|split]]]]].
  - intros s Hs. rewrite andb_diag. destruct (z s) eqn:Es; [|split; auto]. intros i Hi. rewrite Zf by auto. split; reflexivity.
  - apply (rows_ext n (fun i j => matrix_of n (S1 * S2) (fun t j => vf t j - v t j)%num oo i j +
      (product n (fun i j => matrix_of n S1 A o i j - M1 i j)%num (matrix_of n S2 A' o') i j + product n M1 (fun i j => matrix_of n S2 A' o' i j - M2 i j)%num i j))%num).
    { intros i j Hi Hj. rewrite <- product_diff, <- matrix_of_sub, <- EM by auto. ring. }
    unfold mm_error. fold X rho. replace (r1 * (a2 + r2) + a1 * r2 + rho)%R with (rho + (r1 * (a2 + r2) + a1 * r2))%R by ring.
    apply rows_add; [|apply rows_add; apply rows_product; auto; lia]. apply rows_of; [lia|auto|]. intros i Hi. apply HB. auto.
  - apply rows_product; auto; lia.
  - intros i Hi. destruct (HB i Hi) as [N1 N2]. fold X in N2. eapply Rle_trans; [apply (rsum_le (S1 * S2) _ (fun s => modulus (v s i) + modulus (vf s i - v s i)%num)%R); [auto|]; intros; apply modulus_near|].
    pose proof (gsum_add Rlawful (S1 * S2) (fun s => modulus (v s i)) (fun s => modulus (vf s i - v s i)%num)) as E3. cbn [oadd Rops] in E3. change (car Rops) with R in *. rewrite E3.
    unfold mm_error. fold X rho. assert (X = a1 * a2 + (r1 * (a2 + r2) + a1 * r2))%R by (unfold X; ring). lra.
  - exact Ebig.
  - exact Eent.
  - intros i j Hi Hj. apply (of_entries n ltac:(lia) (S1 * S2) vf oo z); auto; lra.
Qed.

Definition fgood (S D i : Z) (X Y : list (sd Rops)) (M : Z -> Z -> Z -> CC) (a b r : Z -> R) : Prop :=
  exists fr fi, X = tab D fr /\ Y = tab D fi /\
    forall t, 0 <= t < D -> if t <? i then frep S (fr t, fi t) (M t) (a t) (b t) (r t) else shape n S (fr t) /\ shape n S (fi t).
Lemma fgood_new S D M a b r : 0 <= S -> fgood S D 0 (sd_array n S D) (sd_array n S D) M a b r.
Proof.
  intros HS. unfold sd_array. rewrite !repeat_tab. do 2 eexists. split; [reflexivity|]. split; [reflexivity|].
  intros t0 Ht. destruct (Z.ltb_spec t0 0); [lia|]. split; apply shape_new; auto.
Qed.
Lemma fgood_get S D i X Y M a b r t0 : fgood S D i X Y M a b r -> 0 <= t0 < i -> t0 < D ->
  exists P, lget X t0 = Ok (fst P) /\ lget Y t0 = Ok (snd P) /\ frep S P (M t0) (a t0) (b t0) (r t0).
Proof.
  intros (fr & fi & -> & -> & H) Ht HtD. exists (fr t0, fi t0). rewrite !lget_tab by lia. specialize (H t0 ltac:(lia)).
  destruct (Z.ltb_spec t0 i); [|lia]. auto.
Qed.
Lemma fmm_good S1 S2 D Ar Ai p Br Bi q P1 P2 M1 M2 a1 a2 b1 b2 r1 r2 i Cr Ci M a b r : 0 <= S1 -> 0 <= S2 ->
  lget Ar p = Ok (fst P1) -> lget Ai p = Ok (snd P1) -> frep S1 P1 M1 a1 b1 r1 ->
  lget Br q = Ok (fst P2) -> lget Bi q = Ok (snd P2) -> frep S2 P2 M2 a2 b2 r2 ->
  fgood (S1 * S2) D i Cr Ci M a b r -> 0 <= i < D -> (IZR S1 * IZR S2 * (18 * u + 6 * eta) <= 1)%R -> (8 * ((a1 + r1) * (a2 + r2)) + 5 <= top)%R ->
  M i = product n M1 M2 -> a i = (a1 * a2)%R -> b i = (a1 * b2)%R -> r i = mm_error u eta S1 S2 a1 r1 a2 r2 ->
  exists Cr' Ci', f_mm_at F n S1 S2 Ar Ai p Br Bi q Cr Ci i = Ok (Cr', Ci') /\ fgood (S1 * S2) D (i + 1) Cr' Ci' M a b r.
Proof.
  intros HS1 HS2 E1 E2 H1 E3 E4 H2 (fr & fi & -> & -> & H) Hi Hsm Htop EM Ea Eb Er. unfold f_mm_at. rewrite E1, E2, E3, E4. cbn [bind]. rewrite !lget_tab by lia. cbn [bind].
  pose proof (H i Hi) as Hs. destruct (Z.ltb_spec i i); [lia|]. destruct Hs as [Hs1 Hs2].
  destruct (fmm_rep S1 S2 P1 P2 M1 M2 a1 a2 b1 b2 r1 r2 (fr i) (fi i)) as ([qr qi] & E & HQ); auto.
  match goal with |- context [bind (matmul2 ?a1 ?a2 ?a3 ?a4 ?a5 ?a6 ?a7 ?a8 ?a9) _] => replace (matmul2 (K := Fops F) a1 a2 a3 a4 a5 a6 a7 a8 a9) with (Ok (qr, qi)) by (symmetry; exact E) end. cbn [bind].
  rewrite !lset_tab by lia. cbn [bind]. do 2 eexists. split; [reflexivity|]. do 2 eexists. split; [reflexivity|]. split; [reflexivity|].
  intros t0 Ht. specialize (H t0 Ht). cbv beta. destruct (Z.eqb_spec t0 i) as [->|].
  - destruct (Z.ltb_spec i (i + 1)); [|lia]. rewrite ?Z.eqb_refl, EM, Ea, Eb, Er. exact HQ.
  - destruct (Z.ltb_spec t0 i), (Z.ltb_spec t0 (i + 1)); try lia; auto.
Qed.

Context (S : Z) (HS : 0 <= S) (D' : Z) (HD : 0 <= D') (M : Z -> Z -> Z -> CC) (a b r : Z -> R).
Notation pr := (product n).
Notation E2 d0 d1 := (mm_error u eta S S (a d1) (r d1) (a d0) (r d0)).
Notation E3 d0 d1 d2 := (mm_error u eta S (S * S) (a d2) (r d2) (a d1 * a d0)%R (E2 d0 d1)).
Notation E4 d0 d1 d2 d3 := (mm_error u eta S (S * (S * S)) (a d3) (r d3) (a d2 * (a d1 * a d0))%R (E3 d0 d1 d2)).
Notation T2 d0 d1 := (8 * ((a d1 + r d1) * (a d0 + r d0)) + 5 <= top)%R.
Notation T3 d0 d1 d2 := (8 * ((a d2 + r d2) * ((a d1 * a d0) + E2 d0 d1)) + 5 <= top)%R.
Notation T4 d0 d1 d2 d3 := (8 * ((a d3 + r d3) * ((a d2 * (a d1 * a d0)) + E3 d0 d1 d2)) + 5 <= top)%R.
Lemma fgroup2_good Ar Ai : fgood S (2 * D') (2 * D') Ar Ai M a b r -> (0 < D' -> (IZR S * IZR S * (18 * u + 6 * eta) <= 1)%R) -> (forall d, 0 <= d < D' -> T2 (2 * d)%Z (2 * d + 1)%Z) ->
  exists Br Bi, f_group2 F n S (2 * D') Ar Ai = Ok (Br, Bi) /\
    fgood (S * S) D' D' Br Bi (fun d => pr (M (2 * d + 1)) (M (2 * d))) (fun d => a (2 * d + 1)%Z * a (2 * d)%Z)%R (fun d => a (2 * d + 1)%Z * b (2 * d)%Z)%R (fun d => E2 (2 * d)%Z (2 * d + 1)%Z).
Proof.
  intros H Hsm HT. unfold f_group2. replace ((2 * D') mod 2) with 0 by (rewrite Z.mul_comm, Z.mod_mul; lia). cbn [Z.eqb assert_ bind].
  replace (2 * D' / 2) with D' by (rewrite Z.mul_comm, Z.div_mul; lia).
  match goal with |- context [for_ 0 D' ?body ?s0] =>
    destruct (for_inv body (fun i '(Br, Bi) => fgood (S * S) D' i Br Bi (fun d => pr (M (2 * d + 1)) (M (2 * d))) (fun d => a (2 * d + 1)%Z * a (2 * d)%Z)%R (fun d => a (2 * d + 1)%Z * b (2 * d)%Z)%R (fun d => E2 (2 * d)%Z (2 * d + 1)%Z)) 0 D' s0 HD) as ([Br Bi] & E & HB) end.
  - apply fgood_new; nia.
  - intros i [Br Bi] Hi HB. destruct (fgood_get S (2 * D') (2 * D') Ar Ai M a b r (2 * i + 1) H ltac:(lia) ltac:(lia)) as (P1 & E1 & G2 & H1).
    destruct (fgood_get S (2 * D') (2 * D') Ar Ai M a b r (2 * i) H ltac:(lia) ltac:(lia)) as (P2 & G3 & G4 & H2).
    destruct (fmm_good S S D' Ar Ai (2 * i + 1) Ar Ai (2 * i) P1 P2 _ _ _ _ _ _ _ _ i Br Bi _ _ _ _ HS HS E1 G2 H1 G3 G4 H2 HB Hi (Hsm ltac:(lia)) (HT i Hi)) as (Br' & Bi' & E & HB'); auto.
    rewrite E. eexists. split; [reflexivity|]. exact HB'.
  - rewrite E. exists Br, Bi. auto.
Qed.
Lemma fgroup3_good Ar Ai : fgood S (3 * D') (3 * D') Ar Ai M a b r -> (0 < D' -> (IZR S * IZR S * (18 * u + 6 * eta) <= 1)%R) -> (0 < D' -> (IZR S * IZR (S * S) * (18 * u + 6 * eta) <= 1)%R) ->
  (forall d, 0 <= d < D' -> T2 (3 * d)%Z (3 * d + 1)%Z) -> (forall d, 0 <= d < D' -> T3 (3 * d)%Z (3 * d + 1)%Z (3 * d + 2)%Z) ->
  exists Cr Ci, f_group3 F n S (3 * D') Ar Ai = Ok (Cr, Ci) /\
    fgood (S * (S * S)) D' D' Cr Ci (fun d => pr (M (3 * d + 2)) (pr (M (3 * d + 1)) (M (3 * d)))) (fun d => a (3 * d + 2)%Z * (a (3 * d + 1)%Z * a (3 * d)%Z))%R (fun d => a (3 * d + 2)%Z * (a (3 * d + 1)%Z * b (3 * d)%Z))%R
      (fun d => E3 (3 * d)%Z (3 * d + 1)%Z (3 * d + 2)%Z).
Proof.
  intros H Hsm Hsm3 HT HT3. unfold f_group3. replace ((3 * D') mod 3) with 0 by (rewrite Z.mul_comm, Z.mod_mul; lia). cbn [Z.eqb assert_ bind].
  replace (3 * D' / 3) with D' by (rewrite Z.mul_comm, Z.div_mul; lia).
  set (M2 := fun d => pr (M (3 * d + 1)) (M (3 * d))). set (a2 := fun d => (a (3 * d + 1)%Z * a (3 * d)%Z)%R). set (b2 := fun d => (a (3 * d + 1)%Z * b (3 * d)%Z)%R).
  set (r2 := fun d => E2 (3 * d)%Z (3 * d + 1)%Z).
  match goal with |- context [for_ 0 D' ?body ?s0] =>
    destruct (for_inv body (fun i '(Br, Bi, Cr, Ci) => fgood (S * S) D' i Br Bi M2 a2 b2 r2 /\ fgood (S * (S * S)) D' i Cr Ci (fun d => pr (M (3 * d + 2)) (M2 d)) (fun d => a (3 * d + 2)%Z * a2 d)%R (fun d => a (3 * d + 2)%Z * b2 d)%R
      (fun d => E3 (3 * d)%Z (3 * d + 1)%Z (3 * d + 2)%Z)) 0 D' s0 HD) as ([[[Br Bi] Cr] Ci] & E & HB & HC') end.
  - split; apply fgood_new; nia.
  - intros i [[[Br Bi] Cr] Ci] Hi [HB HC']. destruct (fgood_get S (3 * D') (3 * D') Ar Ai M a b r (3 * i + 1) H ltac:(lia) ltac:(lia)) as (P1 & G1 & G2 & H1).
    destruct (fgood_get S (3 * D') (3 * D') Ar Ai M a b r (3 * i) H ltac:(lia) ltac:(lia)) as (P2 & G3 & G4 & H2).
    destruct (fgood_get S (3 * D') (3 * D') Ar Ai M a b r (3 * i + 2) H ltac:(lia) ltac:(lia)) as (P3 & G5 & G6 & H3).
    destruct (fmm_good S S D' Ar Ai (3 * i + 1) Ar Ai (3 * i) P1 P2 _ _ _ _ _ _ _ _ i Br Bi _ _ _ _ HS HS G1 G2 H1 G3 G4 H2 HB Hi (Hsm ltac:(lia)) (HT i Hi)) as (Br' & Bi' & E & HB'); auto.
    rewrite E. cbn [bind]. destruct (fgood_get _ _ _ _ _ _ _ _ _ i HB' ltac:(lia) ltac:(lia)) as (P4 & G7 & G8 & H4).
    destruct (fmm_good S (S * S) D' Ar Ai (3 * i + 2) Br' Bi' i P3 P4 _ _ _ _ _ _ _ _ i Cr Ci _ _ _ _ HS ltac:(nia) G5 G6 H3 G7 G8 H4 HC' Hi (Hsm3 ltac:(lia)) (HT3 i Hi)) as (Cr' & Ci' & E' & HC''); auto.
    rewrite E'. eexists. split; [reflexivity|]. split; auto.
  - rewrite E. exists Cr, Ci. auto.
Qed.
Lemma fgroup4_good Ar Ai : fgood S (4 * D') (4 * D') Ar Ai M a b r -> (0 < D' -> (IZR S * IZR S * (18 * u + 6 * eta) <= 1)%R) -> (0 < D' -> (IZR S * IZR (S * S) * (18 * u + 6 * eta) <= 1)%R) -> (0 < D' -> (IZR S * IZR (S * (S * S)) * (18 * u + 6 * eta) <= 1)%R) ->
  (forall d, 0 <= d < D' -> T2 (4 * d)%Z (4 * d + 1)%Z) -> (forall d, 0 <= d < D' -> T3 (4 * d)%Z (4 * d + 1)%Z (4 * d + 2)%Z) -> (forall d, 0 <= d < D' -> T4 (4 * d)%Z (4 * d + 1)%Z (4 * d + 2)%Z (4 * d + 3)%Z) ->
  exists Dr Di, f_group4 F n S (4 * D') Ar Ai = Ok (Dr, Di) /\
    fgood (S * (S * (S * S))) D' D' Dr Di (fun d => pr (M (4 * d + 3)) (pr (M (4 * d + 2)) (pr (M (4 * d + 1)) (M (4 * d)))))
      (fun d => a (4 * d + 3)%Z * (a (4 * d + 2)%Z * (a (4 * d + 1)%Z * a (4 * d)%Z)))%R (fun d => a (4 * d + 3)%Z * (a (4 * d + 2)%Z * (a (4 * d + 1)%Z * b (4 * d)%Z)))%R
      (fun d => E4 (4 * d)%Z (4 * d + 1)%Z (4 * d + 2)%Z (4 * d + 3)%Z).
Proof.
  intros H Hsm Hsm3 Hsm4 HT HT3 HT4. unfold f_group4. replace ((4 * D') mod 4) with 0 by (rewrite Z.mul_comm, Z.mod_mul; lia). cbn [Z.eqb assert_ bind].
  replace (4 * D' / 4) with D' by (rewrite Z.mul_comm, Z.div_mul; lia).
  set (M2 := fun d => pr (M (4 * d + 1)) (M (4 * d))). set (a2 := fun d => (a (4 * d + 1)%Z * a (4 * d)%Z)%R). set (b2 := fun d => (a (4 * d + 1)%Z * b (4 * d)%Z)%R).
  set (r2 := fun d => E2 (4 * d)%Z (4 * d + 1)%Z).
  set (M3 := fun d => pr (M (4 * d + 2)) (M2 d)). set (a3 := fun d => (a (4 * d + 2)%Z * a2 d)%R). set (b3 := fun d => (a (4 * d + 2)%Z * b2 d)%R).
  set (r3 := fun d => E3 (4 * d)%Z (4 * d + 1)%Z (4 * d + 2)%Z).
  match goal with |- context [for_ 0 D' ?body ?s0] =>
    destruct (for_inv body (fun i '(Br, Bi, Cr, Ci, Dr, Di) => fgood (S * S) D' i Br Bi M2 a2 b2 r2 /\ fgood (S * (S * S)) D' i Cr Ci M3 a3 b3 r3 /\
      fgood (S * (S * (S * S))) D' i Dr Di (fun d => pr (M (4 * d + 3)) (M3 d)) (fun d => a (4 * d + 3)%Z * a3 d)%R (fun d => a (4 * d + 3)%Z * b3 d)%R (fun d => E4 (4 * d)%Z (4 * d + 1)%Z (4 * d + 2)%Z (4 * d + 3)%Z)) 0 D' s0 HD) as ([[[[[Br Bi] Cr] Ci] Dr] Di] & E & HB & HC' & HE) end.
  - assert (0 <= S * S) by nia. assert (0 <= S * (S * S)) by nia. split; [|split]; apply fgood_new; nia.
  - intros i [[[[[Br Bi] Cr] Ci] Dr] Di] Hi (HB & HC' & HE). destruct (fgood_get S (4 * D') (4 * D') Ar Ai M a b r (4 * i + 1) H ltac:(lia) ltac:(lia)) as (P1 & G1 & G2 & H1).
    destruct (fgood_get S (4 * D') (4 * D') Ar Ai M a b r (4 * i) H ltac:(lia) ltac:(lia)) as (P2 & G3 & G4 & H2).
    destruct (fgood_get S (4 * D') (4 * D') Ar Ai M a b r (4 * i + 2) H ltac:(lia) ltac:(lia)) as (P3 & G5 & G6 & H3).
    destruct (fgood_get S (4 * D') (4 * D') Ar Ai M a b r (4 * i + 3) H ltac:(lia) ltac:(lia)) as (P5 & G9 & G10 & H5).
    destruct (fmm_good S S D' Ar Ai (4 * i + 1) Ar Ai (4 * i) P1 P2 _ _ _ _ _ _ _ _ i Br Bi _ _ _ _ HS HS G1 G2 H1 G3 G4 H2 HB Hi (Hsm ltac:(lia)) (HT i Hi)) as (Br' & Bi' & E & HB'); auto.
    rewrite E. cbn [bind]. destruct (fgood_get _ _ _ _ _ _ _ _ _ i HB' ltac:(lia) ltac:(lia)) as (P4 & G7 & G8 & H4).
    assert (HSS : 0 <= S * S) by nia.
    destruct (fmm_good S (S * S) D' Ar Ai (4 * i + 2) Br' Bi' i P3 P4 _ _ _ _ _ _ _ _ i Cr Ci _ _ _ _ HS HSS G5 G6 H3 G7 G8 H4 HC' Hi (Hsm3 ltac:(lia)) (HT3 i Hi)) as (Cr' & Ci' & E' & HC''); auto.
    rewrite E'. cbn [bind]. destruct (fgood_get _ _ _ _ _ _ _ _ _ i HC'' ltac:(lia) ltac:(lia)) as (P6 & G11 & G12 & H6).
    destruct (fmm_good S (S * (S * S)) D' Ar Ai (4 * i + 3) Cr' Ci' i P5 P6 _ _ _ _ _ _ _ _ i Dr Di _ _ _ _ HS ltac:(nia) G9 G10 H5 G11 G12 H6 HE Hi (Hsm4 ltac:(lia)) (HT4 i Hi)) as (Dr' & Di' & E'' & HE'); auto.
    rewrite E''. eexists. split; [reflexivity|]. split; auto.
  - rewrite E. exists Dr, Di. auto.
Qed.
End Rep.
