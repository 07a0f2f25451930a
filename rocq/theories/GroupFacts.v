(** The grouped linear transforms: products of consecutive matrices, their rows and the chain of their products. *)
From Coq Require Import ZArith List Bool Lia Reals Lra Ring.
From Verif Require Import Base BaseFacts GSum Matrix MatrixFacts MatMulFacts DFT DFTTheory DFTFacts FFTFacts SpecMat Properties_Mat SpecDFT SpecEnc SlotFacts
  Properties_Plain SpecLin LinTrans LinSlots.
Import ListNotations.
Open Scope Z_scope.
Add Ring RCgf : HR.

Lemma rsum_nonneg' k (f : Z -> R) : (forall t, 0 <= t < k -> (0 <= f t)%R) -> (0 <= gsum (K := Rops) k f)%R.
Proof. intros H. destruct (Z.le_gt_cases k 0); [rewrite gsum_0 by auto; apply Rle_refl|]. apply rsum_nonneg; auto; lia. Qed.
Lemma rsum_member k (f : Z -> R) t : (forall t, 0 <= t < k -> (0 <= f t)%R) -> 0 <= t < k -> (f t <= gsum (K := Rops) k f)%R.
Proof.
  intros H Ht. rewrite <- (gsum_delta Rlawful k t f Ht). apply rsum_le; [lia|]. intros i Hi. destruct (i =? t); [apply Rle_refl|]. apply (H i Hi).
Qed.
Lemma rc_zero_dec (x : RC) : {x = 0%num} + {x <> 0%num}.
Proof.
  destruct x as [a b]. destruct (Req_EM_T a 0) as [->|]; [destruct (Req_EM_T b 0) as [->|]|]; [left; reflexivity|right|right]; intros E; inversion E; auto.
Qed.
(** at most one term that is not zero *)
Lemma modulus_single k (f : Z -> CC) : 0 <= k -> (forall s t, 0 <= s < k -> 0 <= t < k -> s <> t -> f s = 0%num \/ f t = 0%num) ->
  modulus (gsum k f) = gsum (K := Rops) k (fun t => modulus (f t)).
Proof.
  intros Hk H. apply (GSum.gsum_ind k (fun k => modulus (gsum k f) = gsum (K := Rops) k (fun t => modulus (f t)))); [rewrite !gsum_0 by lia; apply modulus_0| |lia].
  intros m Hm IH. rewrite !gsum_S by lia. destruct (rc_zero_dec (f m)) as [E|E].
  - rewrite E. rewrite modulus_0. cbn [oadd Rops]. rewrite Rplus_0_r, <- IH. apply f_equal. ring.
  - assert (Z0 : forall t, 0 <= t < m -> f t = 0%num) by (intros t Ht; destruct (H t m) as [?|?]; auto; try lia; contradiction).
    rewrite (gsum_zero HC m f Z0). rewrite (gsum_zero Rlawful m). 2:{ intros t Ht. rewrite Z0 by auto. apply modulus_0. }
    cbn [oadd Rops o0]. rewrite Rplus_0_l. apply f_equal. ring.
Qed.

Section Rows.
Context (n : Z) (Hn : 0 < n).
Definition rows (M : Z -> Z -> CC) (a : R) : Prop := forall i, 0 <= i < n -> (gsum (K := Rops) n (fun j => modulus (M i j)) <= a)%R.

Lemma rows_diag S (v : Z -> Z -> R) o i : 0 <= i < n -> gsum (K := Rops) n (fun j => matrix_of (K := Rops) n S v o i j) = gsum (K := Rops) S (fun t => v t i).
Proof.
  intros Hi. pose proof (dense_apply Rlawful n S v o (fun _ => 1%R) i Hn Hi) as E.
  rewrite (gsum_ext n _ (fun j => (dense (K := Rops) n S v o i j * 1)%num)). 2:{ intros j Hj. cbn. rewrite Rmult_1_r. reflexivity. }
  etransitivity; [exact E|]. apply gsum_ext. intros. cbn. apply Rmult_1_r.
Qed.
Lemma rows_of S A o a : 0 <= S -> (forall i, 0 <= i < n -> (gsum (K := Rops) S (fun t => modulus (A t i)) <= a)%R) -> rows (matrix_of n S A o) a.
Proof.
  intros HS H i Hi. eapply Rle_trans; [|apply (H i Hi)]. rewrite <- (rows_diag S (fun t i => modulus (A t i)) o i Hi). apply rsum_le; [lia|].
  intros j Hj. unfold matrix_of. apply modulus_rsum; auto. intros t Ht. destruct (_ =? 0); [apply Rle_refl|rewrite modulus_0; apply Rle_refl].
Qed.
Lemma of_rows S A o z a : 0 <= S -> offsets_in n S o -> distinct_live S o z -> (forall t j, 0 <= t < S -> 0 <= j < n -> z t = true -> A t j = 0%num) ->
  rows (matrix_of n S A o) a -> forall i, 0 <= i < n -> (gsum (K := Rops) S (fun t => modulus (A t i)) <= a)%R.
Proof.
  intros HS Ho Hd Hz H i Hi. eapply Rle_trans; [|apply (H i Hi)]. rewrite <- (rows_diag S (fun t i => modulus (A t i)) o i Hi). apply rsum_le; [lia|].
  intros j Hj. apply Req_le. unfold matrix_of. rewrite modulus_single; auto.
  - apply (gsum_ext (K := Rops)). intros t Ht. destruct (_ =? 0); [reflexivity|rewrite modulus_0; reflexivity].
  - intros s t Hs Ht Hne. destruct (Z.eqb_spec ((j - i - o s) mod n) 0) as [E1|]; [|left; reflexivity].
    destruct (Z.eqb_spec ((j - i - o t) mod n) 0) as [E2|]; [|right; reflexivity].
    destruct (z s) eqn:Es; [left; auto|]. destruct (z t) eqn:Et; [right; auto|]. exfalso. apply Hne. apply Hd; auto.
    pose proof (Ho s Hs). pose proof (Ho t Ht). apply Z.mod_divide in E1; [|lia]. apply Z.mod_divide in E2; [|lia].
    destruct E1 as [u Hu], E2 as [w Hw]. assert (o s - o t = (w - u) * n) by lia.
    assert (w - u = 0) by (destruct (Z.lt_trichotomy (w - u) 0) as [?|[?|?]]; nia). nia.
Qed.
Lemma entry_of S (A : Z -> Z -> CC) o z t i : 0 <= S -> offsets_in n S o -> distinct_live S o z -> (forall t j, 0 <= t < S -> 0 <= j < n -> z t = true -> A t j = 0%num) ->
  0 <= t < S -> 0 <= i < n -> z t = false -> matrix_of n S A o i ((i + o t) mod n) = A t i.
Proof.
  intros HS Ho Hd Hz Ht Hi Et. unfold matrix_of. rewrite <- (gsum_delta HC S t (fun t => A t i) Ht). apply gsum_ext. intros u Hu.
  destruct (Z.eqb_spec u t) as [->|Hne].
  - replace (((i + o t) mod n - i - o t) mod n) with 0; [reflexivity|]. rewrite (Z.mod_eq (i + o t) n) by lia. replace (i + o t - n * ((i + o t) / n) - i - o t) with (- ((i + o t) / n) * n) by ring. rewrite Z.mod_mul; lia.
  - destruct (Z.eqb_spec (((i + o t) mod n - i - o u) mod n) 0) as [E|]; [|reflexivity]. destruct (z u) eqn:Eu; [auto|]. exfalso. apply Hne. apply Hd; auto.
    pose proof (Ho u Hu). pose proof (Ho t Ht). apply Z.mod_divide in E; [|lia]. destruct E as [k Hk]. rewrite (Z.mod_eq (i + o t) n) in Hk by lia.
    set (q := (i + o t) / n) in *. assert (o t - o u = (k + q) * n) by lia. assert (k + q = 0) by (destruct (Z.lt_trichotomy (k + q) 0) as [?|[?|?]]; nia). nia.
Qed.
Lemma modulus_one k (f : Z -> CC) b : (0 <= b)%R -> (forall s t, 0 <= s < k -> 0 <= t < k -> s <> t -> f s = 0%num \/ f t = 0%num) -> (forall t, 0 <= t < k -> (modulus (f t) <= b)%R) ->
  (modulus (gsum k f) <= b)%R.
Proof.
  intros Hb H HB. destruct (Z.le_gt_cases k 0); [rewrite gsum_0 by auto; rewrite modulus_0; auto|].
  apply (GSum.gsum_ind k (fun k => (modulus (gsum k f) <= b)%R)); [rewrite gsum_0 by lia; rewrite modulus_0; auto| |lia].
  intros m Hm IH. rewrite gsum_S by lia. destruct (rc_zero_dec (f m)) as [E|E].
  - rewrite E. replace (gsum m f + 0)%num with (gsum m f) by ring. exact IH.
  - rewrite (gsum_zero HC m f). 2:{ intros t Ht. destruct (H t m) as [?|?]; auto; try lia; contradiction. }
    replace (0 + f m)%num with (f m) by ring. apply HB. lia.
Qed.
Lemma of_entries S (A : Z -> Z -> CC) o z b i j : (0 <= b)%R -> offsets_in n S o -> distinct_live S o z -> (forall t j, 0 <= t < S -> 0 <= j < n -> z t = true -> A t j = 0%num) ->
  (forall t i, 0 <= t < S -> 0 <= i < n -> (modulus (A t i) <= b)%R) -> 0 <= i < n -> 0 <= j < n -> (modulus (matrix_of n S A o i j) <= b)%R.
Proof.
  intros Hb Ho Hd Hz HB Hi Hj. unfold matrix_of. apply modulus_one; auto.
  - intros s t Hs Ht Hne. destruct (Z.eqb_spec ((j - i - o s) mod n) 0) as [E1|]; [|left; reflexivity].
    destruct (Z.eqb_spec ((j - i - o t) mod n) 0) as [E2|]; [|right; reflexivity].
    destruct (z s) eqn:Es; [left; auto|]. destruct (z t) eqn:Et; [right; auto|]. exfalso. apply Hne. apply Hd; auto.
    pose proof (Ho s Hs). pose proof (Ho t Ht). apply Z.mod_divide in E1; [|lia]. apply Z.mod_divide in E2; [|lia].
    destruct E1 as [u Hu], E2 as [w Hw]. assert (o s - o t = (w - u) * n) by lia.
    assert (w - u = 0) by (destruct (Z.lt_trichotomy (w - u) 0) as [?|[?|?]]; nia). nia.
  - intros t Ht. destruct (_ =? 0); [auto|rewrite modulus_0; auto].
Qed.
Lemma entry_product A B a b i j : rows A a -> (forall k j, 0 <= k < n -> 0 <= j < n -> (modulus (B k j) <= b)%R) -> (0 <= b)%R -> 0 <= i < n -> 0 <= j < n -> (modulus (product n A B i j) <= a * b)%R.
Proof.
  intros HA HB Hb Hi Hj. unfold product. eapply Rle_trans; [apply (modulus_rsum n _ (fun k => b * modulus (A i k) + 0)%R); [lia|]|].
  - intros k Hk. rewrite modulus_mul, Rplus_0_r, Rmult_comm. apply Rmult_le_compat_r; [apply modulus_nonneg|auto].
  - rewrite rsum_lin by lia. rewrite Rmult_0_r, Rplus_0_r, Rmult_comm. apply Rmult_le_compat_r; auto.
Qed.
Lemma rows_nonneg M a : rows M a -> (0 <= a)%R.
Proof. intros H. eapply Rle_trans; [|apply (H 0 ltac:(lia))]. apply rsum_nonneg'. intros. apply modulus_nonneg. Qed.
Lemma rows_product A B a b : rows A a -> rows B b -> rows (product n A B) (a * b).
Proof.
  intros HA HB i Hi. pose proof (rows_nonneg B b HB) as Hb0. unfold product.
  eapply Rle_trans; [apply (rsum_le n _ (fun j => gsum (K := Rops) n (fun k => modulus (A i k) * modulus (B k j)))%R); [lia|]|].
  - intros j Hj. apply modulus_rsum; [lia|]. intros k Hk. rewrite modulus_mul. apply Rle_refl.
  - rewrite (gsum_swap Rlawful). eapply Rle_trans; [apply (rsum_le n _ (fun k => b * modulus (A i k) + 0)%R); [lia|]|].
    + intros k Hk. pose proof (gsum_scale Rlawful n (modulus (A i k)) (fun j => modulus (B k j))) as E. cbn [omul Rops car] in E. rewrite E.
      rewrite Rplus_0_r, Rmult_comm. apply Rmult_le_compat_r; [apply modulus_nonneg|]. apply HB; auto.
    + rewrite rsum_lin by lia. rewrite Rmult_0_r, Rplus_0_r, Rmult_comm. apply Rmult_le_compat_r; auto.
Qed.
Lemma rows_ext M M' a : (forall i j, 0 <= i < n -> 0 <= j < n -> M i j = M' i j) -> rows M a -> rows M' a.
Proof. intros E H i Hi. rewrite <- (gsum_ext (K := Rops) n (fun j => modulus (M i j))); [apply H; auto|]. intros j Hj. rewrite E by auto. reflexivity. Qed.

Lemma apply_product (A B : Z -> Z -> CC) x i : apply n (product n A B) x i = apply n A (apply n B x) i.
Proof.
  unfold apply, product.
  rewrite (gsum_ext n _ (fun j => gsum n (fun k => (A i k * (B k j * x j))%num))).
  2:{ intros j Hj. rewrite <- (gsum_scale_r HC). apply gsum_ext. intros. ring. }
  rewrite (gsum_swap HC). apply gsum_ext. intros k Hk. rewrite (gsum_scale HC). reflexivity.
Qed.
Lemma apply_ext (A B : Z -> Z -> CC) x y i : 0 <= i < n -> (forall i j, 0 <= i < n -> 0 <= j < n -> A i j = B i j) -> (forall j, 0 <= j < n -> x j = y j) ->
  apply n A x i = apply n B y i.
Proof. intros Hi H1 H2. unfold apply. apply gsum_ext. intros j Hj. rewrite H1, H2 by auto. reflexivity. Qed.
Lemma chain_ext M M' d x y : (forall k i j, (k < d)%nat -> 0 <= i < n -> 0 <= j < n -> M k i j = M' k i j) -> (forall j, 0 <= j < n -> x j = y j) ->
  forall j, 0 <= j < n -> chain n M d x j = chain n M' d y j.
Proof. induction d; intros H1 H2 j Hj; cbn [chain]; auto. apply apply_ext; auto. Qed.
End Rows.

(** a pair of objects that represents the matrix [M], with sums of moduli in the rows of the diagonals at most [a] and entries at most [b] *)
Section Rep.
Context (n : Z) (Hn : 0 < n <= 2 ^ 30).
Definition mrep (S : Z) (P : sd Rops * sd Rops) (M : Z -> Z -> CC) (a b : R) : Prop :=
  exists (A : Z -> Z -> CC) o zr zi,
    P = (diagonals n S (fun t j => cre Rops (A t j)) o zr, diagonals n S (fun t j => cim Rops (A t j)) o zi) /\
    flags_right (K := Rops) n S (fun t j => cre Rops (A t j)) (fun t j => cim Rops (A t j)) o o zr zi /\
    (forall i j, 0 <= i < n -> 0 <= j < n -> matrix_of n S A o i j = M i j) /\
    (forall i, 0 <= i < n -> (gsum (K := Rops) S (fun t => modulus (A t i)) <= a)%R) /\
    (0 <= b)%R /\ (forall t i, 0 <= t < S -> 0 <= i < n -> (modulus (A t i) <= b)%R) /\ (forall i j, 0 <= i < n -> 0 <= j < n -> (modulus (M i j) <= b)%R).

Lemma cmat_of S (A : Z -> Z -> CC) o i j :
  cmat (K := Rops) (matrix_of (K := Rops) n S (fun t j => cre Rops (A t j)) o) (matrix_of (K := Rops) n S (fun t j => cim Rops (A t j)) o) i j = matrix_of n S A o i j.
Proof.
  unfold cmat, matrix_of. rewrite (gsum_c (K := Rops)) by exact Rlawful. f_equal; apply gsum_ext; intros t Ht; destruct (_ =? 0); reflexivity.
Qed.
Lemma mrep_rows S (A : Z -> Z -> CC) o zr zi a : 0 <= S ->
  flags_right (K := Rops) n S (fun t j => cre Rops (A t j)) (fun t j => cim Rops (A t j)) o o zr zi -> (forall i, 0 <= i < n -> (gsum (K := Rops) S (fun t => modulus (A t i)) <= a)%R) ->
  mrep S (diagonals n S (fun t j => cre Rops (A t j)) o zr, diagonals n S (fun t j => cim Rops (A t j)) o zi) (matrix_of n S A o) a a.
Proof.
  intros HS F H. assert (HR : rows n (matrix_of n S A o) a) by (apply rows_of; auto; lia). exists A, o, zr, zi. split; [reflexivity|]. split; [auto|]. split; [auto|]. split; [auto|].
  split; [apply (rows_nonneg n ltac:(lia) _ _ HR)|]. split.
  - intros t i Ht Hi. eapply Rle_trans; [|apply (H i Hi)]. apply (rsum_member S (fun t => modulus (A t i))); auto. intros. apply modulus_nonneg.
  - intros i j Hi Hj. eapply Rle_trans; [|apply (HR i Hi)]. apply (rsum_member n (fun j => modulus (matrix_of n S A o i j))); auto. intros. apply modulus_nonneg.
Qed.
Lemma shape_new S : 0 <= S -> shape n S (sd_new Rops n S).
Proof.
  intros HS. unfold shape, sd_new, cells, gfresh. cbn [vec off zro]. rewrite !repeat_length. split; [auto|split; [|auto]].
  apply Forall_forall. intros x Hx. apply repeat_spec in Hx. subst x. apply repeat_length.
Qed.
Lemma mm_rep S1 S2 P1 P2 M1 M2 a1 a2 b1 b2 Cr Ci : 0 <= S1 -> 0 <= S2 -> mrep S1 P1 M1 a1 b1 -> mrep S2 P2 M2 a2 b2 -> shape n (S1 * S2) Cr -> shape n (S1 * S2) Ci ->
  exists Q, matmul2 (K := Rops) n S1 S2 (fst P1) (snd P1) (fst P2) (snd P2) Cr Ci = Ok Q /\ mrep (S1 * S2) Q (product n M1 M2) (a1 * a2) (a1 * b2).
Proof.
  intros HS1 HS2 (A & o & zr & zi & -> & F1 & E1 & B1 & _ & _ & _) (A' & o' & zr' & zi' & -> & F2 & E2 & B2 & Hb0 & _ & Hb2) HC1 HC2. cbn [fst snd].
  destruct (C48_matmul_complex Rlawful n S1 S2 _ _ _ _ _ _ _ _ _ _ _ _ Cr Ci Hn HS1 HS2 F1 F2 HC1 HC2) as (vr & vi & oo & z & E & F & Ho & Hd & HM).
  rewrite E. eexists. split; [reflexivity|]. exists (fun t j => mk Rops (vr t j) (vi t j)), oo, z, z.
  assert (EM : forall i j, 0 <= i < n -> 0 <= j < n -> matrix_of n (S1 * S2) (fun t j => mk Rops (vr t j) (vi t j)) oo i j = product n M1 M2 i j).
  { intros i j Hi Hj. rewrite <- cmat_of. etransitivity; [exact (HM i j Hi Hj)|]. unfold product. apply gsum_ext. intros k Hk. rewrite !cmat_of.
    rewrite (E1 i k Hi Hk), (E2 k j Hk Hj). reflexivity. }
  assert (HS12 : 0 <= S1 * S2) by nia.
  assert (Hz : forall t j, 0 <= t < S1 * S2 -> 0 <= j < n -> z t = true -> mk Rops (vr t j) (vi t j) = 0%num).
  { intros t j Ht Hj Ez. specialize (F t Ht). rewrite Ez in F. cbn [andb] in F. destruct (F j Hj) as [-> ->]. reflexivity. }
  assert (R1 : rows n M1 a1) by (apply (rows_ext n (matrix_of n S1 A o)); auto; apply rows_of; auto; lia).
  pose proof (rows_nonneg n ltac:(lia) M1 a1 R1) as Ha1.
  split; [reflexivity|]. split; [exact F|]. split; [exact EM|]. split; [|split; [|split]].
  2:{ apply Rmult_le_pos; auto. }
  2:{ intros t i Ht Hi. destruct (z t) eqn:Et; [rewrite Hz by auto; rewrite modulus_0; apply Rmult_le_pos; auto|].
    rewrite <- (entry_of n ltac:(lia) (S1 * S2) (fun t j => mk Rops (vr t j) (vi t j)) oo z t i HS12 Ho Hd Hz Ht Hi Et). pose proof (Z.mod_pos_bound (i + oo t) n ltac:(lia)) as Hj. rewrite EM by auto.
    apply entry_product; auto; lia. }
  2:{ intros i j Hi Hj. apply entry_product; auto; lia. }
  apply (of_rows n ltac:(lia) (S1 * S2) _ oo z); auto.
  - apply (rows_ext n (product n M1 M2)); [intros i j Hi Hj; symmetry; auto|]. apply rows_product; [lia| |].
    + apply (rows_ext n (matrix_of n S1 A o)); auto. apply rows_of; auto; lia.
    + apply (rows_ext n (matrix_of n S2 A' o')); auto. apply rows_of; auto; lia.
Qed.

(** an array of [D] pairs of objects, the first [i] of which represent [M 0], [M 1], ... *)
Definition good (S D i : Z) (X Y : list (sd Rops)) (M : Z -> Z -> Z -> CC) (a b : Z -> R) : Prop :=
  exists fr fi, X = tab D fr /\ Y = tab D fi /\
    forall t, 0 <= t < D -> if t <? i then mrep S (fr t, fi t) (M t) (a t) (b t) else shape n S (fr t) /\ shape n S (fi t).
Lemma good_new S D M a b : 0 <= S -> good S D 0 (sd_array n S D) (sd_array n S D) M a b.
Proof.
  intros HS. unfold sd_array. rewrite !repeat_tab. do 2 eexists. split; [reflexivity|]. split; [reflexivity|].
  intros t Ht. destruct (Z.ltb_spec t 0); [lia|]. split; apply shape_new; auto.
Qed.
Lemma good_get S D i X Y M a b t : good S D i X Y M a b -> 0 <= t < i -> t < D ->
  exists P, lget X t = Ok (fst P) /\ lget Y t = Ok (snd P) /\ mrep S P (M t) (a t) (b t).
Proof.
  intros (fr & fi & -> & -> & H) Ht HtD. exists (fr t, fi t). rewrite !lget_tab by lia. specialize (H t ltac:(lia)).
  destruct (Z.ltb_spec t i); [|lia]. auto.
Qed.
Lemma mm_good S1 S2 D Ar Ai p Br Bi q P1 P2 M1 M2 a1 a2 b1 b2 i Cr Ci M a b : 0 <= S1 -> 0 <= S2 ->
  lget Ar p = Ok (fst P1) -> lget Ai p = Ok (snd P1) -> mrep S1 P1 M1 a1 b1 ->
  lget Br q = Ok (fst P2) -> lget Bi q = Ok (snd P2) -> mrep S2 P2 M2 a2 b2 ->
  good (S1 * S2) D i Cr Ci M a b -> 0 <= i < D -> M i = product n M1 M2 -> a i = (a1 * a2)%R -> b i = (a1 * b2)%R ->
  exists Cr' Ci', mm_at n S1 S2 Ar Ai p Br Bi q Cr Ci i = Ok (Cr', Ci') /\ good (S1 * S2) D (i + 1) Cr' Ci' M a b.
Proof.
  intros HS1 HS2 E1 E2 H1 E3 E4 H2 (fr & fi & -> & -> & H) Hi EM Ea Eb. unfold mm_at. rewrite E1, E2, E3, E4. cbn [bind]. rewrite !lget_tab by lia. cbn [bind].
  pose proof (H i Hi) as Hs. destruct (Z.ltb_spec i i); [lia|]. destruct Hs as [Hs1 Hs2].
  destruct (mm_rep S1 S2 P1 P2 M1 M2 a1 a2 b1 b2 (fr i) (fi i)) as ([qr qi] & E & HQ); auto. rewrite E. cbn [bind].
  rewrite !lset_tab by lia. cbn [bind]. do 2 eexists. split; [reflexivity|]. do 2 eexists. split; [reflexivity|]. split; [reflexivity|].
  intros t Ht. specialize (H t Ht). cbv beta. destruct (Z.eqb_spec t i) as [->|].
  - destruct (Z.ltb_spec i (i + 1)); [|lia]. rewrite ?Z.eqb_refl, EM, Ea, Eb. exact HQ.
  - destruct (Z.ltb_spec t i), (Z.ltb_spec t (i + 1)); try lia; auto.
Qed.

Context (S : Z) (HS : 0 <= S) (D' : Z) (HD : 0 <= D') (M : Z -> Z -> Z -> CC) (a b : Z -> R).
Notation pr := (product n).
Lemma group2_good Ar Ai : good S (2 * D') (2 * D') Ar Ai M a b ->
  exists Br Bi, group2 n S (2 * D') Ar Ai = Ok (Br, Bi) /\
    good (S * S) D' D' Br Bi (fun d => pr (M (2 * d + 1)) (M (2 * d))) (fun d => a (2 * d + 1)%Z * a (2 * d)%Z)%R (fun d => a (2 * d + 1)%Z * b (2 * d)%Z)%R.
Proof.
  intros H. unfold group2. replace ((2 * D') mod 2) with 0 by (rewrite Z.mul_comm, Z.mod_mul; lia). cbn [Z.eqb assert_ bind].
  replace (2 * D' / 2) with D' by (rewrite Z.mul_comm, Z.div_mul; lia).
  match goal with |- context [for_ 0 D' ?body ?s0] =>
    destruct (for_inv body (fun i '(Br, Bi) => good (S * S) D' i Br Bi (fun d => pr (M (2 * d + 1)) (M (2 * d))) (fun d => a (2 * d + 1)%Z * a (2 * d)%Z)%R (fun d => a (2 * d + 1)%Z * b (2 * d)%Z)%R) 0 D' s0 HD) as ([Br Bi] & E & HB) end.
  - apply good_new; nia.
  - intros i [Br Bi] Hi HB. destruct (good_get S (2 * D') (2 * D') Ar Ai M a b (2 * i + 1) H ltac:(lia) ltac:(lia)) as (P1 & E1 & E2 & H1).
    destruct (good_get S (2 * D') (2 * D') Ar Ai M a b (2 * i) H ltac:(lia) ltac:(lia)) as (P2 & E3 & E4 & H2).
    destruct (mm_good S S D' Ar Ai (2 * i + 1) Ar Ai (2 * i) P1 P2 _ _ _ _ _ _ i Br Bi _ _ _ HS HS E1 E2 H1 E3 E4 H2 HB Hi) as (Br' & Bi' & E & HB'); auto.
    rewrite E. eexists. split; [reflexivity|]. exact HB'.
  - rewrite E. exists Br, Bi. auto.
Qed.
Lemma group3_good Ar Ai : good S (3 * D') (3 * D') Ar Ai M a b ->
  exists Cr Ci, group3 n S (3 * D') Ar Ai = Ok (Cr, Ci) /\
    good (S * (S * S)) D' D' Cr Ci (fun d => pr (M (3 * d + 2)) (pr (M (3 * d + 1)) (M (3 * d)))) (fun d => a (3 * d + 2)%Z * (a (3 * d + 1)%Z * a (3 * d)%Z))%R (fun d => a (3 * d + 2)%Z * (a (3 * d + 1)%Z * b (3 * d)%Z))%R.
Proof.
  intros H. unfold group3. replace ((3 * D') mod 3) with 0 by (rewrite Z.mul_comm, Z.mod_mul; lia). cbn [Z.eqb assert_ bind].
  replace (3 * D' / 3) with D' by (rewrite Z.mul_comm, Z.div_mul; lia).
  set (M2 := fun d => pr (M (3 * d + 1)) (M (3 * d))). set (a2 := fun d => (a (3 * d + 1)%Z * a (3 * d)%Z)%R). set (b2 := fun d => (a (3 * d + 1)%Z * b (3 * d)%Z)%R).
  match goal with |- context [for_ 0 D' ?body ?s0] =>
    destruct (for_inv body (fun i '(Br, Bi, Cr, Ci) => good (S * S) D' i Br Bi M2 a2 b2 /\ good (S * (S * S)) D' i Cr Ci (fun d => pr (M (3 * d + 2)) (M2 d)) (fun d => a (3 * d + 2)%Z * a2 d)%R (fun d => a (3 * d + 2)%Z * b2 d)%R) 0 D' s0 HD) as ([[[Br Bi] Cr] Ci] & E & HB & HC') end.
  - split; apply good_new; nia.
  - intros i [[[Br Bi] Cr] Ci] Hi [HB HC']. destruct (good_get S (3 * D') (3 * D') Ar Ai M a b (3 * i + 1) H ltac:(lia) ltac:(lia)) as (P1 & E1 & E2 & H1).
    destruct (good_get S (3 * D') (3 * D') Ar Ai M a b (3 * i) H ltac:(lia) ltac:(lia)) as (P2 & E3 & E4 & H2).
    destruct (good_get S (3 * D') (3 * D') Ar Ai M a b (3 * i + 2) H ltac:(lia) ltac:(lia)) as (P3 & E5 & E6 & H3).
    destruct (mm_good S S D' Ar Ai (3 * i + 1) Ar Ai (3 * i) P1 P2 _ _ _ _ _ _ i Br Bi _ _ _ HS HS E1 E2 H1 E3 E4 H2 HB Hi) as (Br' & Bi' & E & HB'); auto.
    rewrite E. cbn [bind]. destruct (good_get _ _ _ _ _ _ _ _ i HB' ltac:(lia) ltac:(lia)) as (P4 & E7 & E8 & H4).
    destruct (mm_good S (S * S) D' Ar Ai (3 * i + 2) Br' Bi' i P3 P4 _ _ _ _ _ _ i Cr Ci _ _ _ HS ltac:(nia) E5 E6 H3 E7 E8 H4 HC' Hi) as (Cr' & Ci' & E' & HC''); auto.
    rewrite E'. eexists. split; [reflexivity|]. split; auto.
  - rewrite E. exists Cr, Ci. auto.
Qed.
Lemma group4_good Ar Ai : good S (4 * D') (4 * D') Ar Ai M a b ->
  exists Dr Di, group4 n S (4 * D') Ar Ai = Ok (Dr, Di) /\
    good (S * (S * (S * S))) D' D' Dr Di (fun d => pr (M (4 * d + 3)) (pr (M (4 * d + 2)) (pr (M (4 * d + 1)) (M (4 * d)))))
      (fun d => a (4 * d + 3)%Z * (a (4 * d + 2)%Z * (a (4 * d + 1)%Z * a (4 * d)%Z)))%R (fun d => a (4 * d + 3)%Z * (a (4 * d + 2)%Z * (a (4 * d + 1)%Z * b (4 * d)%Z)))%R.
Proof.
  intros H. unfold group4. replace ((4 * D') mod 4) with 0 by (rewrite Z.mul_comm, Z.mod_mul; lia). cbn [Z.eqb assert_ bind].
  replace (4 * D' / 4) with D' by (rewrite Z.mul_comm, Z.div_mul; lia).
  set (M2 := fun d => pr (M (4 * d + 1)) (M (4 * d))). set (a2 := fun d => (a (4 * d + 1)%Z * a (4 * d)%Z)%R). set (b2 := fun d => (a (4 * d + 1)%Z * b (4 * d)%Z)%R).
  set (M3 := fun d => pr (M (4 * d + 2)) (M2 d)). set (a3 := fun d => (a (4 * d + 2)%Z * a2 d)%R). set (b3 := fun d => (a (4 * d + 2)%Z * b2 d)%R).
  match goal with |- context [for_ 0 D' ?body ?s0] =>
    destruct (for_inv body (fun i '(Br, Bi, Cr, Ci, Dr, Di) => good (S * S) D' i Br Bi M2 a2 b2 /\ good (S * (S * S)) D' i Cr Ci M3 a3 b3 /\
      good (S * (S * (S * S))) D' i Dr Di (fun d => pr (M (4 * d + 3)) (M3 d)) (fun d => a (4 * d + 3)%Z * a3 d)%R (fun d => a (4 * d + 3)%Z * b3 d)%R) 0 D' s0 HD) as ([[[[[Br Bi] Cr] Ci] Dr] Di] & E & HB & HC' & HE) end.
  - assert (0 <= S * S) by nia. assert (0 <= S * (S * S)) by nia. split; [|split]; apply good_new; nia.
  - intros i [[[[[Br Bi] Cr] Ci] Dr] Di] Hi (HB & HC' & HE). destruct (good_get S (4 * D') (4 * D') Ar Ai M a b (4 * i + 1) H ltac:(lia) ltac:(lia)) as (P1 & E1 & E2 & H1).
    destruct (good_get S (4 * D') (4 * D') Ar Ai M a b (4 * i) H ltac:(lia) ltac:(lia)) as (P2 & E3 & E4 & H2).
    destruct (good_get S (4 * D') (4 * D') Ar Ai M a b (4 * i + 2) H ltac:(lia) ltac:(lia)) as (P3 & E5 & E6 & H3).
    destruct (good_get S (4 * D') (4 * D') Ar Ai M a b (4 * i + 3) H ltac:(lia) ltac:(lia)) as (P5 & E9 & E10 & H5).
    destruct (mm_good S S D' Ar Ai (4 * i + 1) Ar Ai (4 * i) P1 P2 _ _ _ _ _ _ i Br Bi _ _ _ HS HS E1 E2 H1 E3 E4 H2 HB Hi) as (Br' & Bi' & E & HB'); auto.
    rewrite E. cbn [bind]. destruct (good_get _ _ _ _ _ _ _ _ i HB' ltac:(lia) ltac:(lia)) as (P4 & E7 & E8 & H4).
    assert (HSS : 0 <= S * S) by nia.
    destruct (mm_good S (S * S) D' Ar Ai (4 * i + 2) Br' Bi' i P3 P4 _ _ _ _ _ _ i Cr Ci _ _ _ HS HSS E5 E6 H3 E7 E8 H4 HC' Hi) as (Cr' & Ci' & E' & HC''); auto.
    rewrite E'. cbn [bind]. destruct (good_get _ _ _ _ _ _ _ _ i HC'' ltac:(lia) ltac:(lia)) as (P6 & E11 & E12 & H6).
    destruct (mm_good S (S * (S * S)) D' Ar Ai (4 * i + 3) Cr' Ci' i P5 P6 _ _ _ _ _ _ i Dr Di _ _ _ HS ltac:(nia) E9 E10 H5 E11 E12 H6 HE Hi) as (Dr' & Di' & E'' & HE'); auto.
    rewrite E''. eexists. split; [reflexivity|]. split; auto.
  - rewrite E. exists Dr, Di. auto.
Qed.
End Rep.
