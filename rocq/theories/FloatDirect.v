(** The quadratic transforms of DFT.h:10-36 in floating-point arithmetic. *)
From Coq Require Import ZArith List Bool Lia Reals Lra Ring.
From Verif Require Import Base BaseFacts GSum Matrix MatrixFacts MatMulFacts DFT DFTTheory DFTFacts FFTFacts SpecMat Properties_Mat Properties_Msg SpecDFT SpecEnc SlotFacts
  Properties_Plain SpecLin LinTrans LinSlots Properties_DFT SupFacts.
From Verif Require Import Float SpecFloat FloatFacts FloatError.
From Verif Require Import FloatDot FloatMsg SpecFloatMsg FloatMsgFacts.
Import ListNotations.
Open Scope Z_scope.
Add Ring RCfdir : HR.

Section Direct.
Context (F : fpu) (n : Z) (Hn : 0 < n <= 2 ^ 26).
Let N := 2 * n.
Let Eh : N / 2 = n.
Proof. unfold N; rewrite Z.mul_comm; apply Z.div_mul; lia. Qed.
Let HN : 0 < N <= 2 ^ 27.
Proof. unfold N; lia. Qed.

(** ** what is computed *)
Definition dft_step (tr : Z -> R) (m : Z -> R) (j k : Z) (c : R) : R := rnd F (c + rnd F (m k * tr ((5 ^ j * k) mod (2 * N))%Z)).
Definition dft_out (m : Z -> R) (j : Z) : RC := mk Rops (steps (dft_step (f_cos F N) m j) N 0%R) (steps (dft_step (f_sin F N) m j) N 0%R).
Lemma f_dft_ok (m : Z -> R) a b : f_dft F N (gtab N m) (tab n a) (tab n b) = Ok (cvtab (K := Rops) n (dft_out m)).
Proof.
  unfold f_dft. rewrite Eh. pose (z := dft_out m).
  rewrite (for_closed _ (fun i => (tab n (fun j => if j <? i then Some (cre Rops (z j)) else a j),
      tab n (fun j => if j <? i then Some (cim Rops (z j)) else b j), 5 ^ i mod (2 * N))) _ _ _
      (gtab n (fun j => cre Rops (z j)), gtab n (fun j => cim Rops (z j)), 5 ^ n mod (2 * N))).
  - reflexivity.
  - lia.
  - rewrite (Z.mod_small (5 ^ 0)) by (change (5 ^ 0) with 1; unfold N; lia). change (5 ^ 0) with 1. apply f_equal2; [|reflexivity]. apply f_equal2;
      apply tab_ext; intros j Hj; destruct (Z.ltb_spec j 0); auto; lia.
  - apply f_equal2; [|reflexivity]. apply f_equal2; unfold gtab; apply tab_ext; intros j Hj; destruct (Z.ltb_spec j n); auto; lia.
  - intros i Hi. rewrite gwr_tab by lia. cbn [bind]. rewrite gwr_tab by lia. cbn [bind].
    set (ra := fun j => if j =? i then Some 0%R else if j <? i then Some (cre Rops (z j)) else a j).
    set (rb := fun j => if j =? i then Some 0%R else if j <? i then Some (cim Rops (z j)) else b j).
    pose (w1 := fun k => steps (dft_step (f_cos F N) m i) k 0%R). pose (w2 := fun k => steps (dft_step (f_sin F N) m i) k 0%R).
    rewrite (for_closed _ (fun k => (tab n (fun j => if j =? i then Some (w1 k) else ra j),
        tab n (fun j => if j =? i then Some (w2 k) else rb j), (5 ^ i * k) mod (2 * N))) _ _ _
        (tab n (fun j => if j =? i then Some (w1 N) else ra j), tab n (fun j => if j =? i then Some (w2 N) else rb j), (5 ^ i * N) mod (2 * N))).
    + cbn [bind]. pose proof (Z.mod_pos_bound (5 ^ i) (2 * N) ltac:(lia)).
      rewrite int_in by (unfold in_int; lia). cbn [bind]. rewrite int_in by (unfold in_int; lia). cbn [bind].
      rewrite imod_ok by (unfold in_int; lia). cbn [bind]. rewrite Z.rem_mod_nonneg by lia. rewrite Z.mul_mod_idemp_l by lia.
      replace (5 ^ i * 5) with (5 ^ (i + 1)) by (rewrite Z.pow_add_r; lia). apply f_equal. apply f_equal2; [|reflexivity].
      apply f_equal2; apply tab_ext; intros j Hj; unfold ra, rb; destruct (Z.eqb_spec j i), (Z.ltb_spec j i), (Z.ltb_spec j (i + 1)); try subst j; auto; lia.
    + lia.
    + apply f_equal2; [apply f_equal2|]; [| |rewrite Z.mul_0_r, Z.mod_0_l; lia];
        apply tab_ext; intros j Hj; unfold ra, rb; destruct (Z.eqb_spec j i); auto.
    + reflexivity.
    + intros k Hk.
      unfold grd at 1. rewrite lget_tab by lia. cbn [bind]. rewrite Z.eqb_refl. cbn [bind].
      rewrite grd_gtab by lia. cbn [bind]. rewrite gwr_tab by lia. cbn [bind].
      unfold grd at 1. rewrite lget_tab by lia. cbn [bind]. rewrite Z.eqb_refl. cbn [bind].
      rewrite gwr_tab by lia. cbn [bind].
      pose proof (Z.mod_pos_bound (5 ^ i) (2 * N) ltac:(lia)). pose proof (Z.mod_pos_bound (5 ^ i * k) (2 * N) ltac:(lia)).
      rewrite int_in by (unfold in_int; lia). cbn [bind]. rewrite int_in by (unfold in_int; lia). cbn [bind].
      rewrite imod_ok by (unfold in_int; lia). cbn [bind]. rewrite Z.rem_mod_nonneg by lia. rewrite <- Z.add_mod by lia.
      replace (5 ^ i * k + 5 ^ i) with (5 ^ i * (k + 1)) by lia.
      unfold w1, w2. rewrite !steps_S by lia. apply f_equal. apply f_equal2; [|reflexivity]. apply f_equal2; apply tab_ext; intros j Hj; destruct (Z.eqb_spec j i); auto.
Qed.

Definition idft_step (y : Z -> RC) (k i : Z) (c : RC) : RC :=
  let co := f_cos F N ((5 ^ i * k) mod (2 * N)) in let si := f_sin F N ((5 ^ i * k) mod (2 * N)) in
  mk Rops (rnd F (fst c + rnd F (rnd F (co * fst (y i)) + rnd F (si * snd (y i)))))%R (rnd F (snd c + rnd F (rnd F (co * snd (y i)) - rnd F (si * fst (y i)))))%R.
Definition idft_out (y : Z -> RC) (k : Z) : RC :=
  let s := steps (idft_step y k) n (0%num : RC) in mk Rops (rnd F (rnd F (2 / IZR N) * fst s))%R (rnd F (rnd F (2 / IZR N) * snd s))%R.
Lemma f_idft_ok (y : Z -> RC) f :
  f_idft F N (gtab n (fun i => cre Rops (y i))) (gtab n (fun i => cim Rops (y i))) (tab N f) = Ok (gtab N (unfold_c n (idft_out y))).
Proof.
  unfold f_idft. rewrite Eh. rewrite (fill_pair n ltac:(lia) _ f (idft_out y)); [reflexivity|].
  intros k g Hk. fold N.
  rewrite (for_closed _ (fun i => (fst (steps (idft_step y k) i (0%num : RC)), snd (steps (idft_step y k) i (0%num : RC)), (5 ^ i * k) mod (2 * N))) _ _ _
        (fst (steps (idft_step y k) n (0%num : RC)), snd (steps (idft_step y k) n (0%num : RC)), (5 ^ n * k) mod (2 * N))).
  + reflexivity.
  + lia.
  + rewrite Z.mul_1_l, Z.mod_small by (unfold N; lia). reflexivity.
  + reflexivity.
  + intros i Hi. rewrite !grd_gtab by auto. cbn [bind].
      pose proof (Z.mod_pos_bound (5 ^ i * k) (2 * N) ltac:(lia)).
      rewrite int_in by (unfold in_int; lia). cbn [bind]. rewrite int_in by (unfold in_int; lia). cbn [bind].
      rewrite imod_ok by (unfold in_int; lia). cbn [bind]. rewrite Z.rem_mod_nonneg by lia. rewrite Z.mul_mod_idemp_l by lia.
      replace (5 ^ i * k * 5) with (5 ^ (i + 1) * k) by (rewrite Z.pow_add_r; lia). rewrite steps_S by lia. reflexivity.
Qed.

(** ** errors *)
Context (u eta top t : R) (ar : arithmetic u eta top t (rnd F) (dpi F) (lcos F) (lsin F)).
Context (Hsmall : (table_error u eta t N <= / 64)%R).
Open Scope R_scope.
Let Hu : 0 <= u <= / 1024 := ar_u _ _ _ _ _ _ _ _ ar.
Let He : 0 <= eta <= / 1024 := ar_eta _ _ _ _ _ _ _ _ ar.
Let Hr : forall x, Rabs x <= top -> Rabs (rnd F x - x) <= u * Rabs x + eta := ar_rnd _ _ _ _ _ _ _ _ ar.

Lemma dft_comp (m : Z -> R) X j (tr tx : Z -> R) : (0 <= j < n)%Z -> IZR N * u <= / 1024 -> gsum (K := Rops) N (fun k => Rabs (m k)) <= X -> 5 * X + IZR N + 1 <= top ->
  (forall k, (0 <= k < 2 * N)%Z -> Rabs (tr k - tx k) <= table_error u eta t N) -> (forall k, Rabs (tx k) <= 1) ->
  Rabs (steps (dft_step tr m j) N 0 - gsum (K := Rops) N (fun k => m k * tx ((5 ^ j * k) mod (2 * N))%Z)) <= IZR N * (34 / 10 * u * X + 22 / 10 * eta) + table_error u eta t N * X.
Proof.
  intros Hj HNu HX Ht Htr Htx. set (tau := table_error u eta t N) in *.
  assert (Htau : 0 <= tau) by (apply (table_pos F u eta top t ar N); lia).
  assert (HX0 : 0 <= X) by (eapply Rle_trans; [|exact HX]; apply gsum_nonneg; intros; apply Rabs_pos).
  set (p := fun k => m k * tr ((5 ^ j * k) mod (2 * N))%Z). set (d := fun k => m k * tx ((5 ^ j * k) mod (2 * N))%Z).
  assert (Hmod : forall k, (0 <= (5 ^ j * k) mod (2 * N) < 2 * N)%Z) by (intros; apply Z.mod_pos_bound; lia).
  assert (Hpd : forall k, Rabs (p k - d k) <= tau * Rabs (m k)).
  { intros k. unfold p, d. rewrite <- Rmult_minus_distr_l, Rabs_mult, Rmult_comm. apply Rmult_le_compat_r; [apply Rabs_pos|]. apply Htr, Hmod. }
  assert (Hdm : forall k, Rabs (d k) <= Rabs (m k)).
  { intros k. unfold d. rewrite Rabs_mult. rewrite <- (Rmult_1_r (Rabs (m k))) at 2. apply Rmult_le_compat_l; [apply Rabs_pos|apply Htx]. }
  assert (Hpm : forall k, Rabs (p k) <= 65 / 64 * Rabs (m k)).
  { intros k. replace (p k) with (d k + (p k - d k)) by ring. pose proof (Rabs_triang (d k) (p k - d k)) as Q. specialize (Hpd k). specialize (Hdm k).
    assert (tau * Rabs (m k) <= / 64 * Rabs (m k)) by (apply Rmult_le_compat_r; [apply Rabs_pos|exact Hsmall]). lra. }
  assert (Hps : gsum (K := Rops) N (fun k => Rabs (p k)) <= 65 / 64 * X).
  { apply Rle_trans with (gsum (K := Rops) N (fun k => 65 / 64 * Rabs (m k))); [apply gsum_le; intros; apply Hpm|].
    pose proof (gsum_scale (K := Rops) Rlawful N (65 / 64) (fun k => Rabs (m k))) as E. change (gsum (K := Rops) N (fun k => 65 / 64 * Rabs (m k)) = 65 / 64 * gsum (K := Rops) N (fun k => Rabs (m k))) in E. rewrite E.
    apply Rmult_le_compat_l; lra. }
  assert (HN0 : 0 <= IZR N) by (apply IZR_le; lia).
  destruct (total_bound u eta Hu He (IZR N) (65 / 64 * X) (31 / 10) (21 / 10) HN0 HNu ltac:(lra) ltac:(lra) ltac:(lra)) as (T1 & T2 & T3).
  set (Y := 101 / 100 * (65 / 64 * X + IZR N * (21 / 10 * eta))) in *.
  assert (Hne : IZR N * eta <= IZR N * / 1024) by (apply Rmult_le_compat_l; lra).
  assert (Hne0 : 0 <= IZR N * eta) by (apply Rmult_le_pos; lra).
  assert (HY : 4 * Y + 1 <= top) by (unfold Y; lra). assert (HuY : 0 <= u * Y) by (apply Rmult_le_pos; lra).
  assert (HuX : 0 <= u * X) by (apply Rmult_le_pos; lra).
  assert (A : Rabs (steps (dft_step tr m j) N 0 - gsum (K := Rops) N p) <= IZR N * (31 / 10 * (u * Y) + 21 / 10 * eta)).
  { apply (acc_real N _ p _ Y ltac:(lia)); [lra|lra|]. intros k c Hk Hc. unfold dft_step. fold (p k).
    apply (prod_acc u eta top (rnd F) Hu He Hr); auto. apply Rle_trans with (65 / 64 * X); [|unfold Y; lra]. eapply Rle_trans; [|exact Hps].
    pose proof (gsum_mono (k + 1) N (fun k => Rabs (p k)) ltac:(lia) ltac:(intros; apply Rabs_pos)) as G. rewrite gsum_S in G by lia.
    pose proof (gsum_nonneg k (fun k => Rabs (p k)) ltac:(intros; apply Rabs_pos)) as G3. eapply Rle_trans; [|exact G].
    change (Rabs (p k) <= gsum (K := Rops) k (fun k => Rabs (p k)) + Rabs (p k)). lra. }
  assert (B : Rabs (gsum (K := Rops) N p - gsum (K := Rops) N d) <= tau * X).
  { pose proof (gsum_sub (K := Rops) Rlawful N p d) as E. change (gsum (K := Rops) N (fun k => p k - d k) = gsum (K := Rops) N p - gsum (K := Rops) N d) in E. rewrite <- E.
    eapply Rle_trans; [apply (gsum_rabs N _ (fun k => tau * Rabs (m k)) ltac:(lia)); intros; apply Hpd|].
    pose proof (gsum_scale (K := Rops) Rlawful N tau (fun k => Rabs (m k))) as E2. change (gsum (K := Rops) N (fun k => tau * Rabs (m k)) = tau * gsum (K := Rops) N (fun k => Rabs (m k))) in E2. rewrite E2.
    apply Rmult_le_compat_l; lra. }
  replace (steps (dft_step tr m j) N 0 - gsum (K := Rops) N d) with ((steps (dft_step tr m j) N 0 - gsum (K := Rops) N p) + (gsum (K := Rops) N p - gsum (K := Rops) N d)) by ring.
  eapply Rle_trans; [apply Rabs_triang|]. apply Rplus_le_compat; [|exact B]. eapply Rle_trans; [exact A|]. apply Rmult_le_compat_l; [exact HN0|]. lra.
Qed.
Lemma dft_err (m : Z -> R) X j : (0 <= j < n)%Z -> IZR N * u <= / 1024 -> gsum (K := Rops) N (fun k => Rabs (m k)) <= X -> 5 * X + IZR N + 1 <= top ->
  modulus (dft_out m j - gsum (K := RC) N (fun k => (mk Rops (m k) 0 : RC) * eN N (5 ^ j * k)%Z))%num <= dft_error u eta t N X.
Proof.
  intros Hj HNu HX Ht.
  assert (HX0 : 0 <= X) by (eapply Rle_trans; [|exact HX]; apply gsum_nonneg; intros; apply Rabs_pos).
  assert (Htau : 0 <= table_error u eta t N) by (apply (table_pos F u eta top t ar N); lia).
  assert (HN0 : 0 <= IZR N) by (apply IZR_le; lia). assert (Hne0 : 0 <= IZR N * eta) by (apply Rmult_le_pos; lra).
  assert (HuX : 0 <= IZR N * (u * X)) by (apply Rmult_le_pos; [lra|apply Rmult_le_pos; lra]). assert (HtX : 0 <= table_error u eta t N * X) by (apply Rmult_le_pos; lra).
  pose proof (dft_comp m X j (f_cos F N) (cosN N) Hj HNu HX Ht (f_cos_err F u eta top t ar N ltac:(lia) Hsmall) ltac:(intros; unfold cosN; apply Rabs_le; apply COS_bound)) as A.
  pose proof (dft_comp m X j (f_sin F N) (sinN N) Hj HNu HX Ht (f_sin_err F u eta top t ar N ltac:(lia) Hsmall) ltac:(intros; unfold sinN; apply Rabs_le; apply SIN_bound)) as B.
  assert (E : gsum (K := RC) N (fun k => (mk Rops (m k) 0 : RC) * eN N (5 ^ j * k)%Z)%num
    = mk Rops (gsum (K := Rops) N (fun k => m k * cosN N ((5 ^ j * k) mod (2 * N))%Z)) (gsum (K := Rops) N (fun k => m k * sinN N ((5 ^ j * k) mod (2 * N))%Z))).
  { rewrite (gsum_c (K := Rops)). apply (f_equal2 (fun a b : R => mk Rops a b)); apply (gsum_ext (K := Rops)); intros k Hk; pose proof (eN_mod N (5 ^ j * k) ltac:(lia)) as Q;
      [apply (f_equal fst) in Q|apply (f_equal snd) in Q]; unfold eN, mk in Q; cbn [fst snd] in Q; rewrite Q; unfold eN, mk, cre, cim; cbn -[N]; ring. }
  rewrite E. eapply Rle_trans; [apply (modulus_comp _ (IZR N * (34 / 10 * u * X + 22 / 10 * eta) + table_error u eta t N * X))|].
  - exact A.
  - exact B.
  - unfold dft_error. lra.
Qed.

(** the entry exp(-i pi k / N) of the table *)
Lemma idft_step_err (y : Z -> RC) k i c Y : 0 <= Y -> modulus c <= Y -> let f := f_cos F N ((5 ^ i * k) mod (2 * N))%Z in let g := f_sin F N ((5 ^ i * k) mod (2 * N))%Z in
  modulus ((mk Rops f (- g)%R : RC) * y i)%num <= Y -> 4 * Y + 1 <= top ->
  modulus (idft_step y k i c - (c + (mk Rops f (- g)%R : RC) * y i))%num <= 736 / 100 * (u * Y) + 595 / 100 * eta.
Proof.
  intros HY Hc f g Hxy Ht. assert (0 <= u * Y) by (apply Rmult_le_pos; lra). set (x := mk Rops f (- g)%R : RC) in *.
  assert (Hm : forall a b, Rabs a <= modulus x -> Rabs b <= modulus (y i) -> Rabs (a * b) <= Y).
  { intros a b Ha Hb. eapply Rle_trans; [apply abs_mul_le; [exact Ha|exact Hb]|]. rewrite <- modulus_mul. exact Hxy. }
  pose proof (modulus_cre x) as Ax. pose proof (modulus_cim x) as Bx. pose proof (modulus_cre (y i)) as Ay. pose proof (modulus_cim (y i)) as By.
  pose proof (modulus_cre c) as Ac. pose proof (modulus_cim c) as Bc. pose proof (modulus_cre (x * y i)%num) as Axy. pose proof (modulus_cim (x * y i)%num) as Bxy.
  unfold idft_step. fold f g. change (cim Rops x) with (- g) in Bx. change (cre Rops x) with f in Ax. rewrite Rabs_Ropp in Bx.
  destruct (y i) as [yr yi], c as [cr ci]. unfold cre, cim in *. cbn [fst snd] in *. cbn -[f g] in Axy, Bxy. change (car Rops) with R in *.
  eapply Rle_trans; [apply (modulus_comp _ (52 / 10 * (u * Y) + 42 / 10 * eta))|lra]; unfold cre, cim; cbn -[f g].
  - pose proof (cross_acc u eta top (rnd F) Hu He Hr cr (f * yr) (g * yi) 1 Y ltac:(auto) HY ltac:(lra) ltac:(auto) ltac:(auto)) as A. rewrite !Rmult_1_l in A.
    replace (f * yr - - g * yi) with (f * yr + g * yi) in * by ring. apply A; auto. eapply Rle_trans; [exact Axy|exact Hxy].
  - pose proof (cross_acc u eta top (rnd F) Hu He Hr ci (f * yi) (g * yr) (-1) Y ltac:(auto) HY ltac:(lra) ltac:(auto) ltac:(auto)) as A.
    replace (f * yi + -1 * (g * yr)) with (f * yi + - g * yr) in A by ring. replace (rnd F (f * yi) + -1 * rnd F (g * yr)) with (rnd F (f * yi) - rnd F (g * yr)) in A by ring.
    apply A; auto. eapply Rle_trans; [exact Bxy|exact Hxy].
Qed.
Definition idft_sum_error (X : R) : R := dot_error u eta n X + 3 / 2 * table_error u eta t N * X.
Lemma idft_sum_err (y : Z -> RC) X k : (0 <= k < n)%Z -> IZR n * u <= / 1024 -> gsum (K := Rops) n (fun j => modulus (y j)) <= X -> 5 * X + IZR n + 1 <= top ->
  modulus ((steps (idft_step y k) n 0%num : RC) - gsum (K := RC) n (fun j => (cconj Rops (eN N (5 ^ j * k)%Z) : RC) * y j))%num <= idft_sum_error X /\
  idft_sum_error X <= X + 1 + IZR n / 100.
Proof.
  intros Hk HNu HX Ht. set (tau := table_error u eta t N) in *.
  assert (Htau : 0 <= tau) by (apply (table_pos F u eta top t ar N); lia).
  assert (HX0 : 0 <= X) by (eapply Rle_trans; [|exact HX]; apply gsum_nonneg; intros; apply modulus_nonneg).
  pose (x := fun j => mk Rops (f_cos F N ((5 ^ j * k) mod (2 * N))%Z) (- f_sin F N ((5 ^ j * k) mod (2 * N))%Z)%R : RC).
  pose (e := fun j => cconj Rops (eN N (5 ^ j * k)%Z) : RC).
  assert (Hmod : forall j, (0 <= (5 ^ j * k) mod (2 * N) < 2 * N)%Z) by (intros; apply Z.mod_pos_bound; lia).
  assert (Hxe : forall j, modulus (x j - e j)%num <= 1415 / 1000 * tau).
  { intros j. unfold x, e. rewrite <- (eN_mod N (5 ^ j * k)) by lia. apply modulus_comp.
    - exact (f_cos_err F u eta top t ar N ltac:(lia) Hsmall _ (Hmod j)).
    - pose proof (f_sin_err F u eta top t ar N ltac:(lia) Hsmall _ (Hmod j)) as Q. rewrite <- Rabs_Ropp in Q.
      replace (- (f_sin F N ((5 ^ j * k) mod (2 * N))%Z - sinN N ((5 ^ j * k) mod (2 * N))%Z)) with (- f_sin F N ((5 ^ j * k) mod (2 * N))%Z - - sinN N ((5 ^ j * k) mod (2 * N))%Z) in Q by ring. exact Q. }
  assert (He1 : forall j, modulus (e j) = 1) by (intros j; unfold e; rewrite modulus_conj; apply modulus_eN).
  assert (Hx1 : forall j, modulus (x j) <= 1023 / 1000).
  { intros j. pose proof (modulus_near (x j) (e j)) as Q. rewrite He1 in Q. specialize (Hxe j). lra. }
  pose (p := fun j => (x j * y j)%num : RC). pose (d := fun j => (e j * y j)%num : RC).
  assert (Hpd : forall j, modulus (p j - d j)%num <= 1415 / 1000 * tau * modulus (y j)).
  { intros j. unfold p, d. replace (x j * y j - e j * y j)%num with ((x j - e j) * y j)%num by ring. rewrite modulus_mul. apply Rmult_le_compat_r; [apply modulus_nonneg|apply Hxe]. }
  assert (Hpm : forall j, modulus (p j) <= 1023 / 1000 * modulus (y j)) by (intros j; unfold p; rewrite modulus_mul; apply Rmult_le_compat_r; [apply modulus_nonneg|apply Hx1]).
  assert (Sc : forall a : R, gsum (K := Rops) n (fun k => a * modulus (y k)) = a * gsum (K := Rops) n (fun k => modulus (y k))) by (intros a; exact (gsum_scale (K := Rops) Rlawful n a (fun k => modulus (y k)))).
  assert (Hps : gsum (K := Rops) n (fun j => modulus (p j)) <= 1023 / 1000 * X).
  { apply Rle_trans with (gsum (K := Rops) n (fun k => 1023 / 1000 * modulus (y k))); [apply gsum_le; intros; apply Hpm|]. rewrite Sc. apply Rmult_le_compat_l; lra. }
  assert (HN0 : 0 <= IZR n) by (apply IZR_le; lia).
  destruct (total_bound u eta Hu He (IZR n) (1023 / 1000 * X) (736 / 100) (595 / 100) HN0 HNu ltac:(lra) ltac:(lra) ltac:(lra)) as (T1 & T2 & T3).
  set (Y := 101 / 100 * (1023 / 1000 * X + IZR n * (595 / 100 * eta))) in *.
  assert (Hne : IZR n * eta <= IZR n * / 1024) by (apply Rmult_le_compat_l; lra).
  assert (Hne0 : 0 <= IZR n * eta) by (apply Rmult_le_pos; lra).
  assert (HY : 4 * Y + 1 <= top) by (unfold Y; lra). assert (HuY : 0 <= u * Y) by (apply Rmult_le_pos; lra).
  assert (HuX : 0 <= u * X) by (apply Rmult_le_pos; lra).
  assert (A : modulus ((steps (idft_step y k) n 0%num : RC) - gsum (K := RC) n p)%num <= IZR n * (736 / 100 * (u * Y) + 595 / 100 * eta)).
  { apply (acc_complex n _ p _ Y ltac:(lia)); [lra|lra|]. intros j c Hj Hc. apply idft_step_err; auto.
    change (modulus (p j) <= Y). apply Rle_trans with (1023 / 1000 * X); [|unfold Y; lra]. eapply Rle_trans; [|exact Hps].
    pose proof (gsum_mono (j + 1) n (fun k => modulus (p k)) ltac:(lia) ltac:(intros; apply modulus_nonneg)) as G. rewrite gsum_S in G by lia.
    pose proof (gsum_nonneg j (fun k => modulus (p k)) ltac:(intros; apply modulus_nonneg)) as G3. eapply Rle_trans; [|exact G].
    change (modulus (p j) <= gsum (K := Rops) j (fun k => modulus (p k)) + modulus (p j)). lra. }
  assert (B : modulus (gsum (K := RC) n p - gsum (K := RC) n d)%num <= 1415 / 1000 * tau * X).
  { rewrite <- (gsum_sub (K := RC) HC n p d).
    eapply Rle_trans; [apply (modulus_rsum n _ (fun j => 1415 / 1000 * tau * modulus (y j)) ltac:(lia)); intros; apply Hpd|]. rewrite Sc.
    apply Rmult_le_compat_l; lra. }
  assert (HtX : 0 <= tau * X <= / 64 * X) by (split; [apply Rmult_le_pos; lra|apply Rmult_le_compat_r; lra]).
  unfold idft_sum_error, dot_error. fold tau. split.
  - change (modulus ((steps (idft_step y k) n 0%num : RC) - gsum (K := RC) n d)%num <= IZR n * (8 * u * X + 7 * eta) + 3 / 2 * tau * X).
    replace ((steps (idft_step y k) n 0%num : RC) - gsum (K := RC) n d)%num with (((steps (idft_step y k) n 0%num : RC) - gsum (K := RC) n p) + (gsum (K := RC) n p - gsum (K := RC) n d))%num by ring.
    eapply Rle_trans; [apply modulus_add|]. apply Rplus_le_compat; [|lra]. eapply Rle_trans; [exact A|]. apply Rmult_le_compat_l; [exact HN0|]. lra.
  - assert (IZR n * u * X <= / 1024 * X) by (apply Rmult_le_compat_r; lra). lra.
Qed.
Lemma idft_scale s s' X E : Rabs s <= X -> Rabs (s' - s) <= E -> E <= X + 1 + IZR n / 100 -> 5 * X + IZR n + 1 <= top ->
  Rabs (rnd F (rnd F (2 / IZR N) * s') - 2 / IZR N * s) <= (11 / 10 * E + 3 * u * X) / IZR n + 2 * eta * (X + E + 1).
Proof.
  intros Hs HE HEX Ht. set (v := / IZR n). assert (Hn1 : 1 <= IZR n) by (apply IZR_le; lia).
  assert (Hv : 0 < v <= 1). { unfold v. split; [apply Rinv_0_lt_compat; lra|]. rewrite <- Rinv_1. apply Rinv_le_contravar; lra. }
  assert (Hnv : IZR n * v = 1) by (unfold v; field; lra).
  assert (E2 : 2 / IZR N = v). { unfold N, v. rewrite mult_IZR. field. lra. } rewrite E2. unfold Rdiv at 1. fold v.
  assert (HX0 : 0 <= X) by (pose proof (Rabs_pos s); lra). assert (HE0 : 0 <= E) by (pose proof (Rabs_pos (s' - s)); lra).
  pose proof (ar_top _ _ _ _ _ _ _ _ ar) as H8.
  assert (R1 : Rabs (rnd F v - v) <= u * v + eta) by (apply (rd_err u eta top (rnd F) Hu Hr); [rewrite Rabs_right; lra|lra]).
  pose proof (small_mul u v Hu ltac:(lra)) as F1.
  set (r := rnd F v) in *. assert (R1' := R1). apply abs_le in R1'.
  assert (Hrb : Rabs r <= 101 / 100 * v + eta) by (apply Rabs_le; lra).
  assert (A : Rabs (r * s' - v * s) <= (101 / 100 * v + eta) * E + (u * v + eta) * X).
  { replace (r * s' - v * s) with (r * (s' - s) + (r - v) * s) by ring. eapply Rle_trans; [apply Rabs_triang|]. rewrite !Rabs_mult.
    apply Rplus_le_compat; apply Rmult_le_compat; auto; apply Rabs_pos. }
  assert (B : Rabs (v * s) <= v * X) by (rewrite Rabs_mult, (Rabs_right v) by lra; apply Rmult_le_compat_l; lra).
  assert (HvX : 0 <= v * X <= X) by (split; [apply Rmult_le_pos; lra|nra]). assert (HvE : 0 <= v * E <= E) by (split; [apply Rmult_le_pos; lra|nra]).
  pose proof (small_mul u (v * X) Hu ltac:(lra)) as F2. pose proof (small_mul u (v * E) Hu ltac:(lra)) as F3. pose proof (small_mul u (u * (v * X)) Hu ltac:(lra)) as F4.
  assert (HeE : 0 <= eta * E <= / 1024 * E) by (split; [apply Rmult_le_pos; lra|apply Rmult_le_compat_r; lra]). assert (HeX : 0 <= eta * X <= / 1024 * X) by (split; [apply Rmult_le_pos; lra|apply Rmult_le_compat_r; lra]).
  pose proof (small_mul u (eta * E) Hu ltac:(lra)) as F5. pose proof (small_mul u (eta * X) Hu ltac:(lra)) as F6.
  eapply Rle_trans; [apply (round_near u eta top (rnd F) Hu Hr _ (v * s) ((101 / 100 * v + eta) * E + (u * v + eta) * X) (v * X))|]; auto.
  - lra.
  - unfold Rdiv. fold v. lra.
Qed.
End Direct.
