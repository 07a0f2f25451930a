(** C122: from Chebyshev coefficients to coefficients of products in floating-point arithmetic (compare C60). *)
From Coq Require Import ZArith List Bool Lia Reals Lra Ring.
From Verif Require Import Base BaseFacts Sums RQ Util UtilFacts GSum Matrix MatrixFacts DFT DFTTheory DFTFacts FFTFacts SpecMat SpecDFT SpecEnc SlotFacts
  Properties_DFT Properties_Plain SpecLin SpecCheb Poly ChebFacts SpecEval EvalPoly Properties_Poly
  Float SpecFloat FloatFacts FloatError FloatNum Binary64 Properties_Float FloatDot FloatMod SpecFloatMod FloatModFacts FloatBootNum.
From Verif Require Import FloatCheb SpecFloatCheb.
Import ListNotations.
Open Scope Z_scope.
Add Ring RCfch : HR.

Section Ar.
Context (F : fpu) (u eta top t : R) (ar : arithmetic u eta top t (rnd F) (dpi F) (lcos F) (lsin F)).
Let Hu : (0 <= u <= / 1024)%R := ar_u _ _ _ _ _ _ _ _ ar.
Let He : (0 <= eta <= / 1024)%R := ar_eta _ _ _ _ _ _ _ _ ar.
Let Hr : forall x, (Rabs x <= top -> Rabs (rnd F x - x) <= u * Rabs x + eta)%R := ar_rnd _ _ _ _ _ _ _ _ ar.

(** the computed coefficients in closed form *)
Definition f_low (H : Z) (c : Z -> R) (n : Z) : R := if n =? 0 then c 0 else rnd F (c n - c (2 * H - n)%Z).
Definition f_high (H : Z) (c : Z -> R) (n : Z) : R := if n =? 0 then c H else rnd F (c (H + n)%Z * 2).
Fixpoint f_conv_u (k : nat) (c : Z -> R) (n : Z) : R :=
  match k with
  | S (S O) => if n =? 0 then c 0 else if n =? 1 then rnd F (c 1%Z - c 3%Z) else if n =? 2 then c 2 else rnd F (c 3%Z * 2)
  | O => c n
  | S k => let H := 2 ^ Z.of_nat k in if n <? H then f_conv_u k (f_low H c) n else f_conv_u k (f_high H c) (n - H)
  end.
Lemma f_convert_ok k : (2 <= k)%nat -> forall fuel c u off M g, (k <= fuel)%nat -> 0 <= off -> off + 2 ^ Z.of_nat k <= M -> u = tab M g ->
  f_convert_frc_tou F fuel (gtab (2 ^ Z.of_nat k) c) u off (2 ^ Z.of_nat k) = Ok (tab M (patched (2 ^ Z.of_nat k) off g (f_conv_u k c))).
Proof.
  clear Hu He Hr ar. induction k as [k IH] using lt_wf_ind. intros Hk fuel c u0 off M g Hf Ho HM ->. destruct fuel as [|fuel]; [lia|].
  destruct k as [|[|[|k]]]; [lia|lia| |].
  - change (2 ^ Z.of_nat 2) with 4 in *. cbn [f_convert_frc_tou]. change (4 =? 4) with true. cbv iota.
    rewrite !grd_gtab by lia. cbn [bind]. repeat (rewrite gwr_tab by lia; cbn [bind]). f_equal. apply tab_ext. intros j Hj. unfold patched. cbn [f_conv_u].
    destruct (Z.eqb_spec j (off + 3)), (Z.eqb_spec j (off + 2)), (Z.eqb_spec j (off + 1)), (Z.eqb_spec j off), (Z.leb_spec off j), (Z.ltb_spec j (off + 4)),
      (Z.eqb_spec (j - off) 0), (Z.eqb_spec (j - off) 1), (Z.eqb_spec (j - off) 2); cbn [andb]; try lia; reflexivity.
  - set (K := S (S k)) in *. assert (E : 2 ^ Z.of_nat (S K) = 2 * 2 ^ Z.of_nat K) by (rewrite Nat2Z.inj_succ, Z.pow_succ_r by lia; lia).
    set (H := 2 ^ Z.of_nat K) in *. assert (HH : 4 <= H) by (unfold H; change 4 with (2 ^ 2); apply Z.pow_le_mono_r; lia). rewrite E in *.
    cbn [f_convert_frc_tou]. destruct (Z.eqb_spec (2 * H) 4) as [|_]; [lia|].
    replace (Z.quot (2 * H) 2) with H by (rewrite Z.mul_comm, Z.quot_mul; lia). cbv zeta.
    rewrite !gfresh_tab. rewrite (fill_gtab _ _ _ c); [|lia|]. 2: { intros i g' Hi. rewrite grd_gtab by lia. reflexivity. }
    cbn [bind]. rewrite (fill_gtab _ _ _ (fun i => c (i + H))); [|lia|]. 2: { intros i g' Hi. rewrite grd_gtab by lia. reflexivity. }
    cbn [bind].
    rewrite (for_closed _ (fun i => (gtab H (fun n => if H - i <? n then f_low H c n else c n), gtab H (fun n => if (1 <=? n) && (n <? i) then f_high H c n else c (n + H)))) 1 H
      _ (gtab H (f_low H c), gtab H (f_high H c))); [|lia| | |].
    + cbn [bind]. rewrite (IH K ltac:(lia) ltac:(lia) fuel (f_low H c) _ off M g) by (auto; lia). cbn [bind]. fold H.
      rewrite (IH K ltac:(lia) ltac:(lia) fuel (f_high H c) _ (off + H) M (patched H off g (f_conv_u K (f_low H c)))) by (auto; fold H; lia). fold H. f_equal.
      apply tab_ext. intros j Hj. unfold patched. change (f_conv_u (S K) c (j - off)) with (if j - off <? H then f_conv_u K (f_low H c) (j - off) else f_conv_u K (f_high H c) (j - off - H)).
      replace (j - (off + H)) with (j - off - H) by lia.
      destruct (Z.leb_spec (off + H) j), (Z.ltb_spec j (off + H + H)), (Z.leb_spec off j), (Z.ltb_spec j (off + H)), (Z.ltb_spec j (off + 2 * H)), (Z.ltb_spec (j - off) H); cbn [andb]; try lia; reflexivity.
    + f_equal; apply gtab_ext; intros n Hn.
      * destruct (Z.ltb_spec (H - 1) n); [lia|reflexivity].
      * destruct (Z.leb_spec 1 n), (Z.ltb_spec n 1); cbn [andb]; try lia; reflexivity.
    + f_equal; apply gtab_ext; intros n Hn.
      * destruct (Z.ltb_spec (H - H) n); [reflexivity|]. unfold f_low. replace n with 0 by lia. reflexivity.
      * destruct (Z.leb_spec 1 n), (Z.ltb_spec n H); cbn [andb]; try lia; [reflexivity|]. unfold f_high. replace n with 0 by lia. reflexivity.
    + intros i Hi. rewrite !grd_gtab by lia. cbn [bind]. unfold gtab at 1. rewrite gwr_tab by lia. cbn [bind].
      unfold gtab at 1. rewrite gwr_tab by lia. cbn [bind]. do 2 f_equal; apply tab_ext; intros n Hn.
      * destruct (Z.ltb_spec (H - i) (H - i)); [lia|]. destruct (Z.ltb_spec i i); [lia|]. rewrite andb_false_r.
        destruct (Z.eqb_spec n (H - i)), (Z.ltb_spec (H - i) n), (Z.ltb_spec (H - (i + 1)) n); try lia; subst; try reflexivity.
        unfold f_low. destruct (Z.eqb_spec (H - i) 0); [lia|]. do 3 f_equal. f_equal. lia.
      * destruct (Z.ltb_spec i i); [lia|]. rewrite andb_false_r.
        destruct (Z.eqb_spec n i), (Z.leb_spec 1 n), (Z.ltb_spec n i), (Z.ltb_spec n (i + 1)); cbn [andb]; try lia; subst; try reflexivity.
        unfold f_high. destruct (Z.eqb_spec i 0); [lia|]. do 3 f_equal. f_equal. lia.
Qed.

(** one level: coefficients of size [b] with error [e] *)
Let up (b : R) : R := (2 * b + (u * (2 * b) + eta))%R.
Let worse (b e : R) : R := (2 * e + (u * (2 * b) + eta))%R.
Definition near (b e : R) (x y : R) : Prop := (Rabs x <= b)%R /\ (Rabs (x - y) <= e)%R.
Let near_up b e x y : (0 <= e)%R -> near b e x y -> near (up b) (worse b e) x y.
Proof. intros H0 [H1 H2]. pose proof (Rabs_pos x). assert (0 <= u * (2 * b))%R by (apply Rmult_le_pos; lra). unfold near, up, worse. split; lra. Qed.
Let near_sub b e x y x' y' : (up b <= top)%R -> near b e x x' -> near b e y y' -> near (up b) (worse b e) (rnd F (x - y)) (x' - y').
Proof.
  intros Ht [H1 H2] [H3 H4]. pose proof (Rabs_pos x). assert (0 <= u * (2 * b))%R by (apply Rmult_le_pos; lra). unfold near, up, worse in *.
  assert (A : (Rabs (x - y) <= 2 * b)%R) by (apply abs_inv in H1, H3; apply Rabs_le; lra).
  pose proof (rd_err u eta top (rnd F) Hu Hr (x - y) (2 * b) A ltac:(lra)) as B. apply abs_inv in A, B, H2, H4. split; apply Rabs_le; lra.
Qed.
Let near_two b e x x' : (up b <= top)%R -> near b e x x' -> near (up b) (worse b e) (rnd F (x * 2)) (x' * 2).
Proof.
  intros Ht [H1 H2]. pose proof (Rabs_pos x). assert (0 <= u * (2 * b))%R by (apply Rmult_le_pos; lra). unfold near, up, worse in *.
  assert (A : (Rabs (x * 2) <= 2 * b)%R) by (apply abs_inv in H1; apply Rabs_le; lra).
  pose proof (rd_err u eta top (rnd F) Hu Hr (x * 2) (2 * b) A ltac:(lra)) as B. apply abs_inv in A, B, H2. split; apply Rabs_le; lra.
Qed.
Fixpoint grow (j : nat) (b : R) : R := match j with O => b | S j => grow j (2 * b + (u * (2 * b) + eta)) end.
Fixpoint wrong (j : nat) (b e : R) : R := match j with O => e | S j => wrong j (2 * b + (u * (2 * b) + eta)) (2 * e + (u * (2 * b) + eta)) end.
Lemma grow_ge j b : (0 <= b)%R -> (b <= grow j b)%R.
Proof.
  revert b. induction j as [|j IH]; intros b Hb; cbn [grow]; [lra|]. assert (0 <= u * (2 * b))%R by (apply Rmult_le_pos; lra).
  pose proof (IH (2 * b + (u * (2 * b) + eta))%R ltac:(lra)). lra.
Qed.
Lemma grow_le j b : (0 <= b)%R -> (grow j b <= (2 + 2 * u) ^ j * (b + eta))%R.
Proof.
  revert b. induction j as [|j IH]; intros b Hb; cbn [grow pow]; [lra|]. assert (0 <= u * b)%R by (apply Rmult_le_pos; lra).
  eapply Rle_trans; [apply IH; lra|]. assert (0 <= (2 + 2 * u) ^ j)%R by (apply pow_le; lra). rewrite (Rmult_comm (2 + 2 * u)%R), Rmult_assoc. apply Rmult_le_compat_l; [lra|].
  assert (0 <= u * eta)%R by (apply Rmult_le_pos; lra). lra.
Qed.
Lemma wrong_le j b e : (0 <= b)%R -> (wrong j b e <= 2 ^ j * e + ((2 + 2 * u) ^ j - 2 ^ j) * b + ((2 + 2 * u) ^ j - 1) * eta)%R.
Proof.
  revert b e. induction j as [|j IH]; intros b e Hb; cbn [wrong pow]; [lra|]. assert (0 <= u * b)%R by (apply Rmult_le_pos; lra).
  eapply Rle_trans; [apply IH; lra|]. assert (0 <= (2 + 2 * u) ^ j)%R by (apply pow_le; lra). set (a := ((2 + 2 * u) ^ j)%R) in *. set (d := (2 ^ j)%R) in *.
  assert (0 <= u * eta)%R by (apply Rmult_le_pos; lra). assert (0 <= a * (u * eta))%R by (apply Rmult_le_pos; lra). lra.
Qed.
Lemma conv_near k : (2 <= k)%nat -> forall b e c c', (0 <= e)%R -> (grow (k - 1) b <= top)%R -> (forall n, 0 <= n < 2 ^ Z.of_nat k -> near b e (c n) (c' n)) ->
  forall n, 0 <= n < 2 ^ Z.of_nat k -> near (grow (k - 1) b) (wrong (k - 1) b e) (f_conv_u k c n) (conv_u k c' n).
Proof.
  induction k as [k IH] using lt_wf_ind. intros Hk b e c c' H0 Ht Hc n Hn. destruct k as [|[|[|k]]]; [lia|lia| |].
  - change (2 ^ Z.of_nat 2) with 4 in *. cbn [Nat.sub grow wrong f_conv_u conv_u] in *. change (near (up b) (worse b e) (f_conv_u 2 c n) (conv_u 2 c' n)). cbn [f_conv_u conv_u].
    destruct (Z.eqb_spec n 0), (Z.eqb_spec n 1), (Z.eqb_spec n 2); try lia; auto.
    + apply near_up, Hc; [exact H0|lia].
    + apply near_sub; auto; apply Hc; lia.
    + apply near_up, Hc; [exact H0|lia].
    + apply near_two; auto. apply Hc; lia.
  - set (K := S (S k)) in *. replace (S K - 1)%nat with (S (K - 1)) in * by lia. cbn [grow wrong] in *.
    assert (E : 2 ^ Z.of_nat (S K) = 2 * 2 ^ Z.of_nat K) by (rewrite Nat2Z.inj_succ, Z.pow_succ_r by lia; lia).
    set (H := 2 ^ Z.of_nat K) in *. assert (HH : 4 <= H) by (unfold H; change 4 with (2 ^ 2); apply Z.pow_le_mono_r; lia). rewrite E in *.
    change (f_conv_u (S K) c n) with (if n <? H then f_conv_u K (f_low H c) n else f_conv_u K (f_high H c) (n - H)).
    change (conv_u (S K) c' n) with (if n <? H then conv_u K (low H c') n else conv_u K (high H c') (n - H)).
    assert (B0 : (0 <= b)%R). { destruct (Hc 0 ltac:(lia)) as [A _]. pose proof (Rabs_pos (c 0)). lra. }
    assert (UB : (0 <= u * (2 * b))%R) by (apply Rmult_le_pos; lra).
    assert (Tb : (up b <= top)%R). { eapply Rle_trans; [apply (grow_ge (K - 1) (up b)); unfold up; lra|exact Ht]. }
    assert (W0 : (0 <= worse b e)%R) by (unfold worse; lra).
    destruct (Z.ltb_spec n H).
    + apply (IH K ltac:(lia) ltac:(lia) (up b) (worse b e)); auto; [|lia]. intros i Hi. fold H in Hi. unfold f_low, low. destruct (Z.eqb_spec i 0); [apply near_up, Hc; [exact H0|lia]|]. apply near_sub; auto; apply Hc; lia.
    + apply (IH K ltac:(lia) ltac:(lia) (up b) (worse b e)); auto; [|fold H; lia]. intros i Hi. fold H in Hi. unfold f_high, high. destruct (Z.eqb_spec i 0); [apply near_up, Hc; [exact H0|lia]|]. apply near_two; auto; apply Hc; lia.
Qed.

Lemma part_bound_1 U k : part_bound (fun _ => 1%R) U k = (2 ^ k * U)%R.
Proof. induction k as [|k IH]; cbn [part_bound pow]; [ring|]. rewrite IH. ring. Qed.
(** The computed coefficients, and the values of the sum of products, are close to those of the Chebyshev series. *)
Theorem C122_convert : forall k fuel cs u0 B, (2 <= k)%nat -> (k <= fuel)%nat -> length cs = (2 ^ k)%nat -> cells (2 ^ Z.of_nat k) u0 ->
  Forall (fun x => Rabs x <= B)%R cs -> ((2 + 2 * u) ^ (k - 1) * (B + eta) <= top)%R ->
  exists us, f_convert_frc_tou F fuel (map Some cs) u0 0 (2 ^ Z.of_nat k) = Ok (map Some us) /\ length us = (2 ^ k)%nat /\
    (exists vs, length vs = (2 ^ k)%nat /\ (forall x, product_value k (rcoef vs) x = cheb_value k (rcoef cs) x) /\
      forall n, 0 <= n < 2 ^ Z.of_nat k -> (Rabs (rcoef us n - rcoef vs n) <= convert_error u eta k B)%R) /\
    forall x, (-1 <= x <= 1)%R -> (modulus (product_value k (rcoef us) (real x) - cheb_value k (rcoef cs) (real x))%num <= 2 ^ k * convert_error u eta k B)%R.
Proof.
  intros k fuel cs u0 B Hk Hf Hc Hu0 HB Ht. destruct (arr_tab None u0 _ Hu0) as [g ->]. rewrite (rlist_gtab cs k Hc).
  rewrite (f_convert_ok k Hk fuel _ _ 0 (2 ^ Z.of_nat k) g) by (auto; lia).
  set (mk := fun f : Z -> R => map (fun i => f (Z.of_nat i)) (seq 0 (Z.to_nat (2 ^ Z.of_nat k)))).
  assert (E : Z.to_nat (2 ^ Z.of_nat k) = (2 ^ k)%nat).
  { rewrite Z2Nat.inj_pow by lia. rewrite Nat2Z.id. reflexivity. }
  assert (Hmk : forall f n, 0 <= n < 2 ^ Z.of_nat k -> rcoef (mk f) n = f n).
  { intros f n Hn. unfold rcoef, mk. rewrite (nth_indep _ 0%R (f (Z.of_nat 0))) by (rewrite map_length, seq_length; lia).
    rewrite (map_nth (fun i => f (Z.of_nat i))). rewrite seq_nth by lia. rewrite Nat.add_0_l, Z2Nat.id by lia. reflexivity. }
  assert (Hl : forall f, length (mk f) = (2 ^ k)%nat) by (intros f; unfold mk; rewrite map_length, seq_length; exact E).
  assert (B0 : (0 <= B)%R). { destruct cs as [|x cs]; [cbn in Hc; assert (2 ^ k <> 0)%nat by (apply Nat.pow_nonzero; lia); lia|]. inversion HB; subst. pose proof (Rabs_pos x). lra. }
  assert (HN : forall n, 0 <= n < 2 ^ Z.of_nat k -> near B 0 (rcoef cs n) (rcoef cs n)).
  { intros n Hn. split; [|replace (rcoef cs n - rcoef cs n)%R with 0%R by ring; rewrite Rabs_R0; lra]. unfold rcoef. rewrite Forall_forall in HB. apply HB, nth_In. lia. }
  assert (Hnear : forall n, 0 <= n < 2 ^ Z.of_nat k -> (Rabs (f_conv_u k (rcoef cs) n - conv_u k (rcoef cs) n) <= convert_error u eta k B)%R).
  { intros n Hn. eapply Rle_trans; [apply (conv_near k Hk B 0 (rcoef cs) (rcoef cs) (Rle_refl _))|]; auto.
    - eapply Rle_trans; [apply grow_le; exact B0|exact Ht].
    - unfold convert_error. pose proof (wrong_le (k - 1) B 0 B0). lra. }
  exists (mk (f_conv_u k (rcoef cs))). split; [|split; [apply Hl|split]].
  - f_equal. unfold mk. rewrite <- gtab_rlist. apply tab_ext. intros j Hj. unfold patched. rewrite Z.add_0_l, Z.sub_0_r.
    destruct (Z.leb_spec 0 j), (Z.ltb_spec j (2 ^ Z.of_nat k)); try lia. reflexivity.
  - exists (mk (conv_u k (rcoef cs))). split; [apply Hl|]. split.
    + intros x. rewrite <- (conv_u_value k Hk). apply product_value_ext. intros n Hn. apply Hmk. exact Hn.
    + intros n Hn. rewrite !Hmk by exact Hn. apply Hnear. exact Hn.
  - intros x Hx. rewrite <- (conv_u_value k Hk). rewrite <- part_bound_1. apply product_value_near.
    + intros i _. apply C62_real_slots. exact Hx.
    + intros n Hn. rewrite Hmk by exact Hn. apply Hnear. exact Hn.
Qed.
End Ar.

(** Double precision and the degrees of poly.h: relative error k u *)
Lemma pow_near k : (k <= 7)%nat -> ((2 + 2 * u64) ^ k <= 2 ^ k * (1 + (INR k + / 1024) * u64))%R.
Proof.
  intros Hk. replace (2 + 2 * u64)%R with (2 * (1 + u64))%R by ring. rewrite Rpow_mult_distr. apply Rmult_le_compat_l; [apply pow_le; lra|]. pose proof u_small as Hu.
  assert (H : forall j, (j <= 7)%nat -> (1 <= (1 + u64) ^ j <= 1 + INR j * u64 + 64 * (INR j * (u64 * / 9007199254740992)))%R).
  { induction j as [|j IH]; intros Hj; [cbn; lra|]. specialize (IH ltac:(lia)). cbn [pow]. rewrite S_INR. assert (0 <= INR j <= 7)%R by (split; [apply pos_INR|replace 7%R with (INR 7) by (cbn; lra); apply le_INR; lia]).
    assert (0 <= u64 * u64 <= u64 * / 9007199254740992)%R by (split; [apply Rmult_le_pos; lra|apply Rmult_le_compat_l; lra]).
    set (a := ((1 + u64) ^ j)%R) in *. set (v := (u64 * / 9007199254740992)%R) in *.
    assert (A1 : (a - 1 <= 8 * u64)%R). { unfold v in IH. assert (INR j * (u64 * / 9007199254740992) <= 7 * (u64 * / 9007199254740992))%R by (apply Rmult_le_compat_r; [apply Rmult_le_pos; lra|lra]). assert (INR j * u64 <= 7 * u64)%R by (apply Rmult_le_compat_r; lra). lra. }
    assert (A2 : (u64 * (a - 1) <= 8 * v)%R). { assert (u64 * (a - 1) <= u64 * (8 * u64))%R by (apply Rmult_le_compat_l; lra). lra. }
    split; [assert (0 <= u64 * a)%R by (apply Rmult_le_pos; lra); lra|]. assert (0 <= v)%R by (unfold v; apply Rmult_le_pos; lra). lra. }
  destruct (H k Hk) as [_ H2]. eapply Rle_trans; [exact H2|]. assert (0 <= INR k <= 7)%R by (split; [apply pos_INR|replace 7%R with (INR 7) by (cbn; lra); apply le_INR; lia]).
  assert (INR k * (u64 * / 9007199254740992) <= 7 * (u64 * / 9007199254740992))%R by (apply Rmult_le_compat_r; [apply Rmult_le_pos; lra|lra]). lra.
Qed.
Theorem C122_convert_double : forall F k fuel cs u0 B, double F -> (2 <= k <= 7)%nat -> (k <= fuel)%nat -> length cs = (2 ^ k)%nat -> cells (2 ^ Z.of_nat k) u0 ->
  Forall (fun x => Rabs x <= B)%R cs -> (powerRZ 2 (-900) <= B <= IZR (2 ^ 1000))%R ->
  exists us, f_convert_frc_tou F fuel (map Some cs) u0 0 (2 ^ Z.of_nat k) = Ok (map Some us) /\ length us = (2 ^ k)%nat /\
    forall x, (-1 <= x <= 1)%R -> (modulus (product_value k (rcoef us) (real x) - cheb_value k (rcoef cs) (real x))%num <= INR k * 2 ^ (2 * k - 1) * powerRZ 2 (-53) * B)%R.
Proof.
  intros F k fuel cs u0 B HF Hk Hf Hc Hu0 HB HB2. pose proof u_small as Hu.
  assert (P900 : (0 < powerRZ 2 (-900))%R) by apply p2_pos. pose proof eta_pos as He0.
  assert (He : (eta64 <= u64 * (u64 * B))%R).
  { eapply Rle_trans; [|apply Rmult_le_compat_l; [lra|apply Rmult_le_compat_l; [lra|apply HB2]]]. unfold u64, eta64. rewrite <- !p2_add. apply p2_le. lia. }
  assert (U2 : (u64 * (u64 * B) <= / 9007199254740992 * (u64 * B))%R) by (apply Rmult_le_compat_r; [apply Rmult_le_pos|]; lra).
  assert (U1 : (0 <= u64 * B <= / 9007199254740992 * B)%R) by (split; [apply Rmult_le_pos; lra|apply Rmult_le_compat_r; lra]).
  pose proof (pow_near (k - 1) ltac:(lia)) as HP. assert (D : (1 <= 2 ^ (k - 1) <= 64)%R).
  { split; [apply pow_R1_Rle; lra|]. replace 64%R with (2 ^ 6)%R by (cbn; lra). apply Rle_pow; [lra|lia]. }
  set (a := ((2 + 2 * u64) ^ (k - 1))%R) in *. set (d := (2 ^ (k - 1))%R) in *.
  assert (K1 : (INR k = INR (k - 1) + 1)%R) by (rewrite <- S_INR; f_equal; lia). assert (K6 : (0 <= INR (k - 1) <= 6)%R) by (split; [apply pos_INR|replace 6%R with (INR 6) by (cbn; lra); apply le_INR; lia]).
  set (j := INR (k - 1)) in *.
  assert (A2 : (a <= 2 * d)%R). { eapply Rle_trans; [exact HP|]. rewrite (Rmult_comm 2). apply Rmult_le_compat_l; [lra|]. assert ((j + / 1024) * u64 <= 7 * / 9007199254740992)%R by (apply Rmult_le_compat; lra). lra. }
  destruct (C122_convert F u64 eta64 top64 t64 HF k fuel cs u0 B ltac:(lia) Hf Hc Hu0 HB) as (us & E & Hl & _ & Hv).
  { fold a. eapply Rle_trans; [apply (Rmult_le_compat _ 128 _ (2 * B)%R)|]; try lra; [unfold a; apply pow_le; lra|].
    eapply Rle_trans; [|apply (top64_big 1010); lia]. eapply Rle_trans; [|apply (IZR_le (2 ^ 1000 * 256)); change 1010 with (1000 + 10); rewrite (Z.pow_add_r 2 1000 10) by lia; apply Z.mul_le_mono_nonneg_l; [apply Z.pow_nonneg|]; lia]. rewrite mult_IZR. lra. }
  exists us. split; [exact E|]. split; [exact Hl|]. intros x Hx. eapply Rle_trans; [apply (Hv x Hx)|]. unfold convert_error. fold a d.
  assert (Ed : (2 ^ k = 2 * d)%R) by (unfold d; rewrite (tech_pow_Rmult 2 (k - 1)); f_equal; lia).
  replace (2 * k - 1)%nat with (k + (k - 1))%nat by lia. rewrite pow_add. fold d. change (powerRZ 2 (-53)) with u64.
  replace (INR k * (2 ^ k * d) * u64 * B)%R with (2 ^ k * (INR k * d * (u64 * B)))%R by ring. apply Rmult_le_compat_l; [rewrite Ed; lra|]. rewrite K1.
  assert (X1 : ((a - d) * B <= d * ((j + / 1024) * u64) * B)%R) by (apply Rmult_le_compat_r; lra).
  assert (X2 : ((a - 1) * eta64 <= 2 * d * (/ 9007199254740992 * (u64 * B)))%R) by (apply Rle_trans with (2 * d * eta64)%R; [apply Rmult_le_compat_r; lra|apply Rmult_le_compat_l; lra]).
  assert (0 <= d * (u64 * B))%R by (apply Rmult_le_pos; lra). replace (d * ((j + / 1024) * u64) * B)%R with ((j + / 1024) * (d * (u64 * B)))%R in X1 by ring. lra.
Qed.
(** Fewer than four coefficients: the recursion does not stop. *)
Theorem C122_small : forall F fuel N cs u off, 0 <= N < 4 -> N <= Z.of_nat (length cs) -> f_convert_frc_tou F fuel (map Some cs) u off N = Diverge.
Proof.
  intros F. assert (G : forall fuel N M c g u off, 0 <= N < 4 -> N <= M -> c = gtab M g -> f_convert_frc_tou F fuel c u off N = Diverge).
  { induction fuel as [|fuel IH]; [reflexivity|]. intros N M c g u off HN HM ->. cbn [f_convert_frc_tou]. destruct (Z.eqb_spec N 4); [lia|]. cbv zeta.
    set (H := Z.quot N 2). assert (HH : 0 <= H <= 1 /\ H + H <= N).
    { unfold H. rewrite Z.quot_div_nonneg by lia. pose proof (Z.div_mod N 2 ltac:(lia)). pose proof (Z.mod_pos_bound N 2 ltac:(lia)). lia. }
    rewrite !gfresh_tab. rewrite (fill_gtab _ _ _ g); [|lia|]. 2: { intros i g' Hi. rewrite grd_gtab by lia. reflexivity. }
    cbn [bind]. rewrite (fill_gtab _ _ _ (fun i => g (i + H))); [|lia|]. 2: { intros i g' Hi. rewrite grd_gtab by lia. reflexivity. }
    cbn [bind]. rewrite for_nil by lia. cbn [bind]. rewrite (IH H H _ g) by (auto; lia). reflexivity. }
  intros fuel N cs u off HN Hc. apply (G fuel N (Z.of_nat (length cs)) _ (rcoef cs)); auto.
  rewrite (list_tab 0%R cs) at 1. unfold gtab, tab. rewrite map_map. reflexivity.
Qed.

(** (T_0+...+T_127)/10 in binary64 *)
Example C122_case : exists us, f_convert_frc_tou F64 7 (map Some (repeat (1 / 10)%R 128)) (gfresh R 128) 0 128 = Ok (map Some us) /\
  forall x, (-1 <= x <= 1)%R -> (modulus (product_value 7 (rcoef us) (real x) - cheb_value 7 (rcoef (repeat (1 / 10)%R 128)) (real x))%num <= 1 / 10 ^ 12)%R.
Proof.
  destruct (C122_convert_double F64 7 7 (repeat (1 / 10)%R 128) (gfresh R 128) (1 / 10) C87_binary64) as (us & E & _ & H); [lia|lia|reflexivity|reflexivity| | |].
  - apply Forall_forall. intros x Hx. apply repeat_spec in Hx. subst. rewrite Rabs_right; lra.
  - split; [|apply Rle_trans with (IZR 1); [lra|apply IZR_le; pose proof (Z.pow_pos_nonneg 2 1000); lia]].
    apply Rle_trans with (powerRZ 2 (-10)); [apply p2_le; lia|]. change (powerRZ 2 (-10)) with (/ 2 ^ 10)%R. cbn [pow]. lra.
  - exists us. split; [exact E|]. intros x Hx. eapply Rle_trans; [apply (H x Hx)|]. change (powerRZ 2 (-53)) with u64. pose proof u_small as Hu.
    change (INR 7) with (1 + 1 + 1 + 1 + 1 + 1 + 1)%R. cbn [Nat.mul Nat.add Nat.sub]. change (1 + 1 + 1 + 1 + 1 + 1 + 1)%R with (1 + 1 + 1 + 1 + 1 + 1 + 1)%R. cbn [pow]. lra.
Qed.
