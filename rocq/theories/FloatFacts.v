(** Rounding errors of the floating-point transforms. *)
From Coq Require Import ZArith List Bool Lia Reals Lra Ring.
From Verif Require Import Base BaseFacts Util UtilFacts ZQ ZQFacts ZQFacts2 RQ RQFacts GSum Matrix MatrixFacts MatMulFacts DFT DFTTheory DFTFacts FFTFacts Encode EncodeFacts SpecMat SpecDFT SpecEnc SlotFacts LinSlots.
From Verif Require Import Float SpecFloat.
Import ListNotations.
Open Scope Z_scope.

(** ** Closed form of matrix_vector_product for any operations *)
Section Raw.
Context {K : ops}.
Definition raw_term (vr vi : Z -> Z -> K) (o : Z -> Z) (n : Z) (z : Z -> K * K) (i k : Z) : K * K :=
  let x := z ((i + o k) mod n) in ((vr k i * fst x - vi k i * snd x)%num, (vr k i * snd x + vi k i * fst x)%num).
Definition raw_sum (vr vi : Z -> Z -> K) (o : Z -> Z) (n : Z) (z : Z -> K * K) (i : Z) : K * K :=
  let t := raw_term vr vi o n z i in
  ((0 + fst (t 0%Z) + fst (t 1%Z) + fst (t 2%Z))%num, (0 + snd (t 0%Z) + snd (t 1%Z) + snd (t 2%Z))%num).
Lemma mvp3_raw n (z : Z -> K * K) vr vi o zr zi (a b : Z -> option K) : 0 < n <= 2 ^ 30 -> offs n 3 o ->
  mvp3 n (gtab n (fun i => fst (z i))) (gtab n (fun i => snd (z i))) (sdi n 3 vr o zr) (sdi n 3 vi o zi) (tab n a) (tab n b)
  = Ok (gtab n (fun i => fst (raw_sum vr vi o n z i)), gtab n (fun i => snd (raw_sum vr vi o n z i))).
Proof.
  intros Hn Ho. unfold mvp3.
  pose (z' := (fun i => (raw_sum vr vi o n z i : Cops K))).
  change (for_ 0 n (fun i '(Azr, Azi) =>
    '(sumr, sumi) <- for_ 0 3 (fun k '(sumr, sumi) =>
        o0 <- get_off (sdi n 3 vr o zr) k ;; t <- int_ (i + o0) ;; jr <- imod t n ;;
        o1 <- get_off (sdi n 3 vi o zi) k ;; t <- int_ (i + o1) ;; ji <- imod t n ;;
        ar <- get_vec (sdi n 3 vr o zr) k i ;; ai <- get_vec (sdi n 3 vi o zi) k i ;;
        zrj <- grd (gtab n (fun i => fst (z i))) jr ;; zij <- grd (gtab n (fun i => snd (z i))) ji ;;
        Ok ((sumr + (ar * zrj - ai * zij))%num, (sumi + (ar * zij + ai * zrj))%num)) (0%num, 0%num) ;;
    Azr <- gwr Azr i sumr ;; Azi <- gwr Azi i sumi ;; Ok (Azr, Azi)) (tab n a, tab n b) = Ok (cvtab n z')).
  apply fill_cvtab; [lia|]. intros i a' b' Hi.
  assert (St : forall k x y, 0 <= k < 3 -> (o0 <- get_off (sdi n 3 vr o zr) k ;; t <- int_ (i + o0) ;; jr <- imod t n ;;
        o1 <- get_off (sdi n 3 vi o zi) k ;; t <- int_ (i + o1) ;; ji <- imod t n ;;
        ar <- get_vec (sdi n 3 vr o zr) k i ;; ai <- get_vec (sdi n 3 vi o zi) k i ;;
        zrj <- grd (gtab n (fun i => fst (z i))) jr ;; zij <- grd (gtab n (fun i => snd (z i))) ji ;;
        Ok ((x + (ar * zrj - ai * zij))%num, (y + (ar * zij + ai * zrj))%num)) = Ok ((x + fst (raw_term vr vi o n z i k))%num, (y + snd (raw_term vr vi o n z i k))%num)).
  { intros k x y Hk. pose proof (Ho k Hk). rewrite !get_off_sdi by auto. cbn [bind]. rewrite int_in by lia. cbn [bind].
    rewrite imod_ok by lia. cbn [bind]. rewrite Z.rem_mod_nonneg by lia.
    assert (0 <= (i + o k) mod n < n) by (apply Z.mod_pos_bound; lia).
    rewrite !get_vec_sdi by auto. cbn [bind]. rewrite !grd_gtab by auto. reflexivity. }
  rewrite for_step by lia. rewrite St by lia. cbn [bind]. rewrite for_step by lia. rewrite St by lia. cbn [bind].
  rewrite for_step by lia. rewrite St by lia. cbn [bind]. rewrite for_nil by lia. cbn [bind]. reflexivity.
Qed.
End Raw.

(** ** The tables *)
(** [f_split_stage] for any two functions in place of cos(PI/N*k) and sin(PI/N*k) *)
Definition gsplit_stage (co si : Z -> Z -> R) (LOGN n : Z) (Ar Ai : sd Rops) : res (sd Rops * sd Rops) :=
  let H := 2 ^ (LOGN - 1) in
  let N := 2 ^ LOGN in
  let M := 2 ^ (LOGN - n - 2) in
  Ar <- sd_setzero H 3 Ar ;;
  Ai <- sd_setzero H 3 Ai ;;
  Ar <- set_off Ar 0 0 ;; Ai <- set_off Ai 0 0 ;;
  Ar <- set_off Ar 1 M ;; Ai <- set_off Ai 1 M ;;
  Ar <- set_off Ar 2 (N / 2 - M) ;; Ai <- set_off Ai 2 (N / 2 - M) ;;
  for_ 0 (2 ^ n) (fun k '(Ar, Ai) =>
    '(Ar, Ai, _) <- for_ 0 M (fun i '(Ar, Ai, fivei) =>
        Ar <- set_element (K := Rops) H 3 Ar (2 * M * k + i) (2 * M * k + i) 1%R ;;
        Ar <- set_element (K := Rops) H 3 Ar (2 * M * k + M + i) (2 * M * k + i) 1%R ;;
        Ar <- set_element (K := Rops) H 3 Ar (2 * M * k + i) (2 * M * k + M + i) (co N fivei) ;;
        Ai <- set_element (K := Rops) H 3 Ai (2 * M * k + i) (2 * M * k + M + i) (si N fivei) ;;
        Ar <- set_element (K := Rops) H 3 Ar (2 * M * k + M + i) (2 * M * k + M + i) (- co N fivei)%R ;;
        Ai <- set_element (K := Rops) H 3 Ai (2 * M * k + M + i) (2 * M * k + M + i) (- si N fivei)%R ;;
        t <- int_ (fivei * 5) ;; N2 <- int_ (2 * N) ;; fivei <- imod t N2 ;;
        Ok (Ar, Ai, fivei)) (Ar, Ai, 2 ^ n) ;;
    Ok (Ar, Ai)) (Ar, Ai).

Lemma gsplit_stage_ok (co si : Z -> Z -> R) LOGN d Ar Ai a0 b0 c0 a1 b1 c1 : 2 <= LOGN <= 27 -> 0 <= d < LOGN - 1 ->
  Ar = sdt (2 ^ (LOGN - 1)) 3 a0 b0 c0 -> Ai = sdt (2 ^ (LOGN - 1)) 3 a1 b1 c1 ->
  let n := 2 ^ (LOGN - 1) in let M := 2 ^ (LOGN - d - 2) in let c := 2 ^ d in
  gsplit_stage co si LOGN d Ar Ai = Ok (sdi n 3 (VR M c (fun i => co (2 * n) ((c * 5 ^ i) mod (2 * (2 * n))))) (o3 n M) (zR c),
                                 sdi n 3 (VI M (fun i => si (2 * n) ((c * 5 ^ i) mod (2 * (2 * n))))) (o3 n M) zI).
Proof.
  intros HL Hd EAr EAi. cbv zeta. unfold gsplit_stage.
  assert (HN : 2 ^ LOGN = 2 * 2 ^ (LOGN - 1)) by (rewrite <- Z.pow_succ_r by lia; f_equal; lia).
  assert (Hn : 2 ^ (LOGN - 1) = 2 * 2 ^ (LOGN - d - 2) * 2 ^ d).
  { rewrite <- Z.pow_succ_r, <- Z.pow_add_r by lia. f_equal. lia. }
  assert (Hnb : 2 ^ (LOGN - 1) <= 2 ^ 26) by (apply Z.pow_le_mono_r; lia).
  assert (HM : 0 < 2 ^ (LOGN - d - 2)) by (apply Z.pow_pos_nonneg; lia).
  assert (Hc : 0 < 2 ^ d) by (apply Z.pow_pos_nonneg; lia).
  rewrite HN. set (n := 2 ^ (LOGN - 1)) in *. set (M := 2 ^ (LOGN - d - 2)) in *. set (c := 2 ^ d) in *. clearbody n M c.
  assert (Hge : 2 * M <= n) by nia.
  replace (2 * n / 2) with n by (rewrite Z.mul_comm, Z.div_mul; lia).
  rewrite (sd_setzero_ok (K := Rops) n 3 Ar a0 b0 c0) by (auto; lia). cbn [bind].
  rewrite (sd_setzero_ok (K := Rops) n 3 Ai a1 b1 c1) by (auto; lia). cbn [bind].
  repeat (rewrite set_off_sdi by lia; cbn [bind]).
  set (cs := fun i => co (2 * n) ((c * 5 ^ i) mod (2 * (2 * n)))). set (sn := fun i => si (2 * n) ((c * 5 ^ i) mod (2 * (2 * n)))).
  pose (z0 := fun (_ _ : Z) => (0%R : Rops)).
  rewrite (for_closed _ (fun k => (sdi (F := Rops) n 3 (vat M (VR M c cs) k 0) (o3 n M) (zat (zR c) k 0),
      sdi (F := Rops) n 3 (vat M (VI M sn) k 0) (o3 n M) (zat zI k 0))) _ _ _
      (sdi (F := Rops) n 3 (VR M c cs) (o3 n M) (zR c), sdi (F := Rops) n 3 (VI M sn) (o3 n M) zI)); auto; try lia.
  - f_equal; apply sdi_ext; intros.
    all: try (unfold vat, doneb; pose proof (Z.div_pos i (2 * M) ltac:(lia) ltac:(lia)); pose proof (Z.mod_pos_bound i M ltac:(lia));
      destruct (Z.ltb_spec (i / (2 * M)) 0), (Z.ltb_spec (i mod M) 0); try lia; rewrite andb_false_r; reflexivity).
    all: try reflexivity.
    all: unfold up1, o3; assert (s = 0 \/ s = 1 \/ s = 2) as [->|[->| ->]] by lia; reflexivity.
  - f_equal; apply sdi_ext; intros.
    all: try (unfold vat, doneb; assert (i / (2 * M) < c) by (apply Z.div_lt_upper_bound; lia); destruct (Z.ltb_spec (i / (2 * M)) c); [reflexivity|lia]).
    all: try reflexivity.
    all: unfold zat; destruct (Z.eqb_spec c 0); [lia|reflexivity].
  - intros k Hk. pose (N := 2 * n).
    rewrite (for_closed _ (fun i => (sdi (F := Rops) n 3 (vat M (VR M c cs) k i) (o3 n M) (zat (zR c) k i),
      sdi (F := Rops) n 3 (vat M (VI M sn) k i) (o3 n M) (zat zI k i), (c * 5 ^ i) mod (2 * N))) _ _ _
      (sdi (F := Rops) n 3 (vat M (VR M c cs) k M) (o3 n M) (zat (zR c) k M),
      sdi (F := Rops) n 3 (vat M (VI M sn) k M) (o3 n M) (zat zI k M), (c * 5 ^ M) mod (2 * N))); auto; try lia.
    + cbn [bind]. f_equal. f_equal; apply sdi_ext; intros; auto.
      all: first [apply (v_row M HM); lia | apply (z_row M HM); lia].
    + apply f_equal. rewrite Z.pow_0_r, Z.mul_1_r. symmetry. apply Z.mod_small. unfold N. nia.
    + intros i Hi. assert (Hp : 0 <= 2 * M * k + i /\ 2 * M * k + M + i < n) by nia.
      pose proof (set_at n M c HM Hc Hn Hnb) as SA.
      replace (2 * M * k + M + i) with (2 * M * k + i + M) by lia.
      rewrite (SA 0) by (try lia; apply (fd_same n M c); auto). cbn [bind].
      rewrite (SA (sH c)) by (try (unfold sH; destruct (c =? 1); lia); try lia; apply (fd_down n M c); auto). cbn [bind].
      rewrite (SA 1) by (try lia; apply (fd_up n M c); auto). cbn [bind].
      rewrite (SA 1) by (try lia; apply (fd_up n M c); auto). cbn [bind].
      rewrite (SA 0) by (try lia; apply (fd_same n M c); auto). cbn [bind].
      rewrite (SA 0) by (try lia; apply (fd_same n M c); auto). cbn [bind].
      replace (2 * M * k + i + M) with (2 * M * k + M + i) by lia.
      assert (HmN : 0 <= (c * 5 ^ i) mod (2 * N) < 2 * N) by (apply Z.mod_pos_bound; unfold N; lia).
      pose proof (int_mod5 ((c * 5 ^ i) mod (2 * N)) N HmN ltac:(unfold N; lia)) as HI. fold N.
      destruct (int_ ((c * 5 ^ i) mod (2 * N) * 5)); cbn [bind] in HI |- *; try discriminate.
      destruct (int_ (2 * N)); cbn [bind] in HI |- *; try discriminate. rewrite HI. cbn [bind].
      change (co N ((c * 5 ^ i) mod (2 * N))) with (cs i). change (si N ((c * 5 ^ i) mod (2 * N))) with (sn i).

      f_equal. f_equal; [f_equal|].
      * apply sdi_ext; intros; auto. { apply (vr_step n M c HM Hc cs k i s i0); auto. } { apply zr_step; lia. }
      * apply sdi_ext; intros; auto. { apply (vi_step n M c HM Hc sn k i s i0); auto. } { apply zi_step; lia. }
      * rewrite Z.mul_mod_idemp_l by (unfold N; lia). f_equal. rewrite Z.pow_add_r by lia. ring.
Qed.

Lemma f_split_stage_is F LOGN n Ar Ai : f_split_stage F LOGN n Ar Ai = gsplit_stage (f_cos F) (f_sin F) LOGN n Ar Ai.
Proof. reflexivity. Qed.

(** ** The transforms in closed form *)
Section Closed.
Context (F : fpu) (LOGN : Z) (HL : 2 <= LOGN <= 27).
Let n := 2 ^ (LOGN - 1).
Let L := Z.to_nat (LOGN - 1).
Let N := 2 * n.
Notation Md := (Md LOGN).

Definition fcs (d i : Z) : R := f_cos F (2 * 2 ^ (LOGN - 1)) ((2 ^ d * 5 ^ i) mod (2 * (2 * 2 ^ (LOGN - 1)))).
Definition fsn (d i : Z) : R := f_sin F (2 * 2 ^ (LOGN - 1)) ((2 ^ d * 5 ^ i) mod (2 * (2 * 2 ^ (LOGN - 1)))).
Definition f_fwd_tables : list (sd Rops) * list (sd Rops) :=
  (tab (LOGN - 1) (fun d => sdi (F := Rops) n 3 (VR (Md d) (2 ^ d) (fcs d)) (o3 n (Md d)) (zR (2 ^ d))),
   tab (LOGN - 1) (fun d => sdi (F := Rops) n 3 (VI (Md d) (fsn d)) (o3 n (Md d)) zI)).
Definition f_bwd_tables : list (sd Rops) * list (sd Rops) :=
  (tab (LOGN - 1) (fun d => sdi (F := Rops) n 3 (TR n (Md d) (2 ^ d) (fcs d)) (tr_off n (o3 n (Md d))) (zR (2 ^ d))),
   tab (LOGN - 1) (fun d => sdi (F := Rops) n 3 (TI n (Md d) (fsn d)) (tr_off n (o3 n (Md d))) zI)).

Lemma f_splitU0NR_ok : f_splitU0NR F LOGN (fst (new_tables LOGN)) (snd (new_tables LOGN)) = Ok f_fwd_tables.
Proof.
  unfold f_splitU0NR, new_tables. cbn [fst snd]. rewrite repeat_tab. pose proof (n_pos LOGN HL).
  change (for_ 0 (LOGN - 1) (fun k '(Ar, Ai) =>
    a <- lget Ar k ;; b <- lget Ai k ;;
    '(a, b) <- gsplit_stage (f_cos F) (f_sin F) LOGN k a b ;;
    Ar <- lset Ar k a ;; Ai <- lset Ai k b ;; Ok (Ar, Ai)) (tab (LOGN - 1) (fun _ => sd_new Rops n 3), tab (LOGN - 1) (fun _ => sd_new Rops n 3)) = Ok f_fwd_tables).
  rewrite (for_closed _ (fun k =>
    (tab (LOGN - 1) (fun d => if d <? k then sdi (F := Rops) n 3 (VR (Md d) (2 ^ d) (fcs d)) (o3 n (Md d)) (zR (2 ^ d)) else sd_new Rops n 3),
     tab (LOGN - 1) (fun d => if d <? k then sdi (F := Rops) n 3 (VI (Md d) (fsn d)) (o3 n (Md d)) zI else sd_new Rops n 3))) _ _ _ f_fwd_tables); auto; try lia.
  - f_equal; apply tab_ext; intros d Hd; destruct (Z.ltb_spec d 0); auto; lia.
  - unfold f_fwd_tables. f_equal; apply tab_ext; intros d Hd; destruct (Z.ltb_spec d (LOGN - 1)); auto; lia.
  - intros d Hd. rewrite !lget_tab by lia. cbn [bind]. destruct (Z.ltb_spec d d); [lia|].
    rewrite (gsplit_stage_ok (f_cos F) (f_sin F) LOGN d _ _ (fun _ _ => None) (fun _ => None) (fun _ => None) (fun _ _ => None) (fun _ => None) (fun _ => None));
      auto using sd_new_sdt. cbn [bind]. rewrite !lset_tab by lia. cbn [bind]. apply f_equal.
    apply f_equal2; apply tab_ext; intros k Hk; destruct (Z.eqb_spec k d), (Z.ltb_spec k d), (Z.ltb_spec k (d + 1)); try lia; subst; auto.
Qed.

Lemma f_inv_tables_ok : f_inv_tables F LOGN = Ok f_bwd_tables.
Proof.
  unfold f_inv_tables. rewrite f_splitU0NR_ok. unfold f_fwd_tables. cbn [bind]. pose proof (n_pos LOGN HL). fold n in H |- *.
  change (@sd_transpose (Fops F)) with (@sd_transpose Rops). change (@sd_negate (Fops F)) with (@sd_negate Rops). change (car (Fops F)) with R.
  rewrite (for_closed _ (fun k =>
    (tab (LOGN - 1) (fun d => if d <? k then sdi (F := Rops) n 3 (TR n (Md d) (2 ^ d) (fcs d)) (tr_off n (o3 n (Md d))) (zR (2 ^ d))
        else sdi (F := Rops) n 3 (VR (Md d) (2 ^ d) (fcs d)) (o3 n (Md d)) (zR (2 ^ d))),
     tab (LOGN - 1) (fun d => if d <? k then sdi (F := Rops) n 3 (TI n (Md d) (fsn d)) (tr_off n (o3 n (Md d))) zI
        else sdi (F := Rops) n 3 (VI (Md d) (fsn d)) (o3 n (Md d)) zI))) _ _ _ f_bwd_tables); auto; try lia.
  - apply f_equal2; apply tab_ext; intros d Hd; destruct (Z.ltb_spec d 0); auto; lia.
  - unfold f_bwd_tables. apply f_equal2; apply tab_ext; intros d Hd; destruct (Z.ltb_spec d (LOGN - 1)); auto; lia.
  - intros d Hd. pose proof (Md_pos LOGN d Hd). pose proof (n_Md LOGN d Hd) as HnM. fold n in HnM. assert (0 < 2 ^ d) by (apply Z.pow_pos_nonneg; lia).
    assert (Ho : forall s, 0 <= s < 3 -> o3 n (Md d) s < n) by (intros s Hs; apply (o3_offs n (Md d) (2 ^ d)); auto).
    rewrite lget_tab by lia. cbn [bind]. destruct (Z.ltb_spec d d); [lia|].
    rewrite sd_transpose_ok by (auto; lia). cbn [bind]. rewrite lset_tab by lia. cbn [bind].
    rewrite lget_tab by lia. cbn [bind]. destruct (Z.ltb_spec d d); [lia|].
    rewrite sd_transpose_ok by (auto; lia). cbn [bind]. rewrite sd_negate_ok by lia. cbn [bind]. rewrite lset_tab by lia. cbn [bind]. apply f_equal.
    apply f_equal2; apply tab_ext; intros k Hk; destruct (Z.eqb_spec k d), (Z.ltb_spec k d), (Z.ltb_spec k (d + 1)); try lia; subst; auto.
Qed.

Definition f_stage (d : Z) (x : Z -> RC) : Z -> RC := raw_sum (K := Fops F) (VR (Md d) (2 ^ d) (fcs d)) (VI (Md d) (fsn d)) (o3 n (Md d)) n x.
Definition f_istage (d : Z) (x : Z -> RC) : Z -> RC := raw_sum (K := Fops F) (TR n (Md d) (2 ^ d) (fcs d)) (TI n (Md d) (fsn d)) (tr_off n (o3 n (Md d))) n x.
Fixpoint f_fwd (t : nat) (x : Z -> RC) : Z -> RC := match t with O => x | S t' => f_stage (LOGN - 2 - Z.of_nat t') (f_fwd t' x) end.
Fixpoint f_hb (k : nat) (y : Z -> RC) : Z -> RC := match k with O => y | S k' => f_istage (Z.of_nat k') (f_hb k' y) end.
Definition f_fwd_state (st : tables) := st = None \/ st = Some f_fwd_tables.
Definition f_bwd_state (st : tables) := st = None \/ st = Some f_bwd_tables.

Lemma f_mvp_stage d (x : Z -> RC) a b : 0 <= d < LOGN - 1 ->
  mvp3 (K := Fops F) n (gtab n (fun i => cre Rops (x i))) (gtab n (fun i => cim Rops (x i)))
    (sdi (F := Rops) n 3 (VR (Md d) (2 ^ d) (fcs d)) (o3 n (Md d)) (zR (2 ^ d)))
    (sdi (F := Rops) n 3 (VI (Md d) (fsn d)) (o3 n (Md d)) zI) (tab n a) (tab n b)
  = Ok (cvtab (K := Rops) n (f_stage d x)).
Proof.
  intros Hd. pose proof (Md_pos LOGN d Hd). pose proof (n_Md LOGN d Hd) as HnM. fold n in HnM. assert (0 < 2 ^ d) by (apply Z.pow_pos_nonneg; lia).
  pose proof (n_pos LOGN HL) as Hp. fold n in Hp.
  apply (mvp3_raw (K := Fops F) n x). { lia. } { apply (o3_offs n (Md d) (2 ^ d)); auto. }
Qed.
Lemma f_mvp_istage d (x : Z -> RC) a b : 0 <= d < LOGN - 1 ->
  mvp3 (K := Fops F) n (gtab n (fun i => cre Rops (x i))) (gtab n (fun i => cim Rops (x i)))
    (sdi (F := Rops) n 3 (TR n (Md d) (2 ^ d) (fcs d)) (tr_off n (o3 n (Md d))) (zR (2 ^ d)))
    (sdi (F := Rops) n 3 (TI n (Md d) (fsn d)) (tr_off n (o3 n (Md d))) zI) (tab n a) (tab n b)
  = Ok (cvtab (K := Rops) n (f_istage d x)).
Proof.
  intros Hd. pose proof (Md_pos LOGN d Hd). pose proof (n_Md LOGN d Hd) as HnM. fold n in HnM. assert (0 < 2 ^ d) by (apply Z.pow_pos_nonneg; lia).
  pose proof (n_pos LOGN HL) as Hp. fold n in Hp.
  apply (mvp3_raw (K := Fops F) n x). { lia. } { apply (tr_offs n (Md d) (2 ^ d)); auto. }
Qed.

Lemma f_fftNR_ok st (m : Z -> R) a b : f_fwd_state st ->
  f_fftNR F LOGN st (gtab N m) (tab n a) (tab n b) = Ok (Some f_fwd_tables, cvtab (K := Rops) n (f_fwd L (fold_c LOGN m))).
Proof.
  intros Hst. unfold f_fftNR. rewrite (half_N LOGN HL). fold n. pose proof (n_pos LOGN HL) as Hn. fold n in Hn.
  assert (E0 : match st with Some t => Ok t | None => f_splitU0NR F LOGN (fst (new_tables LOGN)) (snd (new_tables LOGN)) end = Ok f_fwd_tables)
    by (destruct Hst as [->| ->]; [apply f_splitU0NR_ok|reflexivity]).
  change (car (Fops F)) with R in *. rewrite E0. cbn [bind]. destruct f_fwd_tables as [Tr Ti] eqn:ET. cbn [bind].
  rewrite (fill_cvtab (K := Rops) n _ a b (fold_c LOGN m)).
  2:{ lia. }
  2:{ intros i a' b' Hi. rewrite !grd_gtab by (unfold N; lia). cbn [bind]. unfold fold_c, cre, cim, mk. cbn [fst snd]. reflexivity. }
  cbn [bind cvtab].
  pose (x := fold_c LOGN m). pose (t := fun d => Z.to_nat (LOGN - 2 - d)).
  pose (um := fun (pr : RC -> R) d i => if d =? LOGN - 2 then None else Some (pr (f_fwd (t (d + 1)%Z) x i))).
  rewrite (for_down_closed _ (fun d => (gtab n (fun i => cre Rops (f_fwd (t d) x i)), gtab n (fun i => cim Rops (f_fwd (t d) x i)),
      tab n (um (cre Rops) d), tab n (um (cim Rops) d))) _ _ _
      (gtab n (fun i => cre Rops (f_fwd L x i)), gtab n (fun i => cim Rops (f_fwd L x i)), tab n (um (cre Rops) (-1)), tab n (um (cim Rops) (-1)))).
  - cbn [bind]. reflexivity.
  - lia.
  - unfold t, um. rewrite !Z.eqb_refl. replace (Z.to_nat (LOGN - 2 - (LOGN - 2))) with O by lia. rewrite !gfresh_tab. reflexivity.
  - unfold t. replace (Z.to_nat (LOGN - 2 - (0 - 1))) with L by (unfold L; lia). reflexivity.
  - intros d Hd. rewrite (fill_cvtab (K := Rops) n _ _ _ (f_fwd (t d) x)).
    2:{ lia. }
    2:{ intros i a' b' Hi. rewrite !grd_gtab by auto. cbn [bind]. reflexivity. }
    unfold f_fwd_tables in ET. injection ET as <- <-. cbn [bind cvtab]. rewrite !lget_tab by lia. cbn [bind].
    pose proof (f_mvp_stage d (f_fwd (t d) x) (fun i => Some (cre Rops (f_fwd (t d) x i))) (fun i => Some (cim Rops (f_fwd (t d) x i))) ltac:(lia)) as EM.
    match goal with |- context [@mvp3 ?K ?a ?b ?c ?d1 ?e ?f ?g] => assert (EM' : @mvp3 K a b c d1 e f g = Ok (cvtab (K := Rops) n (f_stage (LOGN - 2 - Z.of_nat (t d)) (f_fwd (t d) x))))
      by (replace (LOGN - 2 - Z.of_nat (t d)) with d by (unfold t; lia); exact EM); rewrite EM' end.
    cbn [bind cvtab]. apply f_equal.
    assert (Et : t (d - 1) = S (t d)) by (unfold t; lia). rewrite Et. cbn [f_fwd].
    unfold um. replace (d - 1 + 1) with d by lia. destruct (Z.eqb_spec (d - 1) (LOGN - 2)); [lia|]. reflexivity.
Qed.

(** The last step of ifftNR *)
Definition f_scale (x : R) : R := rnd F (rnd F (x * 2) / IZR N).
Lemma f_ifftNR_ok st (y : Z -> RC) f : f_bwd_state st ->
  f_ifftNR F LOGN st (gtab n (fun i => cre Rops (y i))) (gtab n (fun i => cim Rops (y i))) (tab N f)
  = Ok (Some f_bwd_tables, gtab N (fun i => f_scale (unfold_c n (f_hb L y) i))).
Proof.
  intros Hst. unfold f_ifftNR. rewrite (half_N LOGN HL). fold n. pose proof (n_pos LOGN HL) as Hn. fold n in Hn.
  assert (E0 : match st with Some t => Ok t | None => f_inv_tables F LOGN end = Ok f_bwd_tables)
    by (destruct Hst as [->| ->]; [apply f_inv_tables_ok|reflexivity]).
  change (car (Fops F)) with R in *. rewrite E0. cbn [bind]. destruct f_bwd_tables as [Tr Ti] eqn:ET. cbn [bind]. clear E0.
  rewrite (fill_pair n ltac:(lia) _ f y). 2:{ intros i g Hi. rewrite !grd_gtab by auto. reflexivity. }
  cbn [bind].
  pose (um := fun (pr : RC -> R) d i => if d =? 0 then None else Some (pr (f_hb (Z.to_nat (d - 1)) y i))).
  rewrite (for_closed _ (fun d => (gtab N (unfold_c n (f_hb (Z.to_nat d) y)), tab n (um (cre Rops) d), tab n (um (cim Rops) d))) _ _ _
      (gtab N (unfold_c n (f_hb L y)), tab n (um (cre Rops) (LOGN - 1)), tab n (um (cim Rops) (LOGN - 1)))).
  - cbn [bind]. rewrite (N_is LOGN HL). fold n. fold N.
    rewrite (for_closed _ (fun i => gtab N (fun j => if j <? i then f_scale (unfold_c n (f_hb L y) j) else unfold_c n (f_hb L y) j))
       _ _ _ (gtab N (fun i => f_scale (unfold_c n (f_hb L y) i)))).
    + reflexivity.
    + unfold N. lia.
    + unfold gtab. apply tab_ext. intros j Hj. destruct (Z.ltb_spec j 0); [lia|auto].
    + unfold gtab. apply tab_ext. intros j Hj. destruct (Z.ltb_spec j N); [auto|lia].
    + intros i Hi. rewrite grd_gtab by lia. cbn [bind]. unfold gtab. rewrite gwr_tab by lia. apply f_equal. apply tab_ext. intros j Hj.
      destruct (Z.ltb_spec i i); [lia|]. destruct (Z.eqb_spec j i), (Z.ltb_spec j i), (Z.ltb_spec j (i + 1)); subst; auto; lia.
  - lia.
  - unfold um. cbn [Z.eqb]. rewrite !gfresh_tab. reflexivity.
  - reflexivity.
  - intros d Hd. cbn [bind].
    rewrite (fill_cvtab (K := Rops) n _ _ _ (f_hb (Z.to_nat d) y)).
    2:{ lia. }
    2:{ intros i a' b' Hi. rewrite (grd_lo n), (grd_hi n) by (auto; lia). reflexivity. }
    unfold f_bwd_tables in ET. injection ET as <- <-. cbn [bind cvtab]. rewrite !lget_tab by lia. cbn [bind].
    destruct (halves n ltac:(lia) (f_hb (Z.to_nat d) y)) as [H1 H2]. fold N in H1, H2. change (car Rops) with R. rewrite H1, H2. clear H1 H2. 
    pose proof (f_mvp_istage d (f_hb (Z.to_nat d) y) (fun i => Some (cre Rops (f_hb (Z.to_nat d) y i))) (fun i => Some (cim Rops (f_hb (Z.to_nat d) y i))) ltac:(lia)) as EM.
    match goal with |- context [@mvp3 ?K ?a ?b ?c ?d1 ?e ?f ?g] => assert (EM' : @mvp3 K a b c d1 e f g = Ok (cvtab (K := Rops) n (f_istage d (f_hb (Z.to_nat d) y))))
      by exact EM; rewrite EM' end. cbn [bind cvtab].
    apply f_equal. rewrite (gtab_app n) by lia.
    assert (Ed : Z.to_nat (d + 1) = S (Z.to_nat d)) by lia. rewrite Ed. cbn [f_hb]. rewrite Z2Nat.id by lia.
    unfold um. replace (d + 1 - 1) with d by lia. destruct (Z.eqb_spec (d + 1) 0); [lia|]. reflexivity.
Qed.

Lemma raw_sum_ext {K : ops} vr vi o m (z z' : Z -> K * K) i : 0 < m -> (forall p, 0 <= p < m -> z p = z' p) -> raw_sum vr vi o m z i = raw_sum vr vi o m z' i.
Proof.
  intros Hm H. unfold raw_sum, raw_term. assert (E : forall k, z ((i + o k) mod m) = z' ((i + o k) mod m)) by (intros k; apply H; apply Z.mod_pos_bound; auto).
  rewrite !E. reflexivity.
Qed.
Lemma f_fwd_ext t (x x' : Z -> RC) : (forall p, 0 <= p < n -> x p = x' p) -> forall p, 0 <= p < n -> f_fwd t x p = f_fwd t x' p.
Proof.
  intros H. induction t; intros p Hp; cbn [f_fwd]; [auto|]. unfold f_stage. apply (raw_sum_ext (K := Fops F)); [pose proof (n_pos LOGN HL); unfold n; lia|exact IHt].
Qed.

Lemma brv_n i : 0 <= i < n -> bitReverse i (LOGN - 1) = Ok (brv L i) /\ 0 <= brv L i < n /\ brv L (brv L i) = i.
Proof. apply (brv_L LOGN HL). Qed.
Lemma f_fft_ok st (m : Z -> R) a b : f_fwd_state st ->
  f_fft F LOGN st (gtab N m) (tab n a) (tab n b)
  = Ok (Some f_fwd_tables, cvtab (K := Rops) n (f_fwd L (fun p => fold_c LOGN m (brv L p)))).
Proof.
  intros Hst. unfold f_fft. rewrite (half_N LOGN HL). fold n. pose proof (n_pos LOGN HL) as Hn. fold n in Hn. rewrite (N_is LOGN HL). fold n. fold N. rewrite gfresh_tab.
  pose (mn := fun i => if i <? n then m (brv L i) else m (brv L (i - n) + n)).
  rewrite (for_closed _ (fun i => tab N (fun j => if j <? n then (if brv L j <? i then Some (m (brv L j)) else None)
      else if brv L (j - n) <? i then Some (m (brv L (j - n) + n)) else None)) _ _ _ (gtab N mn)).
  - cbn [bind]. rewrite f_fftNR_ok by auto. apply f_equal. apply f_equal. apply cvtab_ext. intros j Hj. apply f_fwd_ext; auto.
    intros p Hp. unfold fold_c, mn. fold n.
    destruct (Z.ltb_spec p n), (Z.ltb_spec (p + n) n); try lia. replace (p + n - n) with p by lia. reflexivity.
  - lia.
  - apply tab_ext. intros j Hj. unfold N in Hj.
    destruct (Z.ltb_spec j n) as [Hl|Hl].
    + destruct (brv_n j ltac:(lia)) as (_ & Hb & _). destruct (Z.ltb_spec (brv L j) 0); [lia|auto].
    + destruct (brv_n (j - n) ltac:(lia)) as (_ & Hb & _). destruct (Z.ltb_spec (brv L (j - n)) 0); [lia|auto].
  - unfold gtab, mn. apply tab_ext. intros j Hj. unfold N in Hj.
    destruct (Z.ltb_spec j n) as [Hl|Hl].
    + destruct (brv_n j ltac:(lia)) as (_ & Hb & _). destruct (Z.ltb_spec (brv L j) n); [auto|lia].
    + destruct (brv_n (j - n) ltac:(lia)) as (_ & Hb & _). destruct (Z.ltb_spec (brv L (j - n)) n); [auto|lia].
  - intros i Hi. destruct (brv_n i Hi) as (-> & Hb & Hi2). cbn [bind]. rewrite grd_gtab by (unfold N; lia). cbn [bind].
    rewrite gwr_tab by (unfold N; lia). cbn [bind]. rewrite grd_gtab by (unfold N; lia). cbn [bind]. rewrite gwr_tab by (unfold N; lia).
    apply f_equal. apply tab_ext. intros j Hj. unfold N in Hj.
    destruct (Z.eqb_spec j (brv L i + n)) as [E1|E1].
    + subst j. destruct (Z.ltb_spec (brv L i + n) n); [lia|]. replace (brv L i + n - n) with (brv L i) by lia. rewrite Hi2.
      destruct (Z.ltb_spec i (i + 1)); [auto|lia].
    + destruct (Z.eqb_spec j (brv L i)) as [E2|E2].
      * subst j. rewrite Hi2. destruct (Z.ltb_spec (brv L i) n); [|lia]. destruct (Z.ltb_spec i (i + 1)); [auto|lia].
      * destruct (Z.ltb_spec j n) as [Hl|Hl].
        -- destruct (brv_n j ltac:(lia)) as (_ & Hb' & Hj2). assert (brv L j <> i) by (intros E; rewrite E in Hj2; congruence).
           destruct (Z.ltb_spec (brv L j) i), (Z.ltb_spec (brv L j) (i + 1)); auto; lia.
        -- destruct (brv_n (j - n) ltac:(lia)) as (_ & Hb' & Hj2). assert (brv L (j - n) <> i) by (intros E; rewrite E in Hj2; lia).
           destruct (Z.ltb_spec (brv L (j - n)) i), (Z.ltb_spec (brv L (j - n)) (i + 1)); auto; lia.
Qed.


Lemma f_ifft_ok st (y : Z -> RC) f : f_bwd_state st ->
  f_ifft F LOGN st (gtab n (fun i => cre Rops (y i))) (gtab n (fun i => cim Rops (y i))) (tab N f)
  = Ok (Some f_bwd_tables, gtab N (fun i => f_scale (unfold_c n (fun k => f_hb L y (brv L k)) i))).
Proof.
  intros Hst. unfold f_ifft. rewrite (half_N LOGN HL). fold n. pose proof (n_pos LOGN HL) as Hn. fold n in Hn. rewrite (N_is LOGN HL). fold n. fold N. rewrite gfresh_tab.
  rewrite f_ifftNR_ok by auto. cbn [bind].
  pose (sc := fun z : RC => mk Rops (f_scale (fst z)) (f_scale (snd z))).
  assert (Eu : forall g : Z -> RC, gtab N (fun i => f_scale (unfold_c n g i)) = gtab N (unfold_c n (fun k => sc (g k)))).
  { intros g. unfold gtab. apply tab_ext. intros i Hi. unfold unfold_c, sc, cre, cim, mk. cbn [fst snd]. destruct (i <? n); auto. }
  rewrite !Eu. rewrite (fill_pair n ltac:(lia) _ f (fun k => sc (f_hb L y (brv L k)))).
  2:{ intros i g Hi. destruct (brv_n i Hi) as (-> & Hb & Hi2). cbn [bind]. rewrite (grd_lo n) by (auto; lia). cbn [bind]. rewrite (grd_hi n) by (auto; lia). reflexivity. }
  cbn [bind]. reflexivity.
Qed.
End Closed.
