(** C51-C53: the transforms in exact arithmetic. *)
From Coq Require Import ZArith List Bool Lia Reals Lra Ring.
From Verif Require Import Base BaseFacts Util UtilFacts GSum Matrix MatrixFacts MatMulFacts DFT DFTTheory DFTFacts FFTFacts SpecMat Properties_Mat SpecDFT.
Import ListNotations.
Open Scope Z_scope.

Lemma cpow_eN N a k : (0 <= k) -> cpow (eN N a) (Z.to_nat k) = eN N (a * k).
Proof.
  intros Hk. pattern k. apply natlike_ind; auto.
  - rewrite Z.mul_0_r, eN_0. reflexivity.
  - intros j Hj IH. rewrite Z2Nat.inj_succ by lia. cbn [cpow]. rewrite IH. replace (a * Z.succ j) with (a + a * j) by lia.
    rewrite eN_add. reflexivity.
Qed.
Lemma point_eN N j : 0 < N -> point N j = eN N (5 ^ j).
Proof.
  intros HN. unfold point, cis, eN, cosN, sinN. replace (PI * IZR (5 ^ j) / IZR N)%R with (PI / IZR N * IZR (5 ^ j))%R; [reflexivity|].
  field. apply IZR_neq. lia.
Qed.
Lemma slot_eN N m j : 0 < N -> slot N m j = gsum (K := RC) N (fun k => (mk Rops (m k) 0%R : RC) * eN N (5 ^ j * k)%Z)%num.
Proof.
  intros HN. unfold slot, evaluate. apply gsum_ext. intros k Hk. rewrite point_eN, cpow_eN by lia. reflexivity.
Qed.

Section LogN.
Context (LOGN : Z) (HL : 2 <= LOGN <= 27).

Lemma N2 : 2 ^ LOGN = 2 * 2 ^ (LOGN - 1).
Proof. apply N_is. auto. Qed.

Lemma fold_slot m j : 0 <= j -> slot (2 ^ LOGN) m j
  = gsum (K := RC) (2 ^ (LOGN - 1)) (fun l => fold_c LOGN m l * eN (2 * 2 ^ (LOGN - 1)) (5 ^ j * l)%Z)%num.
Proof.
  intros Hj. pose proof (n_pos LOGN HL) as Hn. rewrite N2. rewrite slot_eN by lia.
  assert (EL : Z.of_nat (Z.to_nat (LOGN - 1)) = LOGN - 1) by lia.
  pose proof (folded Rlawful (Z.to_nat (LOGN - 1)) (eN (2 * 2 ^ (LOGN - 1)))) as F. rewrite EL in F.
  rewrite F; auto using eN_0, eN_add.
  - apply eN_N. lia.
  - apply eN_half. lia.
Qed.

Lemma fft_static_state st : fft_static LOGN st -> fwd_state LOGN st.
Proof.
  assert (Hx : forall st m zr zi st' out, fwd_state LOGN st -> fftNR LOGN st m zr zi = Ok (st', out) -> fwd_state LOGN st').
  { intros st0 m zr zi st' out Hs E. unfold fftNR in E.
    assert (E0 : match st0 with Some t => Ok t | None => splitU0NR LOGN (fst (new_tables LOGN)) (snd (new_tables LOGN)) end = Ok (fwd_tables LOGN))
      by (destruct Hs as [->| ->]; [apply splitU0NR_ok; auto|reflexivity]).
    rewrite E0 in E. cbn [bind] in E. destruct (fwd_tables LOGN) as [Tr Ti] eqn:ET. cbn [bind] in E.
    destruct (for_ 0 _ _ (zr, zi)) as [[? ?]| | |]; try discriminate. cbn [bind] in E.
    destruct (for_down _ _ _ _) as [[[[? ?] ?] ?]| | |]; try discriminate. cbn [bind] in E. injection E as <- _.
    right. rewrite ET. reflexivity. }
  induction 1 as [|st m zr zi st' out Hs IH E|st m zr zi st' out Hs IH E]; [left; reflexivity| |eapply Hx; eauto].
  unfold fft in E. destruct (for_ 0 _ _ _) as [?| | |] eqn:?; try discriminate. cbn [bind] in E. eapply Hx; eauto.
Qed.
Lemma ifft_static_state st : ifft_static LOGN st -> bwd_state LOGN st.
Proof.
  assert (Hx : forall st m zr zi st' out, bwd_state LOGN st -> ifftNR LOGN st zr zi m = Ok (st', out) -> bwd_state LOGN st').
  { intros st0 m zr zi st' out Hs E. unfold ifftNR in E.
    assert (E0 : match st0 with Some t => Ok t | None => inv_tables LOGN end = Ok (bwd_tables LOGN))
      by (destruct Hs as [->| ->]; [apply inv_tables_ok; auto|reflexivity]).
    rewrite E0 in E. cbn [bind] in E. destruct (bwd_tables LOGN) as [Tr Ti] eqn:ET. cbn [bind] in E.
    destruct (for_ 0 _ _ m) as [?| | |]; try discriminate. cbn [bind] in E.
    destruct (for_ 0 (LOGN - 1) _ _) as [[[? ?] ?]| | |]; try discriminate. cbn [bind] in E.
    destruct (for_ 0 _ _ _) as [?| | |]; try discriminate. cbn [bind] in E. injection E as <- _.
    right. rewrite ET. reflexivity. }
  induction 1 as [|st m zr zi st' out Hs IH E|st m zr zi st' out Hs IH E]; [left; reflexivity| |eapply Hx; eauto].
  unfold ifft in E. destruct (ifftNR _ _ _ _ _) as [[st1 mNR]| | |] eqn:E1; try discriminate. cbn [bind] in E.
  destruct (for_ 0 _ _ _) as [?| | |] eqn:?; try discriminate. cbn [bind] in E. injection E as <- _. eapply Hx; eauto.
Qed.

(** ** C51 *)
Theorem C51_dft (m : Z -> R) zr zi : cells (2 ^ (LOGN - 1)) zr -> cells (2 ^ (LOGN - 1)) zi ->
  dft (2 ^ LOGN) (array (2 ^ LOGN) m) zr zi = Ok (carray (K := Rops) (2 ^ (LOGN - 1)) (slot (2 ^ LOGN) m)).
Proof.
  intros Hr Hi. pose proof (n_pos LOGN HL) as Hn.
  destruct (cells_tab _ _ Hr) as [a ->]. destruct (cells_tab _ _ Hi) as [b ->]. rewrite array_gtab, carray_cvtab, N2.
  rewrite dft_ok by lia. f_equal. apply cvtab_ext. intros j Hj. symmetry. apply slot_eN. lia.
Qed.

Theorem C51_fft st (m : Z -> R) zr zi : fft_static LOGN st -> cells (2 ^ (LOGN - 1)) zr -> cells (2 ^ (LOGN - 1)) zi ->
  exists st', fft LOGN st (array (2 ^ LOGN) m) zr zi = Ok (st', carray (K := Rops) (2 ^ (LOGN - 1)) (slot (2 ^ LOGN) m)).
Proof.
  intros Hst Hr Hi. pose proof (n_pos LOGN HL) as Hn.
  destruct (cells_tab _ _ Hr) as [a ->]. destruct (cells_tab _ _ Hi) as [b ->]. rewrite array_gtab, carray_cvtab, N2.
  rewrite fft_ok by auto using fft_static_state. eexists. f_equal. f_equal. apply cvtab_ext. intros j Hj. symmetry.
  rewrite <- fold_slot by lia. rewrite N2. reflexivity.
Qed.

(** ** C52 *)
Let n := 2 ^ (LOGN - 1).
Let e := eN (2 * n).

Lemma two_pow_L t : two_pow (K := Rops) t = mk Rops (IZR (2 ^ Z.of_nat t)) 0%R.
Proof.
  induction t; [reflexivity|]. cbn [two_pow]. rewrite IHt. rewrite Nat2Z.inj_succ, Z.pow_succ_r by lia. rewrite mult_IZR.
  apply RC_eq; cbn; ring.
Qed.
Lemma inv1 (x : Z -> RC) k : 0 <= k < n ->
  gsum (K := RC) n (fun j => (cconj Rops (e (5 ^ j * k)%Z) : RC) * gsum (K := RC) n (fun l => x l * e (5 ^ j * l)%Z))%num
  = mk Rops (IZR n * fst (x k))%R (IZR n * snd (x k))%R.
Proof.
  intros Hk. set (L := Z.to_nat (LOGN - 1)). assert (EL : 2 ^ Z.of_nat L = n) by (unfold L, n; f_equal; lia).
  pose proof (n_pos LOGN HL) as Hn. fold n in Hn.
  pose proof (bwd_full Rlawful L e (eN_0 _) (eN_add _) (e_N LOGN HL) (fwd L e L (fun p => x (brv L p))) k ltac:(rewrite EL; auto)) as B.
  rewrite EL in B.
  rewrite (bwd_fwd Rlawful L e ltac:(intros; apply eN_unit)) in B.
  rewrite brv_involutive in B by (rewrite EL; auto). rewrite two_pow_L, EL in B.
  transitivity (gsum (K := RC) n (fun j => (cconj Rops (e (5 ^ j * k)%Z) : RC) * fwd L e L (fun p => x (brv L p)) j)%num).
  - apply gsum_ext. intros j Hj. f_equal. rewrite (fwd_full Rlawful L e (eN_0 _) (eN_add _) (e_N LOGN HL) x) by (rewrite EL; auto).
    rewrite EL. reflexivity.
  - unfold RC in *. rewrite <- B. apply RC_eq; cbn; ring.
Qed.
Lemma inv2 (y : Z -> RC) j : 0 <= j < n ->
  gsum (K := RC) n (fun l => gsum (K := RC) n (fun j => (cconj Rops (e (5 ^ j * l)%Z) : RC) * y j) * e (5 ^ j * l)%Z)%num
  = mk Rops (IZR n * fst (y j))%R (IZR n * snd (y j))%R.
Proof.
  intros Hj. set (L := Z.to_nat (LOGN - 1)). assert (EL : 2 ^ Z.of_nat L = n) by (unfold L, n; f_equal; lia).
  pose proof (n_pos LOGN HL) as Hn. fold n in Hn.
  pose proof (fwd_full Rlawful L e (eN_0 _) (eN_add _) (e_N LOGN HL) (fun p => bwd L e L y (brv L p)) j ltac:(rewrite EL; auto)) as F.
  rewrite EL in F.
  rewrite (fwd_bound LOGN HL L _ (bwd L e L y)) in F; auto.
  - rewrite (fwd_bwd Rlawful L e ltac:(intros; apply eN_unit)) in F. rewrite two_pow_L, EL in F.
    transitivity (gsum (K := RC) n (fun l => bwd L e L y (brv L l) * e (5 ^ j * l)%Z)%num).
    + apply gsum_ext. intros l Hl. f_equal. rewrite (bwd_full Rlawful L e (eN_0 _) (eN_add _) (e_N LOGN HL) y l) by (rewrite EL; auto).
      rewrite EL. reflexivity.
    + unfold RC in *. rewrite <- F. apply RC_eq; cbn; ring.
  - intros p Hp. rewrite brv_involutive by (rewrite EL; auto). reflexivity.
Qed.

Lemma two_over : (IZR n * 2 / IZR (2 * n) = 1)%R.
Proof. pose proof (n_pos LOGN HL) as Hn. fold n in Hn. rewrite mult_IZR. field. apply IZR_neq. lia. Qed.

Lemma unfold_fold (m : Z -> R) i : 0 <= i < 2 * n -> unfold_c n (fold_c LOGN m) i = m i.
Proof.
  intros Hi. unfold unfold_c, fold_c, cre, cim, mk. fold n. destruct (Z.ltb_spec i n); cbn; auto. f_equal. lia.
Qed.
Lemma fold_unfold (z : Z -> RC) i : 0 <= i < n -> fold_c LOGN (unfold_c n z) i = z i.
Proof.
  intros Hi. unfold unfold_c, fold_c, cre, cim, mk. fold n. destruct (Z.ltb_spec i n), (Z.ltb_spec (i + n) n); try lia.
  replace (i + n - n) with i by lia. destruct (z i); reflexivity.
Qed.

Theorem C52_ifft_idft st (z : Z -> CC) m : ifft_static LOGN st -> cells (2 ^ LOGN) m ->
  exists st' m', ifft LOGN st (fst (carray n z)) (snd (carray n z)) m = Ok (st', m') /\
    idft (2 ^ LOGN) (fst (carray n z)) (snd (carray n z)) m = Ok m'.
Proof.
  intros Hst Hm. pose proof (n_pos LOGN HL) as Hn. fold n in Hn. destruct (cells_tab _ _ Hm) as [f ->].
  rewrite carray_cvtab. unfold cvtab. cbn [fst snd]. rewrite N2. fold n.
  exists (Some (bwd_tables LOGN)). eexists. split; [apply ifft_ok; auto using ifft_static_state|]. apply idft_ok. auto.
Qed.

(** fft inverts ifft *)
Theorem C52_fft_ifft st (z : Z -> CC) m : ifft_static LOGN st -> cells (2 ^ LOGN) m ->
  exists st' c, ifft LOGN st (fst (carray n z)) (snd (carray n z)) m = Ok (st', array (2 ^ LOGN) c) /\
    forall i, 0 <= i < n -> slot (2 ^ LOGN) c i = z i.
Proof.
  intros Hst Hm. pose proof (n_pos LOGN HL) as Hn. fold n in Hn. destruct (cells_tab _ _ Hm) as [f ->].
  rewrite carray_cvtab. unfold cvtab. cbn [fst snd]. rewrite N2. fold n.
  pose (c := fun i => (unfold_c n (fun k => gsum (K := RC) n (fun j => (cconj Rops (e (5 ^ j * k)%Z) : RC) * z j)%num) i * 2 / IZR (2 * n))%R).
  exists (Some (bwd_tables LOGN)), c. split.
  - rewrite array_gtab. apply ifft_ok; auto using ifft_static_state.
  - intros i Hi. pose proof (fold_slot c i ltac:(lia)) as E. rewrite N2 in E. fold n in E. rewrite E.
    pose (r := mk Rops (2 / IZR (2 * n))%R 0%R : RC).
    transitivity (r * gsum (K := RC) n (fun l => gsum (K := RC) n (fun j => (cconj Rops (e (5 ^ j * l)%Z) : RC) * z j) * e (5 ^ i * l)%Z))%num.
    + rewrite <- (gsum_scale (Clawful Rlawful)). apply gsum_ext. intros l Hl. fold e.
      pose proof (fold_unfold (fun k => gsum (K := RC) n (fun j => (cconj Rops (e (5 ^ j * k)%Z) : RC) * z j)%num) l Hl) as Fu.
      rewrite <- Fu. unfold fold_c, c, r. fold n. apply RC_eq; unfold cre, cim, mk; cbn; unfold Rdiv; ring.
    + rewrite inv2 by auto. unfold r. pose proof two_over as Q. set (d := IZR (2 * n)) in *. clearbody d.
      apply RC_eq; cbn [fst snd mk omul Cops cmul cre cim Rops car].
      * replace (fst (z i)) with ((IZR n * 2 / d) * fst (z i))%R at 2 by (rewrite Q; ring). unfold Rdiv. cbn. ring.
      * replace (snd (z i)) with ((IZR n * 2 / d) * snd (z i))%R at 2 by (rewrite Q; ring). unfold Rdiv. cbn. ring.
Qed.

(** ifft inverts fft *)
Theorem C52_ifft_fft st (c : Z -> R) m : ifft_static LOGN st -> cells (2 ^ LOGN) m ->
  exists st', ifft LOGN st (fst (carray n (slot (2 ^ LOGN) c))) (snd (carray n (slot (2 ^ LOGN) c))) m = Ok (st', array (2 ^ LOGN) c).
Proof.
  intros Hst Hm. pose proof (n_pos LOGN HL) as Hn. fold n in Hn. destruct (cells_tab _ _ Hm) as [f ->].
  rewrite carray_cvtab, array_gtab. unfold cvtab. cbn [fst snd]. 
  exists (Some (bwd_tables LOGN)). pose proof (ifft_ok LOGN HL st (slot (2 ^ LOGN) c) f (ifft_static_state st Hst)) as E.
  rewrite <- N2 in E. fold n in E. rewrite E. clear E. do 2 f_equal.
  unfold gtab. rewrite N2. fold n. apply tab_ext. intros i Hi. f_equal.
  assert (G : forall k, 0 <= k < n -> gsum (K := RC) n (fun j => (cconj Rops (e (5 ^ j * k)%Z) : RC) * slot (2 * n) c j)%num
     = mk Rops (IZR n * fst (fold_c LOGN c k))%R (IZR n * snd (fold_c LOGN c k))%R).
  { intros k Hk. rewrite <- inv1 by auto. apply gsum_ext. intros j Hj. f_equal. pose proof (fold_slot c j ltac:(lia)) as E. rewrite N2 in E. exact E. }
  rewrite <- (unfold_fold c i Hi). fold e. unfold unfold_c. pose proof two_over as Q.
  destruct (Z.ltb_spec i n); rewrite G by lia; unfold cre, cim, mk; cbn [fst snd].
  - replace (IZR n * fst (fold_c LOGN c i) * 2 / IZR (2 * n))%R with ((IZR n * 2 / IZR (2 * n)) * fst (fold_c LOGN c i))%R by (unfold Rdiv; ring).
    rewrite Q. ring.
  - replace (IZR n * snd (fold_c LOGN c (i - n)) * 2 / IZR (2 * n))%R with ((IZR n * 2 / IZR (2 * n)) * snd (fold_c LOGN c (i - n)))%R by (unfold Rdiv; ring).
    rewrite Q. ring.
Qed.

(** the two compositions, as calls *)
Corollary C52_calls st (z : Z -> CC) m : ifft_static LOGN st -> cells (2 ^ LOGN) m ->
  exists st' m', ifft LOGN st (fst (carray n z)) (snd (carray n z)) m = Ok (st', m') /\
    forall stf zr zi, fft_static LOGN stf -> cells n zr -> cells n zi -> exists stf', fft LOGN stf m' zr zi = Ok (stf', carray n z).
Proof.
  intros Hst Hm. destruct (C52_fft_ifft st z m Hst Hm) as (st' & c & E & Hc). exists st', (array (2 ^ LOGN) c). split; auto.
  intros stf zr zi Hs Hr Hi. destruct (C51_fft stf c zr zi Hs Hr Hi) as [stf' E']. exists stf'. rewrite E'. do 2 f_equal.
  fold n. rewrite !carray_cvtab. apply cvtab_ext. auto.
Qed.
Corollary C52_idft_dft (c : Z -> R) zr zi m : cells n zr -> cells n zi -> cells (2 ^ LOGN) m ->
  exists z, dft (2 ^ LOGN) (array (2 ^ LOGN) c) zr zi = Ok z /\ idft (2 ^ LOGN) (fst z) (snd z) m = Ok (array (2 ^ LOGN) c).
Proof.
  intros Hr Hi Hm. exists (carray n (slot (2 ^ LOGN) c)). split; [apply C51_dft; auto|].
  destruct (C52_ifft_fft None c m (ifft_first LOGN) Hm) as [st' E]. destruct (C52_ifft_idft None (slot (2 ^ LOGN) c) m (ifft_first LOGN) Hm) as (st2 & m' & E1 & E2).
  rewrite E in E1. injection E1 as _ <-. exact E2.
Qed.

(** ** C53 *)
Lemma fftNR_static st m zr zi : fwd_state LOGN st -> fftNR LOGN st m zr zi = fftNR LOGN None m zr zi.
Proof. intros [->| ->]; auto. unfold fftNR. rewrite splitU0NR_ok by auto. reflexivity. Qed.
Lemma ifftNR_static st zr zi m : bwd_state LOGN st -> ifftNR LOGN st zr zi m = ifftNR LOGN None zr zi m.
Proof. intros [->| ->]; auto. unfold ifftNR. rewrite inv_tables_ok by auto. reflexivity. Qed.

Theorem C53_transforms cs : drun LOGN (None, None) cs = dfresh LOGN cs.
Proof.
  assert (H : forall cs s, fft_static LOGN (fst s) -> ifft_static LOGN (snd s) -> drun LOGN s cs = dfresh LOGN cs).
  2:{ apply H; constructor. }
  clear cs. intros cs. induction cs as [|c cs' IH]; intros [sf si] Hf Hi; cbn [fst snd] in *; [reflexivity|].
  pose proof (fft_static_state sf Hf) as Gf. pose proof (ifft_static_state si Hi) as Gi.
  cbn [drun dfresh]. destruct c as [m zr zi|m zr zi|zr zi m|zr zi m]; cbn [dstep fst snd].
  - assert (E0 : fft LOGN sf m zr zi = fft LOGN None m zr zi).
    { unfold fft. destruct (for_ 0 _ _ _); auto. cbn [bind]. apply fftNR_static. auto. }
    rewrite <- E0. destruct (fft LOGN sf m zr zi) as [[t [a b]]| | |] eqn:E; cbn [bind]; auto.
    rewrite IH; auto. cbn [fst]. eapply fft_next; eauto.
  - rewrite <- (fftNR_static sf) by auto. destruct (fftNR LOGN sf m zr zi) as [[t [a b]]| | |] eqn:E; cbn [bind]; auto.
    rewrite IH; auto. cbn [fst]. eapply fftNR_next; eauto.
  - assert (E0 : ifft LOGN si zr zi m = ifft LOGN None zr zi m).
    { unfold ifft. rewrite ifftNR_static by auto. reflexivity. }
    rewrite <- E0. destruct (ifft LOGN si zr zi m) as [[t a]| | |] eqn:E; cbn [bind]; auto.
    rewrite IH; auto. cbn [snd]. eapply ifft_next; eauto.
  - rewrite <- (ifftNR_static si) by auto. destruct (ifftNR LOGN si zr zi m) as [[t a]| | |] eqn:E; cbn [bind]; auto.
    rewrite IH; auto. cbn [snd]. eapply ifftNR_next; eauto.
Qed.
End LogN.

(** ** Concrete cases: N = 4 and the polynomial X^2, whose two slots are both the imaginary unit *)
Definition xx (k : Z) : R := if k =? 2 then 1%R else 0%R.
Lemma slot_xx j : 0 <= j < 2 -> slot 4 xx j = ci Rops.
Proof.
  intros Hj. rewrite slot_eN by lia. rewrite (gsum_single (Clawful Rlawful) 4 2); [|lia|].
  - assert (E : eN 4 (5 ^ j * 2) = ci Rops).
    { rewrite <- (eN_mod 4 (5 ^ j * 2)) by lia. assert (j = 0 \/ j = 1) as [->| ->] by lia.
      - exact (eN_half 2 ltac:(lia)).
      - exact (eN_half 2 ltac:(lia)). }
    rewrite E. unfold xx, ci. apply RC_eq; cbn; ring.
  - intros i Hi Hne. unfold xx. destruct (Z.eqb_spec i 2); [lia|]. apply RC_eq; cbn; ring.
Qed.
Example C51_example : exists st', fft 2 None (array 4 xx) (gfresh R 2) (gfresh R 2) = Ok (st', carray (K := Rops) 2 (fun _ => ci Rops)).
Proof.
  destruct (C51_fft 2 ltac:(lia) None xx (gfresh R 2) (gfresh R 2)) as [st' E]; [constructor|reflexivity|reflexivity|].
  exists st'. change (2 ^ 2) with 4 in E. change (2 ^ (2 - 1)) with 2 in E. rewrite E. do 2 f_equal. rewrite !carray_cvtab. apply cvtab_ext. intros. apply slot_xx. auto.
Qed.
Example C52_example : exists st' c, ifft 2 None (array 2 (fun _ => 0%R)) (array 2 (fun _ => 1%R)) (gfresh R 4) = Ok (st', array 4 c) /\
  forall i, 0 <= i < 2 -> slot 4 c i = ci Rops.
Proof. exact (C52_fft_ifft 2 ltac:(lia) None (fun _ => ci Rops) (gfresh R 4) (ifft_first 2) eq_refl). Qed.
Example C53_example : let c := CallFft (array 4 xx) (gfresh R 2) (gfresh R 2) in
  drun 2 (None, None) [c; c] <> Undef /\ drun 2 (None, None) [c; c] = dfresh 2 [c; c].
Proof.
  intros c. split; [|apply C53_transforms; lia].
  rewrite C53_transforms by lia. destruct C51_example as [st' E]. cbn [dfresh dstep c fst]. rewrite E. discriminate.
Qed.
