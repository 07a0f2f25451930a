(** dft, idft, fft, ifft in closed form. *)
From Coq Require Import ZArith List Bool Lia Reals Lra Ring.
From Verif Require Import Base BaseFacts Util UtilFacts ZQFacts3 GSum Matrix MatrixFacts MatMulFacts DFT DFTTheory DFTFacts.
Import ListNotations.
Open Scope Z_scope.

Lemma gsum3 {K : ops} (f : Z -> K) : gsum 3 f = (0 + f 0%Z + f 1%Z + f 2%Z)%num.
Proof. reflexivity. Qed.

Lemma mod_mod_mul a b c : 0 < b -> 0 < c -> (a mod (b * c)) mod b = a mod b.
Proof.
  intros. rewrite Z.rem_mul_r by lia. replace (a mod b + b * ((a / b) mod c)) with (a mod b + (a / b) mod c * b) by lia.
  rewrite Z.mod_add, Z.mod_mod by lia. reflexivity.
Qed.
Lemma RC_eq (a b : RC) : fst a = fst b -> snd a = snd b -> a = b.
Proof. destruct a, b; cbn; congruence. Qed.
Ltac ceq := apply RC_eq; unfold cre, cim; cbn; ring.

Section Stage.
Context (n M c : Z) (HM : 0 < M) (Hc : 0 < c) (Hn : n = 2 * M * c).
Context (cs sn : Z -> R).
Let w (i : Z) : RC := mk Rops (cs i) (sn i).

Lemma o3_offs : offs n 3 (o3 n M).
Proof. intros s Hs. unfold o3. assert (2 * M <= n) by nia. destruct (s =? 0), (s =? 1); lia. Qed.

Lemma pos_low p : 0 <= p < n -> p mod (2 * M) < M -> p + M < n.
Proof.
  intros Hp H. pose proof (Z.div_mod p (2 * M) ltac:(lia)) as E. assert (p / (2 * M) < c) by (apply Z.div_lt_upper_bound; lia).
  pose proof (Z.div_pos p (2 * M) ltac:(lia) ltac:(lia)). nia.
Qed.
Lemma pos_high p : 0 <= p < n -> M <= p mod (2 * M) -> M <= p.
Proof.
  intros Hp H. pose proof (Z.mod_le p (2 * M) ltac:(lia) ltac:(lia)). lia.
Qed.

Lemma apply_stage (x : Z -> RC) p : 0 <= p < n ->
  gsum n (fun j => dense (K := RC) n 3 (cvec (K := Rops) (VR M c cs) (VI M sn)) (o3 n M) p j * x j)%num = stage M w x p.
Proof.
  intros Hp. assert (Hge : 2 * M <= n) by nia.
  rewrite (dense_apply (Clawful Rlawful)) by (auto; lia). rewrite gsum3. unfold stage, cvec, VR, VI, o3, sH. cbn [Z.eqb Pos.eqb].
  rewrite Z.add_0_r. destruct (Z.ltb_spec (p mod (2 * M)) M) as [H|H].
  - pose proof (pos_low p Hp H). rewrite (Z.mod_small p), (Z.mod_small (p + M)) by lia. cbn.
    unfold w. ceq.
  - pose proof (pos_high p Hp H). rewrite (Z.mod_small p n) by lia.
    replace (p + (n - M)) with (p - M + 1 * n) by lia. rewrite Z.mod_add, (Z.mod_small (p - M)) by lia.
    destruct (Z.eqb_spec c 1) as [E|E]; cbn.
    + assert (n = 2 * M) by (rewrite Hn, E; lia). replace ((p + M) mod n) with (p - M).
      2:{ replace (p + M) with (p - M + 1 * n) by lia. rewrite Z.mod_add, Z.mod_small by lia. reflexivity. }
      unfold w. ceq.
    + unfold w. ceq.
Qed.

Definition TR (s i : Z) : R := tr_vec (K := Rops) n (VR M c cs) (o3 n M) s i.
Definition TI (s i : Z) : R := (- tr_vec (K := Rops) n (VI M sn) (o3 n M) s i)%R.
Lemma tr_offs : offs n 3 (tr_off n (o3 n M)).
Proof. intros s Hs. unfold tr_off. pose proof (o3_offs s Hs). destruct (Z.gtb_spec (o3 n M s) 0); lia. Qed.

Lemma apply_istage (x : Z -> RC) p : 0 <= p < n ->
  gsum n (fun j => dense (K := RC) n 3 (cvec (K := Rops) TR TI) (tr_off n (o3 n M)) p j * x j)%num = istage M w x p.
Proof.
  intros Hp. assert (Hge : 2 * M <= n) by nia.
  rewrite (dense_apply (Clawful Rlawful)) by (auto; lia). rewrite gsum3. unfold istage, cvec, TR, TI, tr_vec, tr_off, o3. cbn [Z.eqb Pos.eqb].
  destruct (Z.gtb_spec 0 0) as [G0|G0]; [lia|]. destruct (Z.gtb_spec M 0) as [G1|G1]; [|lia]. destruct (Z.gtb_spec (n - M) 0) as [G2|G2]; [|lia].
  replace (n - (n - M)) with M by lia. rewrite Z.add_0_r. rewrite (Z.mod_small p n) by lia.
  replace (p - (n - M)) with (p + M + (-1) * n) by lia. rewrite Z.mod_add by lia.
  replace (p + (n - M)) with (p - M + 1 * n) by lia. rewrite Z.mod_add by lia.
  assert (Hmn : forall a, (a mod n) mod (2 * M) = a mod (2 * M)).
  { intros a. rewrite Hn. apply mod_mod_mul; lia. }
  assert (HmM : forall a, (a mod n) mod M = a mod M).
  { intros a. rewrite Hn. replace (2 * M * c) with (M * (2 * c)) by lia. apply mod_mod_mul; lia. }
  unfold VR, VI, sH. rewrite !Hmn, !HmM. rewrite blk_up, blk_down by auto. cbn [Z.eqb Pos.eqb].
  pose proof (Z.mod_pos_bound p (2 * M) ltac:(lia)) as Hb.
  destruct (Z.ltb_spec (p mod (2 * M)) M) as [H|H].
  - pose proof (pos_low p Hp H). rewrite (Z.mod_small (p + M) n) by lia. rewrite (blk_low M p HM H).
    destruct (Z.ltb_spec (p mod (2 * M) + M) M); [lia|].
    replace ((p - M) mod (2 * M)) with (p mod (2 * M) + M).
    2:{ replace (p - M) with (p + M + (-1) * (2 * M)) by lia. rewrite Z.mod_add, (blk_low M p HM H) by lia. reflexivity. }
    destruct (Z.ltb_spec (p mod (2 * M) + M) M); [lia|]. destruct (Z.eqb_spec c 1) as [E|E]; cbn.
    + assert (n = 2 * M) by (rewrite Hn, E; lia). replace ((p - M) mod n) with (p + M).
      2:{ replace (p - M) with (p + M + (-1) * n) by lia. rewrite Z.mod_add, Z.mod_small by lia. reflexivity. }
      unfold w. ceq.
    + unfold w. ceq.
  - pose proof (pos_high p Hp H). rewrite (Z.mod_small (p - M) n) by lia. rewrite (blk_high M p HM H).
    destruct (Z.ltb_spec (p mod (2 * M) - M) M); [|lia].
    replace ((p + M) mod (2 * M)) with (p mod (2 * M) - M).
    2:{ replace (p + M) with (p - M + 1 * (2 * M)) by lia. rewrite Z.mod_add, (blk_high M p HM H) by lia. reflexivity. }
    destruct (Z.ltb_spec (p mod (2 * M) - M) M); [|lia]. cbn. unfold w. ceq.
Qed.
End Stage.

(** A real array of 2n entries seen as n complex numbers. *)
Section Halves.
Context (n : Z) (Hn0 : 0 < n).
Let N := 2 * n.
Definition unfold_c (z : Z -> RC) (i : Z) : R := if i <? n then cre Rops (z i) else cim Rops (z (i - n)).
Lemma gtab_app (f g : Z -> R) : gtab n f ++ gtab n g = gtab N (fun i => if i <? n then f i else g (i - n)).
Proof.
  unfold gtab, N. replace (2 * n) with (n + n) by lia. rewrite tab_app by lia.
  f_equal; apply tab_ext; intros i Hi.
  - destruct (Z.ltb_spec i n); [auto|lia].
  - destruct (Z.ltb_spec (n + i) n); [lia|]. do 2 f_equal. lia.
Qed.
Lemma fill_pair (body : Z -> rarr -> res rarr) f (z : Z -> RC) :
  (forall i g, 0 <= i < n -> body i (tab N g) = (m <- gwr (tab N g) i (fst (z i)) ;; gwr m (i + n) (snd (z i)))) ->
  for_ 0 n body (tab N f) = Ok (gtab N (unfold_c z)).
Proof.
  intros H.
  rewrite (for_closed _ (fun i => tab N (fun j => if j <? n then (if j <? i then Some (fst (z j)) else f j)
      else if j - n <? i then Some (snd (z (j - n))) else f j)) _ _ _ (gtab N (unfold_c z))); auto; try lia.
  - apply tab_ext. intros j Hj. destruct (Z.ltb_spec j n), (Z.ltb_spec j 0), (Z.ltb_spec (j - n) 0); auto; lia.
  - unfold gtab. apply tab_ext. intros j Hj. unfold unfold_c, cre, cim. unfold N in Hj.
    destruct (Z.ltb_spec j n), (Z.ltb_spec (j - n) n); auto; lia.
  - intros i Hi. rewrite H by auto. rewrite gwr_tab by (unfold N; lia). cbn [bind]. rewrite gwr_tab by (unfold N; lia).
    apply f_equal. apply tab_ext. intros j Hj.
    destruct (Z.eqb_spec j (i + n)) as [E1|E1].
    + subst j. destruct (Z.ltb_spec (i + n) n); [lia|]. replace (i + n - n) with i by lia. destruct (Z.ltb_spec i (i + 1)); [auto|lia].
    + destruct (Z.eqb_spec j i) as [E2|E2].
      * subst j. destruct (Z.ltb_spec i n); [|lia]. destruct (Z.ltb_spec i (i + 1)); [auto|lia].
      * destruct (Z.ltb_spec j n), (Z.ltb_spec j i), (Z.ltb_spec j (i + 1)), (Z.ltb_spec (j - n) i), (Z.ltb_spec (j - n) (i + 1)); auto; lia.
Qed.

Lemma grd_lo z i : 0 <= i < n -> grd (gtab N (unfold_c z)) i = Ok (cre Rops (z i)).
Proof. intros. rewrite grd_gtab by (unfold N; lia). unfold unfold_c. destruct (Z.ltb_spec i n); [auto|lia]. Qed.
Lemma grd_hi z i : 0 <= i < n -> grd (gtab N (unfold_c z)) (i + n) = Ok (cim Rops (z i)).
Proof.
  intros. rewrite grd_gtab by (unfold N; lia). unfold unfold_c. destruct (Z.ltb_spec (i + n) n); [lia|]. replace (i + n - n) with i by lia. auto.
Qed.

Lemma halves z : firstn (Z.to_nat n) (gtab N (unfold_c z)) = gtab n (fun i => cre Rops (z i)) /\
  skipn (Z.to_nat n) (gtab N (unfold_c z)) = gtab n (fun i => cim Rops (z i)).
Proof.
  pose proof (gtab_app (fun i => cre Rops (z i)) (fun i => cim Rops (z i))) as E. unfold unfold_c. rewrite <- E.
  assert (E1 : Z.to_nat n = length (gtab n (fun i => cre Rops (z i)))) by (unfold gtab; rewrite tab_length; reflexivity).
  rewrite E1. split.
  - rewrite firstn_app, Nat.sub_diag, firstn_all. cbn [firstn]. apply app_nil_r.
  - rewrite skipn_app, Nat.sub_diag, skipn_all. reflexivity.
Qed.

End Halves.

(** ** the tables *)
Section LogN.
Context (LOGN : Z) (HL : 2 <= LOGN <= 27).
Let n := 2 ^ (LOGN - 1).
Let L := Z.to_nat (LOGN - 1).
Let N := 2 * n.
Let e := eN N.

Definition Md (d : Z) := 2 ^ (LOGN - d - 2).
Definition csd (d i : Z) := cosN (2 * 2 ^ (LOGN - 1)) (2 ^ d * 5 ^ i).
Definition snd_ (d i : Z) := sinN (2 * 2 ^ (LOGN - 1)) (2 ^ d * 5 ^ i).
Definition fwd_tables : list (sd Rops) * list (sd Rops) :=
  (tab (LOGN - 1) (fun d => sdi (F := Rops) n 3 (VR (Md d) (2 ^ d) (csd d)) (o3 n (Md d)) (zR (2 ^ d))),
   tab (LOGN - 1) (fun d => sdi (F := Rops) n 3 (VI (Md d) (snd_ d)) (o3 n (Md d)) zI)).
Definition bwd_tables : list (sd Rops) * list (sd Rops) :=
  (tab (LOGN - 1) (fun d => sdi (F := Rops) n 3 (TR n (Md d) (2 ^ d) (csd d)) (tr_off n (o3 n (Md d))) (zR (2 ^ d))),
   tab (LOGN - 1) (fun d => sdi (F := Rops) n 3 (TI n (Md d) (snd_ d)) (tr_off n (o3 n (Md d))) zI)).

Lemma n_pos : 0 < n <= 2 ^ 26.
Proof. unfold n. split; [apply Z.pow_pos_nonneg; lia|apply Z.pow_le_mono_r; lia]. Qed.
Lemma N_is : 2 ^ LOGN = N.
Proof. unfold N, n. rewrite <- Z.pow_succ_r by lia. f_equal. lia. Qed.
Lemma half_N : 2 ^ LOGN / 2 = n.
Proof. rewrite N_is. unfold N. rewrite Z.mul_comm. apply Z.div_mul. lia. Qed.
Lemma Md_pos d : 0 <= d < LOGN - 1 -> 0 < Md d.
Proof. intros. apply Z.pow_pos_nonneg; lia. Qed.
Lemma n_Md d : 0 <= d < LOGN - 1 -> n = 2 * Md d * 2 ^ d.
Proof. intros. unfold n, Md. rewrite <- Z.pow_succ_r, <- Z.pow_add_r by lia. f_equal. lia. Qed.
Lemma L_is : Z.of_nat L = LOGN - 1.
Proof. unfold L. lia. Qed.

Lemma splitU0NR_ok : splitU0NR LOGN (fst (new_tables LOGN)) (snd (new_tables LOGN)) = Ok fwd_tables.
Proof.
  unfold splitU0NR, new_tables. cbn [fst snd]. rewrite repeat_tab. pose proof n_pos.
  rewrite (for_closed _ (fun k =>
    (tab (LOGN - 1) (fun d => if d <? k then sdi (F := Rops) n 3 (VR (Md d) (2 ^ d) (csd d)) (o3 n (Md d)) (zR (2 ^ d)) else sd_new Rops n 3),
     tab (LOGN - 1) (fun d => if d <? k then sdi (F := Rops) n 3 (VI (Md d) (snd_ d)) (o3 n (Md d)) zI else sd_new Rops n 3))) _ _ _ fwd_tables); auto; try lia.
  - f_equal; apply tab_ext; intros d Hd; destruct (Z.ltb_spec d 0); auto; lia.
  - unfold fwd_tables. f_equal; apply tab_ext; intros d Hd; destruct (Z.ltb_spec d (LOGN - 1)); auto; lia.
  - intros d Hd. rewrite !lget_tab by lia. cbn [bind]. destruct (Z.ltb_spec d d); [lia|].
    rewrite (split_stage_ok LOGN d _ _ (fun _ _ => None) (fun _ => None) (fun _ => None) (fun _ _ => None) (fun _ => None) (fun _ => None));
      auto using sd_new_sdt. cbn [bind]. rewrite !lset_tab by lia. cbn [bind]. apply f_equal.
    apply f_equal2; apply tab_ext; intros k Hk; destruct (Z.eqb_spec k d), (Z.ltb_spec k d), (Z.ltb_spec k (d + 1)); try lia; subst; auto.
Qed.

Lemma inv_tables_ok : inv_tables LOGN = Ok bwd_tables.
Proof.
  unfold inv_tables. rewrite splitU0NR_ok. unfold fwd_tables. cbn [bind]. pose proof n_pos. fold n.
  rewrite (for_closed _ (fun k =>
    (tab (LOGN - 1) (fun d => if d <? k then sdi (F := Rops) n 3 (TR n (Md d) (2 ^ d) (csd d)) (tr_off n (o3 n (Md d))) (zR (2 ^ d))
        else sdi (F := Rops) n 3 (VR (Md d) (2 ^ d) (csd d)) (o3 n (Md d)) (zR (2 ^ d))),
     tab (LOGN - 1) (fun d => if d <? k then sdi (F := Rops) n 3 (TI n (Md d) (snd_ d)) (tr_off n (o3 n (Md d))) zI
        else sdi (F := Rops) n 3 (VI (Md d) (snd_ d)) (o3 n (Md d)) zI))) _ _ _ bwd_tables); auto; try lia.
  - f_equal; apply tab_ext; intros d Hd; destruct (Z.ltb_spec d 0); auto; lia.
  - unfold bwd_tables. f_equal; apply tab_ext; intros d Hd; destruct (Z.ltb_spec d (LOGN - 1)); auto; lia.
  - intros d Hd. pose proof (Md_pos d Hd). pose proof (n_Md d Hd). assert (0 < 2 ^ d) by (apply Z.pow_pos_nonneg; lia).
    assert (Ho : forall s, 0 <= s < 3 -> o3 n (Md d) s < n) by (intros s Hs; apply (o3_offs n (Md d) (2 ^ d)); auto).
    rewrite lget_tab by lia. cbn [bind]. destruct (Z.ltb_spec d d); [lia|].
    rewrite sd_transpose_ok by (auto; lia). cbn [bind]. rewrite lset_tab by lia. cbn [bind].
    rewrite lget_tab by lia. cbn [bind]. destruct (Z.ltb_spec d d); [lia|].
    rewrite sd_transpose_ok by (auto; lia). cbn [bind]. rewrite sd_negate_ok by lia. cbn [bind]. rewrite lset_tab by lia. cbn [bind]. apply f_equal.
    apply f_equal2; apply tab_ext; intros k Hk; destruct (Z.eqb_spec k d), (Z.ltb_spec k d), (Z.ltb_spec k (d + 1)); try lia; subst; auto.
Qed.

Definition fwd_state (st : tables) := st = None \/ st = Some fwd_tables.
Definition bwd_state (st : tables) := st = None \/ st = Some bwd_tables.

Lemma tw_d d i : 0 <= d < LOGN - 1 -> tw L e (Z.to_nat (LOGN - 2 - d)) i = mk Rops (csd d i) (snd_ d i).
Proof.
  intros Hd. unfold tw, e, eN, csd, snd_. replace (Z.of_nat (L - 1 - Z.to_nat (LOGN - 2 - d))) with d by (unfold L; lia). reflexivity.
Qed.

Lemma mvp_stage d (x : Z -> RC) a b : 0 <= d < LOGN - 1 ->
  mvp3 (K := Rops) n (gtab n (fun i => cre Rops (x i))) (gtab n (fun i => cim Rops (x i)))
    (sdi (F := Rops) n 3 (VR (Md d) (2 ^ d) (csd d)) (o3 n (Md d)) (zR (2 ^ d)))
    (sdi (F := Rops) n 3 (VI (Md d) (snd_ d)) (o3 n (Md d)) zI) (tab n a) (tab n b)
  = Ok (cvtab (K := Rops) n (stage (Md d) (tw L e (Z.to_nat (LOGN - 2 - d))) x)).
Proof.
  intros Hd. pose proof (Md_pos d Hd). pose proof (n_Md d Hd). assert (0 < 2 ^ d) by (apply Z.pow_pos_nonneg; lia). pose proof n_pos.
  rewrite (mvp3_ok Rlawful n x _ _ (o3 n (Md d)) (zR (2 ^ d)) zI a b) by (try lia; apply (o3_offs n (Md d) (2 ^ d)); auto).
  f_equal. apply cvtab_ext. intros i Hi. rewrite (apply_stage n (Md d) (2 ^ d)) by auto.
  unfold stage. rewrite !tw_d by auto. reflexivity.
Qed.
Lemma mvp_istage d (x : Z -> RC) a b : 0 <= d < LOGN - 1 ->
  mvp3 (K := Rops) n (gtab n (fun i => cre Rops (x i))) (gtab n (fun i => cim Rops (x i)))
    (sdi (F := Rops) n 3 (TR n (Md d) (2 ^ d) (csd d)) (tr_off n (o3 n (Md d))) (zR (2 ^ d)))
    (sdi (F := Rops) n 3 (TI n (Md d) (snd_ d)) (tr_off n (o3 n (Md d))) zI) (tab n a) (tab n b)
  = Ok (cvtab (K := Rops) n (istage (Md d) (tw L e (Z.to_nat (LOGN - 2 - d))) x)).
Proof.
  intros Hd. pose proof (Md_pos d Hd). pose proof (n_Md d Hd). assert (0 < 2 ^ d) by (apply Z.pow_pos_nonneg; lia). pose proof n_pos.
  rewrite (mvp3_ok Rlawful n x _ _ (tr_off n (o3 n (Md d))) (zR (2 ^ d)) zI a b) by (try lia; apply (tr_offs n (Md d) (2 ^ d)); auto).
  f_equal. apply cvtab_ext. intros i Hi. rewrite (apply_istage n (Md d) (2 ^ d)) by auto.
  unfold istage. rewrite !tw_d by auto. reflexivity.
Qed.

(** a real array of 2n entries seen as n complex numbers and back *)
Definition fold_c (m : Z -> R) (l : Z) : RC := mk Rops (m l) (m (l + n)).

Lemma fftNR_ok st (m : Z -> R) a b : fwd_state st ->
  fftNR LOGN st (gtab N m) (tab n a) (tab n b) = Ok (Some fwd_tables, cvtab (K := Rops) n (fwd L e L (fold_c m))).
Proof.
  intros Hst. unfold fftNR. rewrite half_N. pose proof n_pos as Hn.
  assert (E0 : match st with Some t => Ok t | None => splitU0NR LOGN (fst (new_tables LOGN)) (snd (new_tables LOGN)) end = Ok fwd_tables)
    by (destruct Hst as [->| ->]; [apply splitU0NR_ok|reflexivity]).
  rewrite E0. cbn [bind]. destruct fwd_tables as [Tr Ti] eqn:ET. cbn [bind].
  rewrite (fill_cvtab (K := Rops) n _ a b (fold_c m)).
  2:{ lia. }
  2:{ intros i a' b' Hi. rewrite !grd_gtab by (unfold N; lia). cbn [bind]. unfold fold_c, cre, cim, mk. cbn [fst snd]. reflexivity. }
  cbn [bind cvtab].
  pose (x := fold_c m). pose (t := fun d => Z.to_nat (LOGN - 2 - d)).
  pose (um := fun (pr : RC -> R) d i => if d =? LOGN - 2 then None else Some (pr (fwd L e (t (d + 1)%Z) x i))).
  rewrite (for_down_closed _ (fun d => (gtab n (fun i => cre Rops (fwd L e (t d) x i)), gtab n (fun i => cim Rops (fwd L e (t d) x i)),
      tab n (um (cre Rops) d), tab n (um (cim Rops) d))) _ _ _
      (gtab n (fun i => cre Rops (fwd L e L x i)), gtab n (fun i => cim Rops (fwd L e L x i)), tab n (um (cre Rops) (-1)), tab n (um (cim Rops) (-1)))).
  - cbn [bind]. reflexivity.
  - lia.
  - unfold t, um. rewrite !Z.eqb_refl. replace (Z.to_nat (LOGN - 2 - (LOGN - 2))) with O by lia. rewrite !gfresh_tab. reflexivity.
  - unfold t. replace (Z.to_nat (LOGN - 2 - (0 - 1))) with L by (unfold L; lia). reflexivity.
  - intros d Hd. rewrite (fill_cvtab (K := Rops) n _ _ _ (fwd L e (t d) x)).
    2:{ lia. }
    2:{ intros i a' b' Hi. rewrite !grd_gtab by auto. cbn [bind]. reflexivity. }
    unfold fwd_tables in ET. injection ET as <- <-. cbn [bind cvtab]. rewrite !lget_tab by lia. cbn [bind].
    unfold gtab at 3 4. rewrite mvp_stage by lia. cbn [bind cvtab]. apply f_equal.
    assert (Et : t (d - 1) = S (t d)) by (unfold t; lia). rewrite Et. cbn [fwd].
    assert (EM : 2 ^ Z.of_nat (t d) = Md d) by (unfold t, Md; f_equal; lia). rewrite EM.
    unfold um. replace (d - 1 + 1) with d by lia. destruct (Z.eqb_spec (d - 1) (LOGN - 2)); [lia|]. reflexivity.
Qed.


Fixpoint hb (k : nat) (y : Z -> RC) : Z -> RC :=
  match k with O => y | S k' => istage (2 ^ Z.of_nat (L - 1 - k')) (tw L e (L - 1 - k')) (hb k' y) end.
Lemma hb_bwd k y : (k <= L)%nat -> bwd L e (L - k) (hb k y) = bwd L e L y.
Proof.
  induction k; intros Hk; [rewrite Nat.sub_0_r; reflexivity|].
  rewrite <- IHk by lia. replace (L - k)%nat with (S (L - S k)) by lia. cbn [bwd hb].
  replace (L - 1 - k)%nat with (L - S k)%nat by lia. reflexivity.
Qed.

Lemma ifftNR_ok st (y : Z -> RC) f : bwd_state st ->
  ifftNR LOGN st (gtab n (fun i => cre Rops (y i))) (gtab n (fun i => cim Rops (y i))) (tab N f)
  = Ok (Some bwd_tables, gtab N (fun i => (unfold_c n (bwd L e L y) i * 2 / IZR N)%R)).
Proof.
  intros Hst. unfold ifftNR. rewrite half_N. pose proof n_pos as Hn.
  assert (E0 : match st with Some t => Ok t | None => inv_tables LOGN end = Ok bwd_tables)
    by (destruct Hst as [->| ->]; [apply inv_tables_ok|reflexivity]).
  rewrite E0. cbn [bind]. destruct bwd_tables as [Tr Ti] eqn:ET. cbn [bind]. clear E0.
  rewrite (fill_pair n ltac:(lia) _ f y). 2:{ intros i g Hi. rewrite !grd_gtab by auto. reflexivity. }
  cbn [bind].
  pose (um := fun (pr : RC -> R) d i => if d =? 0 then None else Some (pr (hb (Z.to_nat (d - 1)) y i))).
  rewrite (for_closed _ (fun d => (gtab N (unfold_c n (hb (Z.to_nat d) y)), tab n (um (cre Rops) d), tab n (um (cim Rops) d))) _ _ _
      (gtab N (unfold_c n (bwd L e L y)), tab n (um (cre Rops) (LOGN - 1)), tab n (um (cim Rops) (LOGN - 1)))).
  - cbn [bind]. rewrite N_is.
    rewrite (for_closed _ (fun i => tab N (fun j => Some (if j <? i then (unfold_c n (bwd L e L y) j * 2 / IZR N)%R else unfold_c n (bwd L e L y) j)))
       _ _ _ (gtab N (fun i => (unfold_c n (bwd L e L y) i * 2 / IZR N)%R))).
    + reflexivity.
    + unfold N. lia.
    + unfold gtab. apply tab_ext. intros j Hj. destruct (Z.ltb_spec j 0); [lia|auto].
    + unfold gtab. apply tab_ext. intros j Hj. destruct (Z.ltb_spec j N); [auto|lia].
    + intros i Hi. change (tab N (fun j => Some (if j <? i then (unfold_c n (bwd L e L y) j * 2 / IZR N)%R else unfold_c n (bwd L e L y) j)))
        with (gtab N (fun j => (if j <? i then (unfold_c n (bwd L e L y) j * 2 / IZR N)%R else unfold_c n (bwd L e L y) j))).
      rewrite grd_gtab by lia. cbn [bind]. unfold gtab. rewrite gwr_tab by lia. apply f_equal. apply tab_ext. intros j Hj.
      destruct (Z.ltb_spec i i); [lia|]. destruct (Z.eqb_spec j i), (Z.ltb_spec j i), (Z.ltb_spec j (i + 1)); subst; auto; lia.
  - lia.
  - unfold um. cbn [Z.eqb]. rewrite !gfresh_tab. reflexivity.
  - assert (EL : Z.to_nat (LOGN - 1) = L) by reflexivity. rewrite EL. pose proof (hb_bwd L y ltac:(lia)) as E. rewrite Nat.sub_diag in E. cbn [bwd] in E.
    rewrite E. reflexivity.
  - intros d Hd. cbn [bind].
    rewrite (fill_cvtab (K := Rops) n _ _ _ (hb (Z.to_nat d) y)).
    2:{ lia. }
    2:{ intros i a' b' Hi. rewrite (grd_lo n), (grd_hi n) by (auto; lia). reflexivity. }
    unfold bwd_tables in ET. injection ET as <- <-. cbn [bind cvtab]. rewrite !lget_tab by lia. cbn [bind].
    destruct (halves n ltac:(lia) (hb (Z.to_nat d) y)) as [H1 H2]. fold N in H1, H2. change (car Rops) with R. rewrite H1, H2. clear H1 H2. unfold gtab at 3 4. rewrite mvp_istage by lia. cbn [bind cvtab].
    apply f_equal. rewrite (gtab_app n) by lia.
    assert (Ed : Z.to_nat (d + 1) = S (Z.to_nat d)) by lia. rewrite Ed. cbn [hb].
    assert (El : (L - 1 - Z.to_nat d)%nat = Z.to_nat (LOGN - 2 - d)) by (unfold L; lia). rewrite El.
    assert (EM : 2 ^ Z.of_nat (Z.to_nat (LOGN - 2 - d)) = Md d) by (unfold Md; f_equal; lia). rewrite EM.
    unfold um. replace (d + 1 - 1) with d by lia. destruct (Z.eqb_spec (d + 1) 0); [lia|]. reflexivity.
Qed.

Lemma brv_L i : 0 <= i < n -> bitReverse i (LOGN - 1) = Ok (brv L i) /\ 0 <= brv L i < n /\ brv L (brv L i) = i.
Proof.
  intros Hi. pose proof n_pos. split; [|split].
  - apply bitReverse_brv; [lia|]. assert (2 ^ 26 < 2 ^ 32) by reflexivity. lia.
  - pose proof (brv_range L i) as Hb. rewrite L_is in Hb. exact Hb.
  - apply brv_involutive. rewrite L_is. exact Hi.
Qed.

Lemma fwd_bound t (x x' : Z -> RC) p : (t <= L)%nat -> (forall p, 0 <= p < n -> x p = x' p) -> 0 <= p < n ->
  fwd L e t x p = fwd L e t x' p.
Proof.
  revert p. induction t; intros p Ht H Hp; cbn [fwd]; auto. pose proof n_pos.
  assert (HM : 0 < 2 ^ Z.of_nat t) by (apply Z.pow_pos_nonneg; lia).
  assert (Hc : 0 < 2 ^ (LOGN - 2 - Z.of_nat t)) by (apply Z.pow_pos_nonneg; unfold L in Ht; lia).
  assert (Hn : n = 2 * 2 ^ Z.of_nat t * 2 ^ (LOGN - 2 - Z.of_nat t)).
  { unfold n. rewrite <- Z.pow_succ_r, <- Z.pow_add_r by (unfold L in Ht; lia). f_equal. lia. }
  unfold stage. destruct (Z.ltb_spec (p mod (2 * 2 ^ Z.of_nat t)) (2 ^ Z.of_nat t)) as [Hl|Hl].
  - pose proof (pos_low n _ _ HM Hc Hn p Hp Hl). rewrite !IHt by (auto; lia). reflexivity.
  - pose proof (pos_high n (2 ^ Z.of_nat t) (2 ^ (LOGN - 2 - Z.of_nat t)) HM Hc p Hp Hl). rewrite !IHt by (auto; lia). reflexivity.
Qed.
Lemma e_N : e (2 * 2 ^ Z.of_nat L) = (- (1))%num.
Proof. rewrite L_is. fold n. unfold e. apply eN_N. unfold N. pose proof n_pos. lia. Qed.

Lemma fft_ok st (m : Z -> R) a b : fwd_state st ->
  fft LOGN st (gtab N m) (tab n a) (tab n b)
  = Ok (Some fwd_tables, cvtab (K := Rops) n (fun j => gsum (K := RC) n (fun l => fold_c m l * e (5 ^ j * l)%Z)%num)).
Proof.
  intros Hst. unfold fft. rewrite half_N. pose proof n_pos as Hn. rewrite N_is, gfresh_tab.
  pose (mn := fun i => if i <? n then m (brv L i) else m (brv L (i - n) + n)).
  rewrite (for_closed _ (fun i => tab N (fun j => if j <? n then (if brv L j <? i then Some (m (brv L j)) else None)
      else if brv L (j - n) <? i then Some (m (brv L (j - n) + n)) else None)) _ _ _ (gtab N mn)).
  - cbn [bind]. rewrite fftNR_ok by auto. apply f_equal. apply f_equal. apply cvtab_ext. intros j Hj.
    assert (Hj' : 0 <= j < 2 ^ Z.of_nat L) by (rewrite L_is; exact Hj).
    rewrite (fwd_bound L _ (fun p => fold_c m (brv L p)) j); auto.
    + rewrite (fwd_full Rlawful L e (eN_0 N) (eN_add N) e_N (fold_c m)) by auto. rewrite L_is. reflexivity.
    + intros p Hp. unfold fold_c, mn.
      destruct (Z.ltb_spec p n), (Z.ltb_spec (p + n) n); try lia. replace (p + n - n) with p by lia. reflexivity.
  - lia.
  - apply tab_ext. intros j Hj. unfold N in Hj.
    destruct (Z.ltb_spec j n) as [Hl|Hl].
    + destruct (brv_L j ltac:(lia)) as (_ & Hb & _). destruct (Z.ltb_spec (brv L j) 0); [lia|auto].
    + destruct (brv_L (j - n) ltac:(lia)) as (_ & Hb & _). destruct (Z.ltb_spec (brv L (j - n)) 0); [lia|auto].
  - unfold gtab, mn. apply tab_ext. intros j Hj. unfold N in Hj.
    destruct (Z.ltb_spec j n) as [Hl|Hl].
    + destruct (brv_L j ltac:(lia)) as (_ & Hb & _). destruct (Z.ltb_spec (brv L j) n); [auto|lia].
    + destruct (brv_L (j - n) ltac:(lia)) as (_ & Hb & _). destruct (Z.ltb_spec (brv L (j - n)) n); [auto|lia].
  - intros i Hi. destruct (brv_L i Hi) as (-> & Hb & Hi2). cbn [bind]. rewrite grd_gtab by (unfold N; lia). cbn [bind].
    rewrite gwr_tab by (unfold N; lia). cbn [bind]. rewrite grd_gtab by (unfold N; lia). cbn [bind]. rewrite gwr_tab by (unfold N; lia).
    apply f_equal. apply tab_ext. intros j Hj. unfold N in Hj.
    destruct (Z.eqb_spec j (brv L i + n)) as [E1|E1].
    + subst j. destruct (Z.ltb_spec (brv L i + n) n); [lia|]. replace (brv L i + n - n) with (brv L i) by lia. rewrite Hi2.
      destruct (Z.ltb_spec i (i + 1)); [auto|lia].
    + destruct (Z.eqb_spec j (brv L i)) as [E2|E2].
      * subst j. rewrite Hi2. destruct (Z.ltb_spec (brv L i) n); [|lia]. destruct (Z.ltb_spec i (i + 1)); [auto|lia].
      * destruct (Z.ltb_spec j n) as [Hl|Hl].
        -- destruct (brv_L j ltac:(lia)) as (_ & Hb' & Hj2). assert (brv L j <> i) by (intros E; rewrite E in Hj2; congruence).
           destruct (Z.ltb_spec (brv L j) i), (Z.ltb_spec (brv L j) (i + 1)); auto; lia.
        -- destruct (brv_L (j - n) ltac:(lia)) as (_ & Hb' & Hj2). assert (brv L (j - n) <> i) by (intros E; rewrite E in Hj2; lia).
           destruct (Z.ltb_spec (brv L (j - n)) i), (Z.ltb_spec (brv L (j - n)) (i + 1)); auto; lia.
Qed.

Lemma ifft_ok st (y : Z -> RC) f : bwd_state st ->
  ifft LOGN st (gtab n (fun i => cre Rops (y i))) (gtab n (fun i => cim Rops (y i))) (tab N f)
  = Ok (Some bwd_tables, gtab N (fun i => (unfold_c n (fun k => gsum (K := RC) n (fun j => (cconj Rops (e (5 ^ j * k)%Z) : RC) * y j)%num) i * 2 / IZR N)%R)).
Proof.
  intros Hst. unfold ifft. rewrite half_N. pose proof n_pos as Hn. rewrite N_is, gfresh_tab.
  rewrite ifftNR_ok by auto. cbn [bind].
  pose (sc := fun z : RC => mk Rops (fst z * 2 / IZR N)%R (snd z * 2 / IZR N)%R).
  assert (Eu : forall g : Z -> RC, gtab N (fun i => (unfold_c n g i * 2 / IZR N)%R) = gtab N (unfold_c n (fun k => sc (g k)))).
  { intros g. unfold gtab. apply tab_ext. intros i Hi. unfold unfold_c, sc, cre, cim, mk. cbn [fst snd]. destruct (i <? n); auto. }
  rewrite !Eu. rewrite (fill_pair n ltac:(lia) _ f (fun k => sc (bwd L e L y (brv L k)))).
  2:{ intros i g Hi. destruct (brv_L i Hi) as (-> & Hb & Hi2). cbn [bind]. rewrite (grd_lo n) by (auto; lia). cbn [bind]. rewrite (grd_hi n) by (auto; lia). reflexivity. }
  cbn [bind]. do 2 apply f_equal. unfold gtab. apply tab_ext. intros i Hi. unfold N in Hi. unfold unfold_c.
  assert (F : forall k, 0 <= k < n -> bwd L e L y (brv L k) = gsum (K := RC) n (fun j => (cconj Rops (e (5 ^ j * k)%Z) : RC) * y j)%num).
  { intros k Hk. rewrite (bwd_full Rlawful L e (eN_0 N) (eN_add N) e_N y k) by (rewrite L_is; exact Hk). rewrite L_is. reflexivity. }
  destruct (Z.ltb_spec i n); rewrite F by lia; reflexivity.
Qed.
End LogN.

(** ** the direct transforms *)
Section Direct.
Context (n : Z) (Hn : 0 < n <= 2 ^ 26).
Let N := 2 * n.

Lemma dft_ok (m : Z -> R) a b :
  dft N (gtab N m) (tab n a) (tab n b)
  = Ok (cvtab (K := Rops) n (fun j => gsum (K := RC) N (fun k => (mk Rops (m k) 0%R : RC) * eN N (5 ^ j * k)%Z)%num)).
Proof.
  unfold dft. assert (Eh : N / 2 = n) by (unfold N; rewrite Z.mul_comm; apply Z.div_mul; lia). rewrite Eh.
  assert (HN : 0 < N <= 2 ^ 27) by (unfold N; lia).
  pose (z := fun j => gsum (K := RC) N (fun k => (mk Rops (m k) 0%R : RC) * eN N (5 ^ j * k)%Z)%num).
  rewrite (for_closed _ (fun i => (tab n (fun j => if j <? i then Some (cre Rops (z j)) else a j),
      tab n (fun j => if j <? i then Some (cim Rops (z j)) else b j), 5 ^ i mod (2 * N))) _ _ _
      (gtab n (fun j => cre Rops (z j)), gtab n (fun j => cim Rops (z j)), 5 ^ n mod (2 * N))).
  - reflexivity.
  - lia.
  - rewrite (Z.mod_small (5 ^ 0)) by (change (5 ^ 0) with 1; unfold N; lia). change (5 ^ 0) with 1. apply f_equal2; [|reflexivity]. apply f_equal2;
      apply tab_ext; intros j Hj; destruct (Z.ltb_spec j 0); auto; lia.
  - apply f_equal2; [|reflexivity]. apply f_equal2; unfold gtab; apply tab_ext; intros j Hj; destruct (Z.ltb_spec j n); auto; lia.
  - intros i Hi. rewrite gwr_tab by lia. cbn [bind]. rewrite gwr_tab by lia. cbn [bind].
    set (ra := fun j => if j =? i then Some 0%R else if j <? i then Some (cre Rops (z j)) else a j).
    set (rb := fun j => if j =? i then Some 0%R else if j <? i then Some (cim Rops (z j)) else b j).
    pose (w := fun k => gsum (K := RC) k (fun k => (mk Rops (m k) 0%R : RC) * eN N (5 ^ i * k)%Z)%num).
    rewrite (for_closed _ (fun k => (tab n (fun j => if j =? i then Some (cre Rops (w k)) else ra j),
        tab n (fun j => if j =? i then Some (cim Rops (w k)) else rb j), (5 ^ i * k) mod (2 * N))) _ _ _
        (tab n (fun j => if j =? i then Some (cre Rops (w N)) else ra j), tab n (fun j => if j =? i then Some (cim Rops (w N)) else rb j), (5 ^ i * N) mod (2 * N))).
    + cbn [bind]. pose proof (Z.mod_pos_bound (5 ^ i) (2 * N) ltac:(lia)).
      rewrite int_in by (unfold in_int; lia). cbn [bind]. rewrite int_in by (unfold in_int; lia). cbn [bind].
      rewrite imod_ok by (unfold in_int; lia). cbn [bind]. rewrite Z.rem_mod_nonneg by lia. rewrite Z.mul_mod_idemp_l by lia.
      replace (5 ^ i * 5) with (5 ^ (i + 1)) by (rewrite Z.pow_add_r; lia). apply f_equal. apply f_equal2; [|reflexivity].
      apply f_equal2; apply tab_ext; intros j Hj; unfold ra, rb; destruct (Z.eqb_spec j i), (Z.ltb_spec j i), (Z.ltb_spec j (i + 1)); try subst j; auto; lia.
    + lia.
    + apply f_equal2; [apply f_equal2|]; [| |rewrite Z.mul_0_r, Z.mod_0_l; lia];
        apply tab_ext; intros j Hj; unfold ra, rb; destruct (Z.eqb_spec j i); auto.
    + reflexivity.
    + intros k Hk. assert (Hw : w (k + 1) = ((w k : RC) + (mk Rops (m k) 0%R : RC) * eN N (5 ^ i * k)%Z)%num) by (unfold w; rewrite gsum_S by lia; reflexivity).
      unfold grd at 1. rewrite lget_tab by lia. cbn [bind]. rewrite Z.eqb_refl. cbn [bind].
      rewrite grd_gtab by lia. cbn [bind]. rewrite gwr_tab by lia. cbn [bind].
      unfold grd at 1. rewrite lget_tab by lia. cbn [bind]. rewrite Z.eqb_refl. cbn [bind].
      rewrite gwr_tab by lia. cbn [bind].
      pose proof (Z.mod_pos_bound (5 ^ i) (2 * N) ltac:(lia)). pose proof (Z.mod_pos_bound (5 ^ i * k) (2 * N) ltac:(lia)).
      rewrite int_in by (unfold in_int; lia). cbn [bind]. rewrite int_in by (unfold in_int; lia). cbn [bind].
      rewrite imod_ok by (unfold in_int; lia). cbn [bind]. rewrite Z.rem_mod_nonneg by lia. rewrite <- Z.add_mod by lia.
      replace (5 ^ i * k + 5 ^ i) with (5 ^ i * (k + 1)) by lia.
      assert (Ec : cosN N ((5 ^ i * k) mod (2 * N)) = cosN N (5 ^ i * k)) by (pose proof (eN_mod N (5 ^ i * k) ltac:(lia)) as Q; injection Q; auto).
      assert (Es : sinN N ((5 ^ i * k) mod (2 * N)) = sinN N (5 ^ i * k)) by (pose proof (eN_mod N (5 ^ i * k) ltac:(lia)) as Q; injection Q; auto).
      rewrite Ec, Es, Hw. apply f_equal. apply f_equal2; [|reflexivity]. apply f_equal2; apply tab_ext; intros j Hj; destruct (Z.eqb_spec j i); auto; apply f_equal; unfold cre, cim, eN; cbn; ring.
Qed.

Lemma idft_ok (y : Z -> RC) f :
  idft N (gtab n (fun i => cre Rops (y i))) (gtab n (fun i => cim Rops (y i))) (tab N f)
  = Ok (gtab N (fun i => (unfold_c n (fun k => gsum (K := RC) n (fun j => (cconj Rops (eN N (5 ^ j * k)%Z) : RC) * y j)%num) i * 2 / IZR N)%R)).
Proof.
  unfold idft. assert (Eh : N / 2 = n) by (unfold N; rewrite Z.mul_comm; apply Z.div_mul; lia). rewrite Eh.
  assert (HN : 0 < N <= 2 ^ 27) by (unfold N; lia).
  pose (z := fun k => gsum (K := RC) n (fun j => (cconj Rops (eN N (5 ^ j * k)%Z) : RC) * y j)%num).
  pose (sc := fun z : RC => mk Rops (fst z * 2 / IZR N)%R (snd z * 2 / IZR N)%R).
  rewrite (fill_pair n ltac:(lia) _ f (fun k => sc (z k))).
  - apply f_equal. unfold gtab. apply tab_ext. intros i Hi. unfold unfold_c, sc, cre, cim, mk. cbn [fst snd]. destruct (i <? n); auto.
  - intros k g Hk. fold N.
    pose (w := fun i => gsum (K := RC) i (fun j => (cconj Rops (eN N (5 ^ j * k)%Z) : RC) * y j)%num).
    rewrite (for_closed _ (fun i => (cre Rops (w i), cim Rops (w i), (5 ^ i * k) mod (2 * N))) _ _ _
        (cre Rops (w n), cim Rops (w n), (5 ^ n * k) mod (2 * N))).
    + cbn [bind]. unfold sc, mk. cbn [fst snd]. change (z k) with (w n). unfold cre, cim. 
      replace (2 / IZR N * fst (w n))%R with (fst (w n) * 2 / IZR N)%R by (unfold Rdiv; ring).
      replace (2 / IZR N * snd (w n))%R with (snd (w n) * 2 / IZR N)%R by (unfold Rdiv; ring). reflexivity.
    + lia.
    + rewrite Z.mul_1_l, Z.mod_small by (unfold N; lia). reflexivity.
    + reflexivity.
    + intros i Hi. rewrite !grd_gtab by auto. cbn [bind].
      assert (Hw : w (i + 1) = ((w i : RC) + (cconj Rops (eN N (5 ^ i * k)%Z) : RC) * y i)%num) by (unfold w; rewrite gsum_S by lia; reflexivity).
      pose proof (Z.mod_pos_bound (5 ^ i * k) (2 * N) ltac:(lia)).
      rewrite int_in by (unfold in_int; lia). cbn [bind]. rewrite int_in by (unfold in_int; lia). cbn [bind].
      rewrite imod_ok by (unfold in_int; lia). cbn [bind]. rewrite Z.rem_mod_nonneg by lia. rewrite Z.mul_mod_idemp_l by lia.
      replace (5 ^ i * k * 5) with (5 ^ (i + 1) * k) by (rewrite Z.pow_add_r; lia).
      assert (Ec : cosN N ((5 ^ i * k) mod (2 * N)) = cosN N (5 ^ i * k)) by (pose proof (eN_mod N (5 ^ i * k) ltac:(lia)) as Q; injection Q; auto).
      assert (Es : sinN N ((5 ^ i * k) mod (2 * N)) = sinN N (5 ^ i * k)) by (pose proof (eN_mod N (5 ^ i * k) ltac:(lia)) as Q; injection Q; auto).
      rewrite Ec, Es, Hw. apply f_equal. apply f_equal2; [|reflexivity]. apply f_equal2; unfold cre, cim, eN; cbn; ring.
Qed.
End Direct.
