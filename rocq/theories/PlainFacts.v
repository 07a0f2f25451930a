(** Closed forms of the functions of Plain.v. *)
From Coq Require Import ZArith List Bool Lia Reals Lra Ring Znumtheory.
From Verif Require Import Base BaseFacts Sums ZQ ZQFacts ZQFacts2 ZQFacts3 RQ RQFacts Conv ConvFacts Rot RotFacts Util UtilFacts GSum Matrix MatrixFacts MatMulFacts
  DFT DFTTheory DFTFacts FFTFacts PolyRing SpecZQ SpecPoly SpecPolyFacts SpecMat Properties_Mat SpecDFT Properties_DFT SpecEnc SlotFacts
  Encode EncodeFacts Plain Properties_Conv Properties_Rot Properties_Enc.
Import ListNotations.
Open Scope Z_scope.

(** ** continuation of a real vector by a(k+N) = -a(k) *)
Definition rext (N : Z) (a : Z -> R) (k : Z) : R := if Z.even (k / N) then a (k mod N) else (- a (k mod N))%R.

Section Ext.
Context (N : Z) (HN : 1 <= N).

Lemma rext_in a k : 0 <= k < N -> rext N a k = a k.
Proof. intros Hk. unfold rext. rewrite Z.div_small, Z.mod_small by auto. reflexivity. Qed.
Lemma rext_shift a k : rext N a (k + N) = (- rext N a k)%R.
Proof.
  unfold rext. replace (k + N) with (k + 1 * N) by lia. rewrite Z.div_add, Z_mod_plus_full by lia.
  rewrite Z.add_1_r, Z.even_succ, <- Z.negb_even. destruct (Z.even (k / N)); cbn; ring.
Qed.
Lemma rext_2N a k m : rext N a (k + m * (2 * N)) = rext N a k.
Proof.
  unfold rext. replace (k + m * (2 * N)) with (k + (2 * m) * N) by lia. rewrite Z.div_add, Z_mod_plus_full by lia.
  rewrite Z.even_add. rewrite Z.even_mul. cbn. destruct (Z.even (k / N)); reflexivity.
Qed.
Lemma rext_mod2N a k : rext N a (k mod (2 * N)) = rext N a k.
Proof. rewrite <- (rext_2N a (k mod (2 * N)) (k / (2 * N))). f_equal. pose proof (Z.div_mod k (2 * N)). lia. Qed.

(** two antiperiodic functions that agree on [0,N) *)
Lemma anti_eq (f g : Z -> R) : (forall k, f (k + N) = (- f k)%R) -> (forall k, g (k + N) = (- g k)%R) -> (forall i, 0 <= i < N -> f i = g i) -> forall k, f k = g k.
Proof.
  intros Hf Hg H.
  assert (E : forall q r, 0 <= r < N -> f (r + q * N) = g (r + q * N)).
  { intros q r Hr. revert q. apply Z.bi_induction.
    - intros ? ? ->. tauto.
    - rewrite Z.mul_0_l, Z.add_0_r. auto.
    - intros q. replace (r + Z.succ q * N) with (r + q * N + N) by lia. rewrite Hf, Hg. split; intros; lra. }
  intros k. pose proof (Z.div_mod k N ltac:(lia)). pose proof (Z.mod_pos_bound k N ltac:(lia)).
  replace k with (k mod N + k / N * N) by lia. apply E. auto.
Qed.

Lemma rsub_iff g a b : rsubstituted N g a b <-> forall i, 0 <= i < N -> rext N b (g * i) = a i.
Proof.
  assert (E : forall i, rext N b (g * i) = (let j := (g * i) mod (2 * N) in if j <? N then b j else - b (j - N)%Z)%R).
  { intros i. cbv zeta. rewrite <- rext_mod2N. set (j := (g * i) mod (2 * N)). assert (Hj : 0 <= j < 2 * N) by (apply Z.mod_pos_bound; lia).
    destruct (Z.ltb_spec j N); [apply rext_in; lia|]. replace j with (j - N + N) at 1 by lia. rewrite rext_shift, rext_in by lia. reflexivity. }
  split; intros H i Hi; specialize (H i Hi); cbv zeta in *.
  - rewrite E. auto.
  - rewrite <- H, E. reflexivity.
Qed.
Lemma rsub_ext g a b : Z.odd g = true -> rsubstituted N g a b -> forall i, rext N b (g * i) = rext N a i.
Proof.
  intros Hg H. pose proof (proj1 (rsub_iff g a b) H) as H'. clear H. apply Z.odd_spec in Hg. destruct Hg as [m Hm]. apply anti_eq.
  - intros k. replace (g * (k + N)) with (g * k + N + m * (2 * N)) by (rewrite Hm; lia). rewrite rext_2N, rext_shift. reflexivity.
  - intros k. apply rext_shift.
  - intros i Hi. rewrite H', rext_in by auto. reflexivity.
Qed.
Lemma rsub_comp g h a b c : Z.odd h = true -> rsubstituted N g a b -> rsubstituted N h b c -> rsubstituted N (h * g) a c.
Proof.
  intros Hh Hab Hbc. apply (proj2 (rsub_iff (h * g) a c)). intros i Hi. rewrite <- Z.mul_assoc. rewrite (rsub_ext h b c Hh Hbc). pose proof (proj1 (rsub_iff g a b) Hab) as H'. auto.
Qed.
Lemma rsub_1 a : rsubstituted N 1 a a.
Proof. apply (proj2 (rsub_iff 1 a a)). intros i Hi. rewrite Z.mul_1_l. apply rext_in. auto. Qed.
Lemma rsub_unique g u v a b b' : u * g + v * (2 * N) = 1 -> rsubstituted N g a b -> rsubstituted N g a b' -> forall i, 0 <= i < N -> b i = b' i.
Proof.
  intros Hg H H' i Hi.
  assert (Ho : Z.odd g = true).
  { destruct (Z.odd g) eqn:E; auto. exfalso. assert (He : Z.even g = true) by (rewrite <- Z.negb_odd, E; auto).
    apply Z.even_spec in He. destruct He as [m ->]. lia. }
  rewrite <- (rext_in b i Hi), <- (rext_in b' i Hi).
  assert (E : forall b, rext N b i = rext N b (g * (u * i))).
  { intros c. rewrite <- (rext_2N c (g * (u * i)) (v * i)). f_equal. transitivity (i * (u * g + v * (2 * N))); [rewrite Hg|]; ring. }
  rewrite !E, (rsub_ext g a b), (rsub_ext g a b') by auto. reflexivity.
Qed.
End Ext.

(** ** rotate *)
Lemma rotate_once_ok N u v (a : Z -> R) D : 1 <= N -> 10 * N < 2 ^ 31 -> u * 5 + v * (2 * N) = 1 -> cells N D ->
  exists b, simple_rotate_once N (gtab N a) D = Ok (gtab N b) /\ rsubstituted N 5 a b.
Proof.
  intros HN Hb Hg HD. destruct (cells_tab _ _ HD) as [d ->]. set (b := fun k => rext N a (u * k)).
  assert (Hu : Z.odd u = true) by (apply (u_odd N 5 u v); auto).
  assert (Eb : forall k, rext N b k = rext N a (u * k)).
  { apply (anti_eq N HN).
    - intros k. apply rext_shift; auto.
    - intros k. apply Z.odd_spec in Hu. destruct Hu as [m Hm].
      replace (u * (k + N)) with (u * k + N + m * (2 * N)) by (rewrite Hm; lia). rewrite rext_2N, rext_shift by auto. reflexivity.
    - intros i Hi. exact (rext_in N b i Hi). }
  assert (Hs : forall i, 0 <= i < N -> rext N b (5 * i) = a i).
  { intros i Hi. rewrite Eb. rewrite <- (rext_in N a i Hi). rewrite <- (rext_2N N HN a (u * (5 * i)) (v * i)). f_equal.
    transitivity (i * (u * 5 + v * (2 * N))); [|rewrite Hg]; ring. }
  exists b. split; [|apply (proj2 (rsub_iff N HN 5 a b)); auto].
  unfold simple_rotate_once.
  rewrite (for_closed _ (fun i => tab N (fun k => if when N u k <? i then Some (b k) else d k)) _ _ _ (gtab N b)); auto; try lia.
  - apply tab_ext. intros k Hk. unfold when. pose proof (Z.mod_pos_bound (u * k) N ltac:(lia)).
    destruct (Z.ltb_spec ((u * k) mod N) 0); [lia|reflexivity].
  - apply tab_ext. intros k Hk. unfold when. pose proof (Z.mod_pos_bound (u * k) N ltac:(lia)).
    destruct (Z.ltb_spec ((u * k) mod N) N); [reflexivity|lia].
  - intros i Hi. rewrite int_in by lia. cbn [bind]. cbv zeta. rewrite grd_gtab by auto. cbn [bind].
    rewrite Z.quot_div_nonneg, (Z.rem_mod_nonneg (5 * i)) by lia.
    pose proof (Z.mod_pos_bound (5 * i) N ltac:(lia)) as Hm. pose proof (Z.div_pos (5 * i) N ltac:(lia) ltac:(lia)) as Hq.
    rewrite Z.rem_mod_nonneg by lia. rewrite gwr_tab by auto. cbn [bind].
    specialize (Hs i Hi). unfold rext in Hs. pose proof (Zmod_even (5 * i / N)) as Ev.
    assert (Hfin : forall x, x = b ((5 * i) mod N) ->
      tab N (fun j => if j =? (5 * i) mod N then Some x else if when N u j <? i then Some (b j) else d j)
      = tab N (fun k => if when N u k <? i + 1 then Some (b k) else d k)).
    { intros x ->. apply tab_ext. intros k Hk.
      pose proof (when_iff N 5 u v HN Hg k i Hk Hi) as Hw.
      destruct (Z.eqb_spec k ((5 * i) mod N)) as [Ek|Hne].
      + assert (Hwk : when N u k = i) by (apply Hw; auto). rewrite Hwk, <- Ek. destruct (Z.ltb_spec i (i + 1)); [reflexivity|lia].
      + assert (when N u k <> i) by (intros E'; apply Hw in E'; congruence).
        destruct (Z.ltb_spec (when N u k) i), (Z.ltb_spec (when N u k) (i + 1)); try lia; reflexivity. }
    destruct (Z.even (5 * i / N)); rewrite Ev; cbn [Z.eqb Pos.eqb].
    + f_equal. apply Hfin. auto.
    + rewrite grd_tab by auto. rewrite Z.eqb_refl. cbn [bind]. rewrite gwr_tab by auto. f_equal.
      transitivity (tab N (fun j => if j =? (5 * i) mod N then Some (- a i)%R else if when N u j <? i then Some (b j) else d j)).
      * apply tab_ext. intros k Hk. destruct (_ =? _); reflexivity.
      * apply Hfin. lra.
Qed.

Lemma copy_loop N (a : Z -> R) D : 0 <= N -> cells N D ->
  for_ 0 N (fun i D => x <- grd (gtab N a) i ;; gwr D i x) D = Ok (gtab N a).
Proof.
  intros HN HD. destruct (cells_tab _ _ HD) as [d ->]. apply fill_gtab; auto. intros i g Hi. rewrite grd_gtab by auto. reflexivity.
Qed.
Lemma gtab_cells {A} N (f : Z -> A) : cells N (gtab N f).
Proof. unfold cells, gtab. apply tab_length. Qed.

Lemma rotate_ok N u v (a : Z -> R) D r : 1 <= N -> 10 * N < 2 ^ 31 -> u * 5 + v * (2 * N) = 1 -> cells N D -> 0 <= r ->
  exists b, simple_rotate N (gtab N a) D r = Ok (gtab N b) /\ rsubstituted N (5 ^ r) a b.
Proof.
  intros HN Hb Hg HD Hr. unfold simple_rotate. rewrite copy_loop by (auto; lia). cbn [bind].
  match goal with |- context [for_ 0 r ?body ?s] =>
    destruct (for_inv body (fun k w => cells N (fst w) /\ exists b, snd w = gtab N b /\ rsubstituted N (5 ^ k) a b) 0 r s Hr) as (s' & E & H1 & b & H2 & H3)
  end.
  - cbn [fst snd]. split; [apply repeat_length|]. exists a. split; auto. apply rsub_1. auto.
  - intros i [t p] Hi (H1 & b & H2 & H3). cbn [fst snd] in *. subst p. rewrite copy_loop by (auto; lia). cbn [bind].
    destruct (rotate_once_ok N u v b (gtab N b) HN Hb Hg (gtab_cells N b)) as (c & E & Hc). rewrite E. cbn [bind].
    eexists. split; [reflexivity|]. cbn [fst snd]. split; [apply gtab_cells|]. exists c. split; auto.
    rewrite Z.pow_add_r by lia. rewrite Z.mul_comm. apply (rsub_comp N HN (5 ^ i) 5 a b c); auto.
  - rewrite E. cbn [bind]. destruct s' as [t p]. cbn [fst snd] in *. subst p. exists b. auto.
Qed.
Lemma rotate_neg N (a : Z -> R) D r : 0 <= N -> cells N D -> r <= 0 -> simple_rotate N (gtab N a) D r = Ok (gtab N a).
Proof. intros HN HD Hr. unfold simple_rotate. rewrite copy_loop by auto. cbn [bind]. rewrite for_nil by lia. reflexivity. Qed.

(** ** conv *)
Lemma simple_conv_ok N (a b : Z -> R) D : 0 <= N -> cells N D -> simple_conv N (gtab N a) (gtab N b) D = Ok (gtab N (rnegconv N a b)).
Proof.
  intros HN HD. destruct (cells_tab _ _ HD) as [d ->]. unfold simple_conv. apply fill_gtab; auto. intros i g Hi.
  set (F := fun k => (a k * (if (k <=? i)%Z then b (i - k)%Z else - b (N + i - k)%Z))%R).
  rewrite (for_closed _ (fun k => gsum (K := Rops) k F) _ _ _ (gsum (K := Rops) (i + 1) F)); auto; try lia.
  - cbn [bind].
    rewrite (for_closed _ (fun k => gsum (K := Rops) k F) _ _ _ (rnegconv N a b i)); auto; try lia.
    intros k Hk. rewrite !grd_gtab by lia. cbn [bind]. rewrite gsum_S by lia. apply (f_equal (@Ok R)).
    assert (E : F k = (a k * - b (N + i - k)%Z)%R) by (unfold F; destruct (Z.leb_spec k i); [lia|reflexivity]).
    rewrite E. replace (i + N - k) with (N + i - k) by lia. cbn [oadd Rops]. match goal with |- @eq _ ?x ?y => change (@eq R x y) end. ring.
  - intros k Hk. rewrite !grd_gtab by lia. cbn [bind]. rewrite gsum_S by lia. apply (f_equal (@Ok R)).
    assert (E : F k = (a k * b (i - k)%Z)%R) by (unfold F; destruct (Z.leb_spec k i); [reflexivity|lia]). rewrite E. reflexivity.
Qed.
Lemma simple_add_ok N (a b : Z -> R) D : 0 <= N -> cells N D -> simple_add N (gtab N a) (gtab N b) D = Ok (gtab N (fun i => a i + b i)%R).
Proof.
  intros HN HD. destruct (cells_tab _ _ HD) as [d ->]. unfold simple_add. apply fill_gtab; auto. intros i g Hi. rewrite !grd_gtab by auto. reflexivity.
Qed.
Lemma simple_sub_ok N (a b : Z -> R) D : 0 <= N -> cells N D -> simple_sub N (gtab N a) (gtab N b) D = Ok (gtab N (fun i => a i - b i)%R).
Proof.
  intros HN HD. destruct (cells_tab _ _ HD) as [d ->]. unfold simple_sub. apply fill_gtab; auto. intros i g Hi. rewrite !grd_gtab by auto. reflexivity.
Qed.
Lemma simple_square_sum_ok N (a : Z -> R) : 0 <= N -> simple_square_sum N (gtab N a) = Ok (gsum (K := Rops) N (fun i => a i * a i)%R).
Proof.
  intros HN. unfold simple_square_sum.
  rewrite (for_closed _ (fun k => gsum (K := Rops) k (fun i => a i * a i)%R) _ _ _ (gsum (K := Rops) N (fun i => a i * a i)%R)); auto.
  intros i Hi. rewrite grd_gtab by auto. cbn [bind]. rewrite gsum_S by lia. reflexivity.
Qed.
