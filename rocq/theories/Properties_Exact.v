(** What the functions do in the cases in which they do not do what the partial properties claim. *)
From Coq Require Import ZArith Znumtheory Zpow_facts List Bool Lia Reals Lra.
From Verif Require Import Base BaseFacts Sums ZQ ZQFacts ZQFacts2 RQ RQFacts Conv ConvFacts NTT NTTFacts CRT CRTFacts Rot Core CoreFacts Util UtilFacts GSum Matrix MatrixFacts MatMulFacts
  DFT DFTTheory DFTFacts SpecZQ SpecZQFacts SpecPoly SpecPolyFacts PolyCong SpecScheme SpecMat SpecDFT SpecEnc SlotFacts Noise PolyRing Properties_NTT Properties_Mat Properties_Conv Properties_Core Properties_Msg
  SpecLin LinSlots SpecCheb SpecEval EvalFacts SpecMod EvalMod EvalModFacts EvalModBound PiBound Properties_EvalMod Properties_Pipe Properties_Poly.
Import ListNotations.
Open Scope Z_scope.

(** ** C11: max_valid_digit of negative numbers looks for a word different from 2^32 - 1 *)
Theorem C11_max_valid_digit_negative : forall LOGQ A a s, 1 <= LOGQ -> holds LOGQ A a -> signed LOGQ a s -> s < 0 ->
  exists r, zq_max_valid_digit LOGQ A = Ok r /\ -1 <= r < (LOGQ + 63) / 64 /\
    (forall j, r < j < (LOGQ + 63) / 64 -> ((s + 2 ^ LOGQ) / 2 ^ (64 * j)) mod 2 ^ 64 = 2 ^ 32 - 1) /\
    (0 <= r -> ((s + 2 ^ LOGQ) / 2 ^ (64 * r)) mod 2 ^ 64 <> 2 ^ 32 - 1) /\
    (LOGQ mod 64 <> 32 -> r = (LOGQ + 63) / 64 - 1).
Proof.
  intros LOGQ A a s H HA Hs Hn. apply holds_rep in HA; auto. subst A. apply signed_cent in Hs; auto.
  destruct (zq_max_valid_digit_rep LOGQ a H) as (r & E & Hr & H1 & H2).
  pose proof (pow2_half LOGQ H) as Hh. pose proof (pow2_pos (LOGQ - 1) ltac:(lia)) as Hp. pose proof (cent_bounds LOGQ a H) as Hb.
  assert (Hu : a mod 2 ^ LOGQ = s + 2 ^ LOGQ).
  { rewrite <- (cent_congr LOGQ a H), <- Hs. symmetry. apply (Zmod_unique _ _ (-1)); lia. }
  rewrite Hu in *. destruct (Z.leb_spec (2 ^ (LOGQ - 1)) (s + 2 ^ LOGQ)) as [_|C]; [|lia].
  assert (El : len LOGQ = (LOGQ + 63) / 64) by (apply len_div; lia). pose proof (len_bounds LOGQ H) as Hl. rewrite El in *. set (L := (LOGQ + 63) / 64) in *.
  exists r. split; [exact E|]. split; [exact Hr|]. unfold dg, Wp in H1, H2. change W with (2 ^ 64) in H1, H2. change (2 ^ 32 - 1) with 4294967295.
  split; [|split].
  - exact H1.
  - exact H2.
  - intros H32. destruct (Z.eq_dec r (L - 1)) as [|Hne]; [auto|]. exfalso. specialize (H1 (L - 1) ltac:(lia)). 
    set (t := LOGQ - 64 * (L - 1)). assert (Ht : 1 <= t <= 64) by (unfold t; lia).
    assert (Ht32 : t <> 32) by (intros C; apply H32; unfold t in C; replace LOGQ with (32 + (L - 1) * 64) by lia; rewrite Z.mod_add by lia; reflexivity).
    set (P := 2 ^ (64 * (L - 1))) in *. assert (HP : 0 < P) by (apply Z.pow_pos_nonneg; lia).
    assert (Ea : 2 ^ LOGQ = 2 ^ t * P) by (unfold P; rewrite <- Z.pow_add_r by lia; f_equal; unfold t; lia).
    assert (Eb : 2 ^ (LOGQ - 1) = 2 ^ (t - 1) * P) by (unfold P; rewrite <- Z.pow_add_r by lia; f_equal; unfold t; lia).
    assert (Q1 : 2 ^ (t - 1) <= (s + 2 ^ LOGQ) / P) by (apply Z.div_le_lower_bound; lia).
    assert (Q2 : (s + 2 ^ LOGQ) / P < 2 ^ t) by (apply Z.div_lt_upper_bound; lia).
    assert (Q3 : 2 ^ t <= 2 ^ 64) by (apply Z.pow_le_mono_r; lia). assert (Q4 : 0 < 2 ^ (t - 1)) by (apply Z.pow_pos_nonneg; lia).
    rewrite Z.mod_small in H1 by lia. rewrite H1 in *. destruct (Z_lt_le_dec t 32).
    + assert (2 ^ t <= 2 ^ 31) by (apply Z.pow_le_mono_r; lia). lia.
    + assert (2 ^ 32 <= 2 ^ (t - 1)) by (apply Z.pow_le_mono_r; lia). lia.
Qed.
(** -2^100 in 32 + 64 bits: the highest word is not 2^32 - 1; -1: all words above the lowest are *)
Example C11_case_negative : zq_max_valid_digit 96 [Some (2 ^ 64 - 1); Some (2 ^ 32 - 1)] = Ok 0 /\ zq_max_valid_digit 96 [Some 0; Some (2 ^ 31)] = Ok 1 /\
  zq_max_valid_digit 160 [Some (2 ^ 32 - 1); Some (2 ^ 32 - 1); Some (2 ^ 32 - 1)] = Ok (-1) /\ zq_max_valid_digit 128 [Some (2 ^ 64 - 1); Some (2 ^ 64 - 1)] = Ok 1.
Proof. repeat split; vm_compute; reflexivity. Qed.

(** ** C24: icrt of a number of one word is right exactly if the number is not below -q, except for q = 2 *)
Theorem C24_icrt_exact : forall qs, crt_moduli qs ->
  exists M, crt_new (Z.of_nat (length qs)) (map Some qs) = Ok M /\
    forall LOGQ A v s D, 1 <= LOGQ -> holds LOGQ A v -> signed LOGQ v s -> length D = length qs ->
      exists r, crt_icrt M (Z.of_nat (length qs)) LOGQ A D = Ok (map Some r) /\ length r = length qs /\ Forall is_word r /\
        forall i, 0 <= i < Z.of_nat (length qs) -> let q := coef qs i in
          ((coef r i - s) mod q = 0 <-> 64 < LOGQ \/ - q <= s \/ q = 2) /\
          (LOGQ <= 64 -> s < - q -> coef r i = 2 ^ 64 + q + s).
Proof.
  intros qs Hqs. destruct (crt_new_list qs Hqs) as (M & E & HT). exists M. split; auto.
  intros LOGQ A v s D HQ HA Hs HD. apply holds_rep in HA; auto. subst A. apply signed_cent in Hs; auto. subst s.
  set (L := Z.of_nat (length qs)) in *. pose proof (crt_moduli_ok qs Hqs) as HM. fold L in HM.
  exists (tab L (fun i => icrt_word LOGQ v (coef qs i))).
  split; [|split; [|split]].
  - rewrite <- Properties_NTT.wtab_words. apply crt_icrt_ok; auto; [apply HT|]. lia.
  - rewrite tab_length. lia.
  - apply Forall_forall. intros x Hx. unfold tab in Hx. apply in_map_iff in Hx. destruct Hx as (k & <- & Hk).
    apply in_seq in Hk. apply icrt_word_range; auto. pose proof (mod_pos L (coef qs) HM (Z.of_nat k)). lia.
  - intros i Hi q. rewrite coef_tab by auto. fold q. pose proof (mod_pos L (coef qs) HM i Hi) as Hq. fold q in Hq.
    assert (Hpr : prime q) by (destruct Hqs as (Hpr & _); rewrite Forall_forall in Hpr; apply Hpr, nth_In; lia).
    assert (V : LOGQ <= 64 -> cent LOGQ v < - q -> icrt_word LOGQ v q = 2 ^ 64 + q + cent LOGQ v).
    { intros HL Hv. unfold icrt_word. cbv zeta. pose proof (len_bounds LOGQ HQ) as Hl. destruct (Z.eqb_spec (len LOGQ) 1) as [_|C]; [|lia]. destruct (Z.ltb_spec (cent LOGQ v) 0); [|lia].
      pose proof (cent_bounds LOGQ v HQ). assert (2 ^ (LOGQ - 1) <= 2 ^ 63) by (apply Z.pow_le_mono_r; lia). unfold wsub, wrap. change W with (2 ^ 64). symmetry. apply (Zmod_unique _ _ (-1)); lia. }
    split; [|exact V]. split.
    + intros H0. destruct (Z_lt_le_dec 64 LOGQ) as [|HL]; [auto|]. destruct (Z_le_gt_dec (- q) (cent LOGQ v)) as [|Hv]; [auto|]. right; right. rewrite V in H0 by lia.
      replace (2 ^ 64 + q + cent LOGQ v - cent LOGQ v) with (2 ^ 64 + 1 * q) in H0 by ring. rewrite Z.mod_add in H0 by lia. apply Z.mod_divide in H0; [|lia].
      apply (prime_power_prime q 2 64); [lia|exact Hpr|apply prime_2|exact H0].
    + intros H0. assert (H1 : LOGQ > 64 \/ - q <= cent LOGQ v \/ (LOGQ <= 64 /\ cent LOGQ v < - q /\ q = 2)) by lia.
      assert (He : LOGQ > 64 \/ - q <= cent LOGQ v -> (icrt_word LOGQ v q - cent LOGQ v) mod q = 0).
      { intros C. assert (He : icrt_word LOGQ v q =[q]= cent LOGQ v) by (apply icrt_word_ok; auto; lia). apply eqq_eq in He. rewrite Zminus_mod, He, Z.sub_diag. apply Zmod_0_l. }
      destruct H1 as [H1|[H1|(H1 & H2 & H3)]]; auto. rewrite V by auto. replace (2 ^ 64 + q + cent LOGQ v - cent LOGQ v) with (2 ^ 64 + 1 * q) by ring. rewrite Z.mod_add by lia. rewrite H3. reflexivity.
Qed.
Example C24_case_exact : ex_icrt 64 [Some (2 ^ 64 - 97)] = Ok [Some 0; Some 96; Some 160] /\ ex_icrt 64 [Some (2 ^ 64 - 98)] = Ok [Some (2 ^ 64 - 1); Some 95; Some 159].
Proof. split; vm_compute; reflexivity. Qed.

(** ** C49: += keeps the flags of the left operand, so the product skips the diagonals that were zero in it *)
Section Mat.
Context {K : ops} (HK : lawful K).
Let HR : ring_theory (@o0 K) o1 oadd omul osub oopp eq := HK.
Add Ring Kex : HR.
Lemma msg_mvp_mask n S (x : Z -> Cops K) vr vi o oi zr zi vr' vi' p : 0 < n -> 0 <= S ->
  (forall s i, 0 <= s < S -> 0 <= i < n -> zr s && zi s = false -> vr' s i = vr s i /\ vi' s i = vi s i) ->
  msg_mvp n S (carray n x) (diagonals n S vr o zr) (diagonals n S vi oi zi) p = msg_mvp n S (carray n x) (diagonals n S vr' o zr) (diagonals n S vi' oi zi) p.
Proof.
  intros Hn HS H. rewrite !diagonals_sdi. unfold msg_mvp. apply for_ext. intros i [r im] Hi. f_equal. apply for_ext. intros k [sr si] Hk.
  rewrite !get_zero_sdi by auto. cbn [bind]. assert (G : forall b, (b = true -> zr k && zi k = false) -> (if (b : bool) then
    (o0 <- get_off (sdi n S vr o zr) k;; t <- int_ (i + o0);; jr <- imod t n;; o1 <- get_off (sdi n S vi oi zi) k;; t0 <- int_ (i + o1);; ji <- imod t0 n;;
     ar <- get_vec (sdi n S vr o zr) k i;; ai <- get_vec (sdi n S vi oi zi) k i;; zrj <- grd (fst (carray n x)) jr;; zij <- grd (snd (carray n x)) ji;;
     Ok (sr + (ar * zrj - ai * zij), si + (ar * zij + ai * zrj))%num) else Ok (sr, si)) =
    (if (b : bool) then
    (o0 <- get_off (sdi n S vr' o zr) k;; t <- int_ (i + o0);; jr <- imod t n;; o1 <- get_off (sdi n S vi' oi zi) k;; t0 <- int_ (i + o1);; ji <- imod t0 n;;
     ar <- get_vec (sdi n S vr' o zr) k i;; ai <- get_vec (sdi n S vi' oi zi) k i;; zrj <- grd (fst (carray n x)) jr;; zij <- grd (snd (carray n x)) ji;;
     Ok (sr + (ar * zrj - ai * zij), si + (ar * zij + ai * zrj))%num) else Ok (sr, si))).
  { intros [|] Hb; [|reflexivity]. rewrite !get_off_sdi, !get_vec_sdi by auto. destruct (H k i Hk Hi (Hb eq_refl)) as [-> ->]. reflexivity. }
  destruct (zr k); cbn [negb bind andb] in *.
  - apply G. destruct (zi k); [discriminate|reflexivity].
  - apply (G true). reflexivity.
Qed.
Theorem C49_add_exact n S (x : Z -> Cops K) vr vi o zr zi wr wi yr yi p : 0 < n <= 2 ^ 30 -> 0 <= S -> offsets_in n S o -> carray_of n p ->
  exists Ar Ai, sd_add n S (diagonals n S vr o zr) (diagonals n S wr o yr) = Ok Ar /\ sd_add n S (diagonals n S vi o zi) (diagonals n S wi o yi) = Ok Ai /\
    msg_mvp n S (carray n x) Ar Ai p
    = Ok (carray n (apply n (cmat (matrix_of n S (fun s i => if zr s && zi s then 0%num else (vr s i + wr s i)%num) o)
                                  (matrix_of n S (fun s i => if zr s && zi s then 0%num else (vi s i + wi s i)%num) o)) x)).
Proof.
  intros Hn HS Ho Hp.
  exists (diagonals n S (fun s i => (vr s i + wr s i)%num) o zr), (diagonals n S (fun s i => (vi s i + wi s i)%num) o zi).
  split; [|split].
  - rewrite !diagonals_sdi. apply sd_add_ok; auto; lia.
  - rewrite !diagonals_sdi. apply sd_add_ok; auto; lia.
  - rewrite (msg_mvp_mask n S x _ _ o o zr zi (fun s i => if zr s && zi s then 0%num else (vr s i + wr s i)%num) (fun s i => if zr s && zi s then 0%num else (vi s i + wi s i)%num)); [|lia|lia|].
    + apply (C50_msg_mvp HK); auto. intros s Hs. destruct (zr s && zi s) eqn:E; [auto|]. split; [apply Ho; auto|reflexivity].
    + intros s i _ _ ->. auto.
Qed.

(** ** C69: transpose leaves the diagonals with negative offsets as they are *)
Theorem C69_transpose_exact N S (v : Z -> Z -> K) o z : 0 < N < 2 ^ 30 -> 0 <= S -> (forall s, 0 <= s < S -> - N < o s < N) ->
  exists v' o', sd_transpose N S (diagonals N S v o z) = Ok (diagonals N S v' o' z) /\
    forall s, 0 <= s < S -> (o s <= 0 -> o' s = o s /\ forall i, 0 <= i < N -> v' s i = v s i) /\
      (0 < o s -> o' s = N - o s /\ forall i, 0 <= i < N -> v' s ((i + o s) mod N) = v s i).
Proof.
  intros HN HS Ho. exists (tr_vec N v o), (tr_off N o). split; [rewrite !diagonals_sdi; apply sd_transpose_ok; auto; intros s Hs; specialize (Ho s Hs); lia|].
  intros s Hs. specialize (Ho s Hs). unfold tr_vec, tr_off. split; intros H.
  - destruct (Z.gtb_spec (o s) 0); [lia|]. auto.
  - destruct (Z.gtb_spec (o s) 0); [|lia]. split; [reflexivity|]. intros i Hi. f_equal.
    rewrite Zminus_mod_idemp_l. replace (i + o s - o s) with i by ring. apply Z.mod_small; auto.
Qed.
(** ** C69: MatMul with a negative offset in the left operand reads before the first column *)
Definition no_abort {A} (e : res A) : Prop := e = Undef \/ exists x, e = Ok x.
Lemma na_bind {A B} (e : res A) (k : A -> res B) : no_abort e -> (forall x, no_abort (k x)) -> no_abort (bind e k).
Proof. intros [->|[x ->]] H; [left; reflexivity|apply H]. Qed.
Lemma na_ok {A} (x : A) : no_abort (Ok x).
Proof. right. eauto. Qed.
Lemma na_lget {A} (l : list A) i : no_abort (lget l i).
Proof. unfold lget. destruct (0 <=? i); [destruct (nth_error l _); [right; eauto|left; auto]|left; auto]. Qed.
Lemma na_lset {A} (l : list A) i x : no_abort (lset l i x).
Proof. unfold lset. destruct (_ && _); [right; eauto|left; auto]. Qed.
Lemma na_for {S} (body : Z -> S -> res S) lo hi s : (forall i s, no_abort (body i s)) -> no_abort (for_ lo hi body s).
Proof. intros H. unfold for_. generalize (Z.to_nat (hi - lo)) as n. intros n. revert lo s. induction n as [|n IH]; intros lo s; cbn [iter_up]; [apply na_ok|]. apply na_bind; auto. Qed.
Lemma for_each {S} (body : Z -> S -> res S) lo hi s s' i : for_ lo hi body s = Ok s' -> lo <= i < hi -> exists t t', body i t = Ok t'.
Proof.
  intros H Hi. rewrite (for_split body lo i hi s) in H by lia. destruct (for_ lo i body s) as [t| | |]; cbn [bind] in H; try discriminate.
  rewrite for_step in H by lia. destruct (body i t) as [t'| | |] eqn:E; cbn [bind] in H; try discriminate. eauto.
Qed.
Lemma bind_ok {A B} (e : res A) (k : A -> res B) y : bind e k = Ok y -> exists x, e = Ok x /\ k x = Ok y.
Proof. destruct e; cbn; intros H; try discriminate. eauto. Qed.
Ltac na := repeat first [apply na_ok | apply na_lget | apply na_lset | apply na_for; intros | apply na_bind; [|intros] | match goal with |- no_abort (match ?x with _ => _ end) => destruct x end | match goal with |- no_abort (let '(_, _) := ?x in _) => destruct x end | left; reflexivity].
Theorem C69_matmul_negative_undefined N S1 S2 (A B C : sd K) s1 o : 2 <= N -> 0 <= s1 < S1 -> 1 <= S2 -> get_off A s1 = Ok o -> o < 0 -> matmul N S1 S2 A B C = Undef.
Proof.
  intros HN Hs1 HS2 Ho Hneg. assert (H : no_abort (matmul N S1 S2 A B C)).
  { unfold matmul, sd_setzero, find_off, set_vec, set_zero, set_off, get_vec, get_off, grd, gwr, int_, imod. na. }
  destruct H as [H|[C' H]]; [exact H|]. exfalso. unfold matmul in H.
  apply bind_ok in H. destruct H as (C0 & _ & H). apply bind_ok in H. destruct H as (st & H & _).
  destruct (for_each _ _ _ _ _ s1 H Hs1) as ([C1 c1] & st1 & H1). cbv beta iota in H1.
  assert (H0s : 0 <= 0 < S2) by lia. destruct (for_each _ _ _ _ _ 0 H1 H0s) as ([C2 c2] & st2 & H2). cbv beta iota in H2.
  rewrite Ho in H2. cbn [bind] in H2. apply bind_ok in H2. destruct H2 as (o2 & _ & H2). apply bind_ok in H2. destruct H2 as (t & _ & H2). apply bind_ok in H2. destruct H2 as (o3 & _ & H2).
  apply bind_ok in H2. destruct H2 as (s3 & _ & H2). apply bind_ok in H2. destruct H2 as ([[C3 s3'] c3] & _ & H2). apply bind_ok in H2. destruct H2 as (C4 & H2 & _).
  assert (Hi : exists i, 0 <= i < N /\ Z.rem (i + o) N < 0).
  { assert (G : forall y, y < 0 -> y mod N <> 0 -> Z.rem y N < 0).
    { intros y Hy Hm. destruct (Z.eq_dec (Z.rem y N) 0) as [E0|E0].
      - exfalso. apply Hm. apply Z.rem_divide in E0; [|lia]. apply Z.mod_divide; [lia|exact E0].
      - pose proof (Z.rem_nonpos y N ltac:(lia) ltac:(lia)). lia. }
    destruct (Z.eq_dec (o mod N) 0) as [E0|E0].
    - exists 1. split; [lia|]. assert (o <= - N).
      { pose proof (Z.div_mod o N ltac:(lia)) as D0. rewrite E0 in D0. assert (o / N < 0) by (apply Z.div_lt_upper_bound; lia). clear - D0 H0 HN. nia. }
      apply G; [lia|]. rewrite Z.add_mod, E0, Z.add_0_r, Z.mod_mod, Z.mod_small by lia. lia.
    - exists 0. split; [lia|]. apply G; [lia|]. exact E0. }
  destruct Hi as (i & Hi & Hr). destruct (for_each _ _ _ _ _ i H2 Hi) as (C5 & C6 & H3). cbv beta in H3.
  apply bind_ok in H3. destruct H3 as (c & _ & H3). apply bind_ok in H3. destruct H3 as (a & _ & H3). apply bind_ok in H3. destruct H3 as (t' & Et & H3).
  unfold int_ in Et. destruct (in_int (i + o)); [|discriminate]. injection Et as <-. apply bind_ok in H3. destruct H3 as (k & Ek & H3).
  unfold imod in Ek. destruct (Z.eqb_spec N 0); [discriminate|]. injection Ek as <-. apply bind_ok in H3. destruct H3 as (b & Eb & _).
  unfold get_vec in Eb. apply bind_ok in Eb. destruct Eb as (row & _ & Eb). unfold grd, lget in Eb. destruct (Z.leb_spec 0 (Z.rem (i + o) N)); [lia|]. discriminate.
Qed.

(** ** C70: mul with the result in the first operand *)
Theorem C70_mul_in_place_exact n (x y : Z -> Cops K) : 0 <= n ->
  msg_mul_self n (carray n x) (carray n y) = Ok (carray n (fun i => mk K (cre K (x i * y i)%num) (cre K (x i * y i)%num * cim K (y i) + cim K (x i) * cre K (y i))%num)).
Proof.
  intros Hn. set (z := fun i => mk K _ _). rewrite !carray_cvtab. unfold msg_mul_self.
  rewrite (for_closed _ (fun k => cvtab n (fun i => if i <? k then z i else x i)) _ _ _ (cvtab n z)); auto.
  - unfold cvtab, gtab. f_equal; apply tab_ext; intros j Hj; destruct (Z.ltb_spec j 0); auto; lia.
  - unfold cvtab, gtab. f_equal; apply tab_ext; intros j Hj; destruct (Z.ltb_spec j n); auto; lia.
  - intros i Hi. unfold cvtab. cbn [fst snd]. rewrite !grd_gtab by auto. cbn [bind]. destruct (Z.ltb_spec i i); [lia|].
    unfold gtab at 1. rewrite gwr_tab by auto. cbn [bind]. rewrite grd_tab by auto. rewrite Z.eqb_refl. cbn [bind].
    unfold gtab at 1. rewrite gwr_tab by auto. cbn [bind]. unfold gtab. apply f_equal. apply f_equal2; apply tab_ext; intros j Hj;
      destruct (Z.eqb_spec j i), (Z.ltb_spec j i), (Z.ltb_spec j (i + 1)); try lia; subst; auto.
Qed.
End Mat.
Example C69_case_negative : matmul (K := Zops) 4 1 2 (diagonals 4 1 (fun _ i => i + 1) (fun _ => -1) (fun _ => false)) (diagonals 4 2 (fun s i => s + i) (fun s => s) (fun _ => false)) (sd_new Z 4 2) = Undef.
Proof. vm_compute. reflexivity. Qed.
Example C70_case_exact : msg_mul_self 2 (carray 2 (fun i => mk Zops (i + 1) 2)) (carray 2 (fun i => mk Zops 3 (i + 4))) = Ok (carray 2 (fun i => mk Zops (3 * (i + 1) - 2 * (i + 4)) ((3 * (i + 1) - 2 * (i + 4)) * (i + 4) + 6))).
Proof. vm_compute. reflexivity. Qed.

(** ** C73: EvalMod subtracts integers only with K = 24 *)
Lemma sin_shift_nat x n : Rabs (sin (x + INR n * PI)) = Rabs (sin x).
Proof.
  induction n as [|n IH]; [rewrite Rmult_0_l, Rplus_0_r; reflexivity|]. rewrite S_INR. replace (x + (INR n + 1) * PI)%R with (x + INR n * PI + PI)%R by ring. rewrite neg_sin, Rabs_Ropp. exact IH.
Qed.
Lemma sin_low t : (0 <= t <= PI / 2)%R -> (t / 2 <= sin t)%R.
Proof.
  intros Ht. destruct PI_bounds as [P1 P2]. pose proof (pow2_ge_0 t). destruct (pre_sin_bound t 0) as [L _]; [lra|lra|].
  unfold sin_approx, sin_term in L. cbn -[pow] in L. 
  assert (t ^ 3 <= 3 * t)%R by (replace (t ^ 3)%R with (t * t ^ 2)%R by ring; rewrite (Rmult_comm 3 t); apply Rmult_le_compat_l; [lra|]; assert (t <= 17 / 10)%R by lra; apply Rle_trans with ((17 / 10) ^ 2)%R; [apply pow_incr; lra|lra]).
  lra.
Qed.
Lemma asin3_low y : (Rabs y / (2 * PI) <= Rabs (asin3 y))%R.
Proof.
  pose proof PI_RGT_0. assert (I0 : (0 < / (12 * PI))%R) by (apply Rinv_0_lt_compat; lra). unfold asin3. replace ((y ^ 3 + 6 * y) / (12 * PI))%R with (y * ((y ^ 2 + 6) * / (12 * PI)))%R by (field; lra).
  pose proof (pow2_ge_0 y). rewrite Rabs_mult. rewrite (Rabs_right ((y ^ 2 + 6) * / (12 * PI))) by (apply Rle_ge, Rmult_le_pos; lra).
  unfold Rdiv. apply Rmult_le_compat_l; [apply Rabs_pos|]. replace (/ (2 * PI))%R with (6 * / (12 * PI))%R by (field; lra). apply Rmult_le_compat_r; lra.
Qed.
Lemma value_at_0 K : 1 <= K -> K <> 24 -> K <> 8 -> (1 / 1000 < Rabs (evalmod_value K 0))%R.
Proof.
  intros HK H24 H8. destruct PI_bounds as [P1 P2]. pose proof PI_RGT_0 as P0. set (j := K - 2 * (12 mod K)).
  assert (HKR : (1 <= IZR K)%R) by (apply IZR_le; lia).
  assert (Hj : K <= 25 * Z.abs j /\ Z.abs j <= K).
  { destruct (Z_le_gt_dec K 24) as [L|L].
    - assert (C : (K =? 24) || (K =? 8) || ((K <=? 25 * Z.abs j) && (Z.abs j <=? K)) = true).
      { assert (G : forallb (fun n => let k := Z.of_nat n in (k =? 24) || (k =? 8) || ((k <=? 25 * Z.abs (k - 2 * (12 mod k))) && (Z.abs (k - 2 * (12 mod k)) <=? k))) (seq 1 24) = true) by (vm_compute; reflexivity).
        rewrite forallb_forall in G. specialize (G (Z.to_nat K)). rewrite Z2Nat.id in G by lia. apply G. apply in_seq. lia. }
      destruct (Z.eqb_spec K 24); [lia|]. destruct (Z.eqb_spec K 8); [lia|]. cbn [orb] in C. apply andb_prop in C. destruct C as [C1 C2]. apply Z.leb_le in C1, C2. lia.
    - assert (E : 12 mod K = 12) by (apply Z.mod_small; lia). unfold j. rewrite E. lia. }
  assert (Ec : Rabs (cos (48 * PI * ((0 - / 4) / IZR K))) = Rabs (sin (PI / 2 * (IZR (Z.abs j) / IZR K)))).
  { replace (48 * PI * ((0 - / 4) / IZR K))%R with (- (12 * PI / IZR K))%R by (field; lra). rewrite cos_neg, <- sin_shift.
    rewrite <- (sin_shift_nat _ (Z.to_nat (12 / K))). rewrite INR_IZR_INZ, Z2Nat.id by (apply Z.div_pos; lia).
    assert (E : IZR 12 = (IZR K * IZR (12 / K) + IZR (12 mod K))%R) by (rewrite <- mult_IZR, <- plus_IZR; f_equal; apply Z.div_mod; lia).
    assert (Ej : IZR j = (IZR K - 2 * IZR (12 mod K))%R) by (unfold j; rewrite minus_IZR, mult_IZR; reflexivity).
    replace (PI / 2 - 12 * PI / IZR K + IZR (12 / K) * PI)%R with (PI / 2 * (IZR j / IZR K))%R by (rewrite Ej; assert (E' : IZR (12 mod K) = (12 - IZR K * IZR (12 / K))%R) by lra; rewrite E'; field; lra).
    destruct (Z_le_gt_dec 0 j); [rewrite Z.abs_eq by lia; reflexivity|]. rewrite Z.abs_neq, opp_IZR by lia. replace (PI / 2 * (- IZR j / IZR K))%R with (- (PI / 2 * (IZR j / IZR K)))%R by (field; lra). rewrite sin_neg, Rabs_Ropp. reflexivity. }
  unfold evalmod_value. eapply Rlt_le_trans; [|apply asin3_low]. rewrite Ec. set (u := (IZR (Z.abs j) / IZR K)%R).
  assert (Hu : (/ 25 <= u <= 1)%R).
  { assert (A1 : (IZR K <= 25 * IZR (Z.abs j))%R) by (rewrite <- mult_IZR; apply IZR_le; lia). assert (A2 : (IZR (Z.abs j) <= IZR K)%R) by (apply IZR_le; lia).
    split; apply (Rmult_le_reg_r (IZR K)); try lra; unfold u, Rdiv; rewrite Rmult_assoc, Rinv_l by lra; lra. }
  assert (Ht : (0 <= PI / 2 * u <= PI / 2)%R) by (split; [apply Rmult_le_pos; lra|rewrite <- (Rmult_1_r (PI / 2)) at 2; apply Rmult_le_compat_l; lra]).
  pose proof (sin_low _ Ht) as S. assert (PI / 2 * / 25 <= PI / 2 * u)%R by (apply Rmult_le_compat_l; lra).
  rewrite Rabs_right by lra. apply (Rmult_lt_reg_r (2 * PI)); [lra|]. unfold Rdiv at 2. rewrite Rmult_assoc, Rinv_l by lra. lra.
Qed.
Lemma value_8 : (evalmod_value 8 (1 / 16) <= 0)%R.
Proof.
  pose proof PI_RGT_0 as P0. unfold evalmod_value. replace (48 * PI * ((1 / 16 - / 4) / 8))%R with (- (PI / 8 + PI))%R by field. rewrite cos_neg, neg_cos.
  assert (C : (0 < cos (PI / 8))%R) by (apply cos_gt_0; lra). unfold asin3. assert (I0 : (0 < / (12 * PI))%R) by (apply Rinv_0_lt_compat; lra). set (c := cos (PI / 8)) in *.
  assert (0 <= c ^ 3)%R by (apply pow_le; lra). unfold Rdiv. apply Ropp_le_cancel. rewrite Ropp_0. replace (- (((- c) ^ 3 + 6 * - c) * / (12 * PI)))%R with ((c ^ 3 + 6 * c) * / (12 * PI))%R by ring. apply Rmult_le_pos; lra.
Qed.
Theorem C73_other_values : forall K, 1 <= K -> K <> 24 -> exists r, (r = 0 \/ r = 1 / 16)%R /\ (1 / 1000 < Rabs (evalmod_value K r - r))%R.
Proof.
  intros K HK H24. destruct (Z.eq_dec K 8) as [->|H8].
  - exists (1 / 16)%R. split; [auto|]. pose proof value_8. rewrite Rabs_left by lra. lra.
  - exists 0%R. split; [auto|]. rewrite Rminus_0_r. apply value_at_0; auto.
Qed.
Theorem C73_only_24 : forall K, 1 <= K -> ((forall r, Rabs r <= 1 / 16 -> Rabs (evalmod_value K r - r) <= 1 / 1000)%R <-> K = 24).
Proof.
  intros K HK. split.
  - intros H. destruct (Z.eq_dec K 24) as [|H24]; [auto|]. exfalso. destruct (C73_other_values K HK H24) as (r & Hr & V). specialize (H r). assert (Rabs r <= 1 / 16)%R by (destruct Hr as [-> | ->]; rewrite Rabs_right; lra). specialize (H H0). lra.
  - intros -> r Hr. pose proof (C72_value 0 r) as V. rewrite Rplus_0_l in V. eapply Rle_trans; [exact V|]. destruct PI_bounds as [P1 P2]. pose proof PI_RGT_0.
    assert (A : (PI ^ 4 <= 100)%R) by (apply Rle_trans with ((316 / 100) ^ 4)%R; [apply pow_incr; lra|lra]). assert (B : (Rabs r ^ 5 <= (1 / 16) ^ 5)%R) by (apply pow_incr; split; [apply Rabs_pos|exact Hr]).
    assert (0 <= PI ^ 4)%R by (apply pow_le; lra). assert (0 <= Rabs r ^ 5)%R by (apply pow_le, Rabs_pos).
    apply Rle_trans with (6 / 5 * 100 * (1 / 16) ^ 5)%R; [apply Rmult_le_compat; lra|lra].
Qed.
(** For every other K there is a message on which EvalMod fails, in every slot, whatever the ciphertext *)
Theorem C73_other_K : forall LOGN LD Q K RM rnd pos s p, evalmod_params LOGN LD Q K -> 2 <= LOGN -> LD + 1 <= Q - 12 * LD -> K <> 24 -> rand_stream RM rnd -> ternary (2 ^ LOGN) s -> object2 (Q - 12 * LD) (2 ^ LOGN) p ->
  exists r, (r = 0 \/ r = 1 / 16)%R /\
    forall ct e, carries Q (2 ^ LOGN) (coef s) ct (IZR (2 ^ LD)) (fun _ => real r) e -> (evalmod_error (2 ^ LOGN) (norm1 (2 ^ LOGN) (coef s)) (IZR (2 ^ LD)) K e <= 1 / 2000)%R ->
      exists pos' p', EvalMod Q (2 ^ LOGN) LD K RM rnd pos ct (map Some s) p = Ok (pos', p') /\
        ~ carries (Q - 12 * LD) (2 ^ LOGN) (coef s) p' (IZR (2 ^ LD)) (fun _ => real r) (1 / 2000).
Proof.
  intros LOGN LD Q K RM rnd pos s p HP HL HQ H24 Hrnd Hs Hp. pose proof HP as [HLN HLD [HK _] _ _]. destruct (C73_other_values K HK H24) as (r & Hr & V). exists r. split; [exact Hr|]. intros ct e Hct He.
  destruct (C71_EvalMod LOGN LD Q K RM rnd pos s ct (fun _ => r) e p HP Hrnd Hs) as (pos' & p' & E & H'); auto.
  { intros _. assert (1 <= IZR K)%R by (apply IZR_le; lia). destruct Hr as [-> | ->]; rewrite Rabs_left; lra. }
  exists pos', p'. split; [exact E|]. intros H0. destruct PI_bounds as [P1 P2]. pose proof PI_RGT_0 as P0.
  pose proof (C71_unique LOGN (Q - 12 * LD) (coef s) p' (IZR (2 ^ LD)) (fun _ => real (evalmod_value K r)) (fun _ => real r) _ _ 1 ltac:(lia) ltac:(lia) ltac:(apply IZR_lt, pow2_pos; lia) H' H0) as U. cbv beta in U.
  rewrite real_minus, modulus_real in U. assert (B : (Rabs (evalmod_value K r - r) <= 1)%R).
  { unfold evalmod_value, asin3. set (c := cos _). assert (Hc : (-1 <= c <= 1)%R) by (unfold c; apply COS_bound). assert (Hc2 : (0 <= c ^ 2 <= 1)%R) by (split; [apply pow2_ge_0|]; replace 1%R with (1 ^ 2)%R by lra; rewrite <- (pow2_abs c); apply pow_incr; split; [apply Rabs_pos|apply Rabs_le; lra]).
    assert (I0 : (0 < / (12 * PI) <= / 36)%R) by (split; [apply Rinv_0_lt_compat|apply Rinv_le_contravar]; lra).
    assert (Ha : (Rabs ((c ^ 3 + 6 * c) / (12 * PI)) <= 7 * / 36)%R).
    { unfold Rdiv. rewrite Rabs_mult. rewrite (Rabs_right (/ (12 * PI))) by lra. apply Rmult_le_compat; [apply Rabs_pos|lra| |lra]. replace (c ^ 3 + 6 * c)%R with (c * (c ^ 2 + 6))%R by ring. rewrite Rabs_mult, (Rabs_right (c ^ 2 + 6)) by lra.
      replace 7%R with (1 * 7)%R by lra. apply Rmult_le_compat; [apply Rabs_pos|lra|apply Rabs_le; lra|lra]. }
    unfold Rminus. eapply Rle_trans; [apply Rabs_triang|]. rewrite Rabs_Ropp. destruct Hr as [-> | ->]; [rewrite Rabs_R0|rewrite (Rabs_right (1 / 16)) by lra]; lra. }
  specialize (U ltac:(intros; exact B)). assert (X : (IZR (2 ^ LD) * (1 + evalmod_error (2 ^ LOGN) (norm1 (2 ^ LOGN) (coef s)) (IZR (2 ^ LD)) K e + 1 / 2000) < IZR (2 ^ (Q - 12 * LD)))%R).
  { assert (D0 : (0 < IZR (2 ^ LD))%R) by (apply IZR_lt, pow2_pos; lia). apply Rlt_le_trans with (IZR (2 ^ LD) * 2)%R; [apply Rmult_lt_compat_l; lra|]. rewrite <- mult_IZR. apply IZR_le. replace (2 ^ LD * 2) with (2 ^ (LD + 1)) by (rewrite Z.pow_add_r by lia; ring). apply Z.pow_le_mono_r; lia. }
  specialize (U X 0). assert (0 <= 0 < 2 ^ LOGN / 2) by (split; [lia|]; apply Z.div_str_pos; split; [lia|]; change 2 with (2 ^ 1) at 1; apply Z.pow_le_mono_r; lia). specialize (U H). lra.
Qed.
(** the key 1 - X^2, a ciphertext of 0 and K = 12 *)
Example C73_case : evalmod_params 2 50 700 12 /\ ternary (2 ^ 2) [1; 0; -1; 0] /\ carries 700 (2 ^ 2) (coef [1; 0; -1; 0]) (repS 700 4 (fun _ => 0) (fun _ => 0)) (IZR (2 ^ 50)) (fun _ => real 0) 0 /\
  (evalmod_error (2 ^ 2) (norm1 (2 ^ 2) (coef [1; 0; -1; 0]%Z)) (IZR (2 ^ 50)) 12 0 <= 1 / 2000)%R /\ (1 / 1000 < Rabs (evalmod_value 12 0 - 0))%R.
Proof.
  split; [apply em_ex_params; lia|]. split; [split; [reflexivity|repeat constructor; lia]|]. split; [|split].
  - exists (fun _ => 0). split.
    + apply decrypts_rep; try lia. eexists _, _. split; [reflexivity|]. apply pcong_peq. intros i Hi. unfold padd. rewrite negconv_zero_r. lia.
    + intros j Hj. change (2 ^ 2) with 4. assert (E : slots 4 (IZR (2 ^ 50)) (fun _ => 0) j = real (0 / IZR (2 ^ 50))%R).
      { rewrite <- (slots_const 4 (IZR (2 ^ 50)) 0 j) by lia. apply slot_ext. intros i Hi. unfold const. destruct (i =? 0); reflexivity. }
      rewrite E. unfold Rdiv. rewrite Rmult_0_l, real_minus, modulus_real, Rminus_diag_eq, Rabs_R0; lra.
  - change (norm1 (2 ^ 2) (coef [1; 0; -1; 0])) with (norm1 (2 ^ 2) ex_s). eapply Rle_trans; [apply (em_ex_error 12); lia|]. lra.
  - rewrite Rminus_0_r. apply value_at_0; lia.
Qed.

(** ** C79: with at most 47 nonzero coefficients the multiples are at most 24, with 52 or more there are always larger ones; for almost all
    ciphertexts see C116 *)
Theorem C79_within_K_partial : forall LOGq LOGQ N s ct D m, 1 <= LOGq -> 1 <= LOGQ -> 1 <= N -> norm1 N s <= 47 -> object2 LOGQ N D ->
  decrypts LOGq N ct s m -> (forall i, 0 <= i < N -> signed LOGq (m i) (m i)) ->
  exists ct' I, mod_raise LOGq LOGQ N ct D = Ok ct' /\ decrypts LOGQ N ct' s (fun i => m i + 2 ^ LOGq * I i) /\ forall i, 0 <= i < N -> Z.abs (I i) <= 24.
Proof.
  intros LOGq LOGQ N s ct D m Hq HQ HN Hh HD Hct Hm. destruct (C43_mod_raise LOGq LOGQ N ct D s m Hq HQ HN HD Hct Hm) as (ct' & I & E & Hd & HI).
  exists ct', I. split; [exact E|]. split; [exact Hd|]. intros i Hi. specialize (HI i Hi). lia.
Qed.
Theorem C79_beyond_K : forall LOGq LOGQ N s, 1 <= LOGq <= LOGQ -> 1 <= N -> ternary N s -> 52 <= norm1 N (coef s) <= 2 ^ (LOGq - 1) ->
  exists ct ct_m I, decrypts LOGq N ct (coef s) (fun _ => 0) /\ mod_raise LOGq LOGQ N ct (sq_new LOGQ N) = Ok ct_m /\ decrypts LOGQ N ct_m (coef s) (fun i => 2 ^ LOGq * I i) /\
    24 < Z.abs (I (N - 1)).
Proof.
  intros LOGq LOGQ N s Hq HN Hs Hh. destruct (C78_mod_raise_sharp LOGq LOGQ N s Hq HN Hs ltac:(lia)) as (ct & ct_m & I & H1 & H2 & H3 & _ & H4). exists ct, ct_m, I. repeat (split; [assumption|]). lia.
Qed.
Example C79_case : norm1 512 (coef pipe_key) = 44 /\ ternary 512 key128 /\ 52 <= norm1 512 (coef key128) <= 2 ^ (60 - 1).
Proof. split; [apply pipe_key_norm|]. split; [apply key128_ternary|]. rewrite key128_norm. lia. Qed.

Print Assumptions C11_max_valid_digit_negative.
Print Assumptions C24_icrt_exact.
Print Assumptions C49_add_exact.
Print Assumptions C69_transpose_exact.
Print Assumptions C69_matmul_negative_undefined.
Print Assumptions C70_mul_in_place_exact.
Print Assumptions C73_only_24.
Print Assumptions C73_other_K.
Print Assumptions C79_within_K_partial.
Print Assumptions C79_beyond_K.
