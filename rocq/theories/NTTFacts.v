(** Facts about the number-theoretic transform (NTT.v). *)
From Coq Require Import ZArith List Bool Lia Znumtheory Zpow_facts Setoid Morphisms.
From Verif Require Import Base BaseFacts Util UtilFacts Mod ModFacts NTT NumFermat NumZ Sums SpecPoly.
Import ListNotations.
Open Scope Z_scope.

(** *** The butterflies as functions on coefficient functions *)

(** Stage with [m] blocks of size 2t; S is the table of twiddle factors. *)
Definition fstg (t m : Z) (S : Z -> Z) (f : Z -> Z) (k : Z) : Z :=
  if k mod (2 * t) <? t then f k + f (k + t) * S (m + k / (2 * t))
  else f (k - t) - f k * S (m + k / (2 * t)).

Definition istg (t h : Z) (S : Z -> Z) (f : Z -> Z) (k : Z) : Z :=
  if k mod (2 * t) <? t then f k + f (k + t)
  else (f (k - t) - f k) * S (h + k / (2 * t)).

(** Position k = block i, offset r. *)
Lemma block_pos t i r : 0 < t -> 0 <= r < 2 * t ->
  (2 * t * i + r) / (2 * t) = i /\ (2 * t * i + r) mod (2 * t) = r.
Proof.
  intros Ht Hr. rewrite Z.add_comm, Z.mul_comm, Z.div_add, Z.mod_add by lia.
  rewrite Z.div_small, Z.mod_small by lia. lia.
Qed.

Lemma block_case t m k : 0 < t -> 0 <= k < m * (2 * t) ->
  exists i r, 0 <= i < m /\ 0 <= r < t /\
    ((k = 2 * t * i + r /\ k / (2 * t) = i /\ k mod (2 * t) = r) \/
     (k = 2 * t * i + r + t /\ k / (2 * t) = i /\ k mod (2 * t) = r + t)).
Proof.
  intros Ht Hk. pose proof (Z.div_mod k (2 * t) ltac:(lia)) as E.
  pose proof (Z.mod_pos_bound k (2 * t) ltac:(lia)).
  assert (0 <= k / (2 * t) < m) by (split; [apply Z.div_pos; lia|apply Z.div_lt_upper_bound; lia]).
  destruct (Z_lt_le_dec (k mod (2 * t)) t).
  - exists (k / (2 * t)), (k mod (2 * t)). lia.
  - exists (k / (2 * t)), (k mod (2 * t) - t). lia.
Qed.

Lemma fstg_lo t m S f i r : 0 < t -> 0 <= r < t ->
  fstg t m S f (2 * t * i + r) = f (2 * t * i + r) + f (2 * t * i + r + t) * S (m + i).
Proof.
  intros Ht Hr. unfold fstg. destruct (block_pos t i r) as [-> ->]; try lia.
  destruct (Z.ltb_spec r t); [reflexivity|lia].
Qed.
Lemma fstg_hi t m S f i r : 0 < t -> 0 <= r < t ->
  fstg t m S f (2 * t * i + r + t) = f (2 * t * i + r) - f (2 * t * i + r + t) * S (m + i).
Proof.
  intros Ht Hr. unfold fstg. rewrite <- Z.add_assoc. destruct (block_pos t i (r + t)) as [-> ->]; try lia.
  destruct (Z.ltb_spec (r + t) t); [lia|]. do 2 f_equal. lia.
Qed.
Lemma istg_lo t m S f i r : 0 < t -> 0 <= r < t ->
  istg t m S f (2 * t * i + r) = f (2 * t * i + r) + f (2 * t * i + r + t).
Proof.
  intros Ht Hr. unfold istg. destruct (block_pos t i r) as [-> ->]; try lia.
  destruct (Z.ltb_spec r t); [reflexivity|lia].
Qed.
Lemma istg_hi t m S f i r : 0 < t -> 0 <= r < t ->
  istg t m S f (2 * t * i + r + t) = (f (2 * t * i + r) - f (2 * t * i + r + t)) * S (m + i).
Proof.
  intros Ht Hr. unfold istg. rewrite <- Z.add_assoc. destruct (block_pos t i (r + t)) as [-> ->]; try lia.
  destruct (Z.ltb_spec (r + t) t); [lia|]. do 3 f_equal. lia.
Qed.

Ltac zc := repeat match goal with
  | |- context [?a <? ?b] => destruct (Z.ltb_spec a b)
  | |- context [?a <=? ?b] => destruct (Z.leb_spec a b)
  | |- context [?a =? ?b] => destruct (Z.eqb_spec a b)
  end; cbn [andb orb]; try lia.

(** One inner loop: positions j1 <= j < j1+t and their partners t further are rewritten. *)
Lemma inner_loop N (body : Z -> arr -> res arr) (g lo hi : Z -> Z) t j1 :
  0 < t -> 0 <= j1 -> j1 + 2 * t <= N ->
  (forall j f, j1 <= j < j1 + t -> f j = g j -> f (j + t) = g (j + t) ->
     body j (wtab N f) = Ok (wtab N (fun k => if k =? j then lo j else if k =? j + t then hi j else f k))) ->
  for_ j1 (j1 + t - 1 + 1) body (wtab N g) =
  Ok (wtab N (fun k => if (j1 <=? k) && (k <? j1 + t) then lo k
                       else if (j1 + t <=? k) && (k <? j1 + 2 * t) then hi (k - t) else g k)).
Proof.
  intros Ht Hj HN Hb.
  rewrite (for_closed _ (fun j => wtab N (fun k => if (j1 <=? k) && (k <? j) then lo k
                       else if (j1 + t <=? k) && (k <? j + t) then hi (k - t) else g k))
     _ _ _ (wtab N (fun k => if (j1 <=? k) && (k <? j1 + t) then lo k
                       else if (j1 + t <=? k) && (k <? j1 + 2 * t) then hi (k - t) else g k))).
  - reflexivity.
  - lia.
  - apply wtab_ext. intros. zc; auto.
  - apply wtab_ext. intros. zc; auto.
  - intros j Hj'. rewrite Hb.
    + f_equal. apply wtab_ext. intros k Hk. zc; auto; try (f_equal; lia).
    + lia.
    + zc; auto.
    + zc; auto.
Qed.

Section Stage.
  Variables (q N : Z).
  Hypothesis Hq : 1 < q < W.

  Lemma q_word x : is_word (x mod q).
  Proof. unfold is_word. pose proof (Z.mod_pos_bound x q ltac:(lia)). lia. Qed.

  Lemma fwd_stage T S m t g :
    ntt_q T = q -> psi_rev T = wtab N S -> 0 < t -> 0 < m -> N = m * (2 * t) ->
    (forall k, 0 <= k < N -> is_word (g k)) -> (forall k, 0 <= k < N -> is_word (S k)) ->
    for_ 0 m (fun i a =>
          let j1 := 2 * i * t in
          let j2 := j1 + t - 1 in
          S <- rd (psi_rev T) (m + i) ;;
          for_ j1 (j2 + 1) (fun j a =>
            U <- rd a j ;;
            x <- rd a (j + t) ;;
            V <- mul_mod x S (ntt_q T) ;;
            y <- add_mod U V (ntt_q T) ;;
            a <- wr a j y ;;
            y <- sub_mod U V (ntt_q T) ;;
            wr a (j + t) y) a) (wtab N g)
    = Ok (wtab N (fun k => fstg t m S g k mod q)).
  Proof.
    intros HTq HTp Ht Hm HN Hg HS. cbv zeta. rewrite HTq, HTp.
    rewrite (for_closed _ (fun i => wtab N (fun k => if k <? 2 * i * t then fstg t m S g k mod q else g k))
       _ _ _ (wtab N (fun k => fstg t m S g k mod q))).
    - reflexivity.
    - lia.
    - apply wtab_ext. intros. zc; auto.
    - apply wtab_ext. intros. zc; auto.
    - intros i Hi. rewrite rd_wtab by nia. cbn [bind].
      set (G := fun k => if k <? 2 * i * t then fstg t m S g k mod q else g k).
      assert (HGw : forall k, 0 <= k < N -> is_word (G k)).
      { intros k Hk. unfold G. zc; auto. apply q_word. }
      assert (Hend : 2 * i * t + 2 * t <= N) by nia.
      rewrite (inner_loop N _ G
        (fun j => (G j + G (j + t) * S (m + i)) mod q) (fun j => (G j - G (j + t) * S (m + i)) mod q));
        [ |lia|nia|lia| ].
      + f_equal. apply wtab_ext. intros k Hk. unfold G. zc; auto.
        * f_equal. replace k with (2 * t * i + (k - 2 * t * i)) by lia. rewrite fstg_lo by lia. reflexivity.
        * f_equal. pose proof (fstg_hi t m S g i (k - t - 2 * t * i) Ht ltac:(lia)) as E.
          replace (2 * t * i + (k - t - 2 * t * i)) with (k - t) in E by lia.
          replace (k - t + t) with k in * by lia. rewrite E. reflexivity.
      + intros j f Hj E1 E2. assert (0 <= 2 * i * t) by nia.
        rewrite !rd_wtab by lia. cbn [bind]. rewrite E1, E2.
        assert (Hgj := HGw j ltac:(lia)). assert (Hgt := HGw (j + t) ltac:(lia)).
        rewrite mul_mod_ok; auto; [|apply HS; nia|lia]. cbn [bind].
        pose proof (q_word (G (j + t) * S (m + i))) as Hw.
        rewrite add_mod_ok by (auto; lia). cbn [bind]. rewrite wr_wtab by lia. cbn [bind].
        rewrite sub_mod_ok by (auto; lia). cbn [bind]. rewrite wr_wtab by lia. f_equal.
        apply wtab_ext. intros k Hk. zc; auto.
        * rewrite Zminus_mod_idemp_r. reflexivity.
        * rewrite Z.add_mod_idemp_r by lia. reflexivity.
  Qed.

  Lemma inv_stage T S h t g :
    ntt_q T = q -> inv_psi_rev T = wtab N S -> 0 < t -> 0 < h -> N = h * (2 * t) ->
    (forall k, 0 <= k < N -> is_word (g k)) -> (forall k, 0 <= k < N -> is_word (S k)) ->
    for_ 0 h (fun i '(j1, a) =>
          let j2 := j1 + t - 1 in
          S <- rd (inv_psi_rev T) (h + i) ;;
          a <- for_ j1 (j2 + 1) (fun j a =>
            U <- rd a j ;;
            V <- rd a (j + t) ;;
            y <- add_mod U V (ntt_q T) ;;
            a <- wr a j y ;;
            y <- sub_mod U V (ntt_q T) ;;
            y <- mul_mod y S (ntt_q T) ;;
            wr a (j + t) y) a ;;
          Ok (j1 + 2 * t, a)) (0, wtab N g)
    = Ok (N, wtab N (fun k => istg t h S g k mod q)).
  Proof.
    intros HTq HTp Ht Hm HN Hg HS. cbv zeta. rewrite HTq, HTp.
    rewrite (for_closed _ (fun i => (2 * i * t, wtab N (fun k => if k <? 2 * i * t then istg t h S g k mod q else g k)))
       _ _ _ (N, wtab N (fun k => istg t h S g k mod q))).
    - reflexivity.
    - lia.
    - apply f_equal2; [lia|]. apply wtab_ext. intros. zc; auto.
    - apply f_equal2; [lia|]. apply wtab_ext. intros. zc; auto.
    - intros i Hi. rewrite rd_wtab by nia. cbn [bind].
      set (G := fun k => if k <? 2 * i * t then istg t h S g k mod q else g k).
      assert (HGw : forall k, 0 <= k < N -> is_word (G k)).
      { intros k Hk. unfold G. zc; auto. apply q_word. }
      assert (Hend : 2 * i * t + 2 * t <= N) by nia.
      rewrite (inner_loop N _ G
        (fun j => (G j + G (j + t)) mod q) (fun j => ((G j - G (j + t)) * S (h + i)) mod q));
        [ |lia|nia|lia| ].
      + cbn [bind]. f_equal. apply f_equal2; [lia|]. apply wtab_ext. intros k Hk. unfold G. zc; auto.
        * f_equal. replace k with (2 * t * i + (k - 2 * t * i)) by lia. rewrite istg_lo by lia. reflexivity.
        * f_equal. pose proof (istg_hi t h S g i (k - t - 2 * t * i) Ht ltac:(lia)) as E.
          replace (2 * t * i + (k - t - 2 * t * i)) with (k - t) in E by lia.
          replace (k - t + t) with k in * by lia. rewrite E. reflexivity.
      + intros j f Hj E1 E2. assert (0 <= 2 * i * t) by nia.
        rewrite !rd_wtab by lia. cbn [bind]. rewrite E1, E2.
        assert (Hgj := HGw j ltac:(lia)). assert (Hgt := HGw (j + t) ltac:(lia)).
        rewrite add_mod_ok by (auto; lia). cbn [bind]. rewrite wr_wtab by lia. cbn [bind].
        rewrite sub_mod_ok by (auto; lia). cbn [bind].
        pose proof (q_word (G j - G (j + t))) as Hw.
        rewrite mul_mod_ok; auto; [|apply HS; nia|lia]. cbn [bind]. rewrite wr_wtab by lia. f_equal.
        apply wtab_ext. intros k Hk. zc; auto.
        rewrite Z.mul_mod_idemp_l by lia. reflexivity.
  Qed.
End Stage.

(** *** The whole transforms *)

(** Congruence modulo q. *)
Inductive eqq (q a b : Z) : Prop := eqq_intro : a mod q = b mod q -> eqq q a b.
Notation "a =[ q ]= b" := (eqq q a b) (at level 70, q at level 200).

#[global] Instance eqq_equiv q : Equivalence (eqq q).
Proof.
  split; [intros a|intros a b [H]|intros a b c [H1] [H2]]; constructor; congruence.
Qed.
#[global] Instance eqq_add q : Proper (eqq q ==> eqq q ==> eqq q) Z.add.
Proof. intros a b [H] c d [H']. constructor. rewrite Zplus_mod, H, H', <- Zplus_mod. auto. Qed.
#[global] Instance eqq_sub q : Proper (eqq q ==> eqq q ==> eqq q) Z.sub.
Proof. intros a b [H] c d [H']. constructor. rewrite Zminus_mod, H, H', <- Zminus_mod. auto. Qed.
#[global] Instance eqq_mul q : Proper (eqq q ==> eqq q ==> eqq q) Z.mul.
Proof. intros a b [H] c d [H']. constructor. rewrite Zmult_mod, H, H', <- Zmult_mod. auto. Qed.
#[global] Instance eqq_opp q : Proper (eqq q ==> eqq q) Z.opp.
Proof. intros a b H. rewrite <- !Z.sub_0_l. rewrite H. reflexivity. Qed.
Lemma eqq_mod q a : a mod q =[q]= a.
Proof. constructor. apply Zmod_mod. Qed.
Lemma eqq_eq q a b : a =[q]= b -> a mod q = b mod q.
Proof. intros [H]. auto. Qed.
Lemma eqq_small q a b : a =[q]= b -> 0 <= a < q -> 0 <= b < q -> a = b.
Proof. intros [H] Ha Hb. rewrite !Z.mod_small in H; auto. Qed.

Lemma eqq_pow q a b n : 0 <= n -> a =[q]= b -> a ^ n =[q]= b ^ n.
Proof.
  intros Hn H. pattern n. apply natlike_ind; auto; clear n Hn.
  - reflexivity.
  - intros n Hn IH. rewrite !Z.pow_succ_r by auto. apply eqq_mul; auto.
Qed.

Lemma eqq_zsum q n f g : (forall i, 0 <= i < n -> f i =[q]= g i) -> zsum n f =[q]= zsum n g.
Proof. intros H. constructor. apply zsum_mod. intros i Hi. destruct (H i Hi). auto. Qed.

Lemma pow2_div (L s : Z) : 0 <= s < L -> 2 ^ L = 2 ^ s * (2 * 2 ^ (L - 1 - s)).
Proof. intros. rewrite <- Z.pow_succ_r by lia. rewrite <- Z.pow_add_r by lia. f_equal. lia. Qed.

Lemma p2 n : 0 <= n -> 0 < 2 ^ n. Proof. apply (Z.pow_pos_nonneg 2); lia. Qed.

Section Whole.
  Variables (q : Z) (L : nat).
  Hypothesis Hq : 1 < q < W.
  Hypothesis HL : (1 <= L <= 29)%nat.
  Let N := 2 ^ Z.of_nat L.
  Variables (S S' : Z -> Z).
  Hypothesis HS : forall k, 0 <= k < N -> is_word (S k).
  Hypothesis HS' : forall k, 0 <= k < N -> is_word (S' k).

  Fixpoint fwn (s : nat) (f : Z -> Z) : Z -> Z :=
    match s with
    | O => f
    | Datatypes.S s' => fun k => fstg (2 ^ (Z.of_nat L - 1 - Z.of_nat s')) (2 ^ Z.of_nat s') S (fwn s' f) k mod q
    end.

  Fixpoint ivn (u : nat) (f : Z -> Z) : Z -> Z :=
    match u with
    | O => f
    | Datatypes.S u' => fun k => istg (2 ^ Z.of_nat u') (2 ^ (Z.of_nat L - 1 - Z.of_nat u')) S' (ivn u' f) k mod q
    end.

  Lemma fwn_word s f k : (forall k, 0 <= k < N -> is_word (f k)) -> 0 <= k < N -> is_word (fwn s f k).
  Proof. intros Hf Hk. destruct s; [apply Hf; auto|]. apply q_word; auto. Qed.
  Lemma ivn_word s f k : (forall k, 0 <= k < N -> is_word (f k)) -> 0 <= k < N -> is_word (ivn s f k).
  Proof. intros Hf Hk. destruct s; [apply Hf; auto|]. apply q_word; auto. Qed.

  Lemma ntt_fwd_run T f : ntt_q T = q -> psi_rev T = wtab N S ->
    (forall k, 0 <= k < N -> is_word (f k)) ->
    ntt_fwd T N (wtab N f) = Ok (wtab N (fwn L f)).
  Proof.
    intros HTq HTp Hf. unfold ntt_fwd. 
    rewrite (while_closed _ _ (fun s => (2 ^ Z.of_nat s, 2 ^ (Z.of_nat L - 1 - Z.of_nat s), wtab N (fwn s f))) L 40);
      [cbn [bind]; reflexivity|lia| | |].
    - cbn [fwn Z.of_nat]. rewrite Z.sub_0_r, Z.pow_0_r. do 2 f_equal. unfold N.
      rewrite (pow2_div _ 0) by lia. rewrite Z.pow_0_r, Z.mul_1_l, Z.mul_comm, Z.quot_mul by lia. f_equal. lia.
    - intros s Hs. split.
      + f_equal. apply Z.ltb_lt. apply Z.pow_lt_mono_r; lia.
      + rewrite (fwd_stage q N Hq T S); auto.
        * cbn [bind]. assert (E : 2 ^ Z.of_nat (Datatypes.S s) = 2 ^ Z.of_nat s * 2)
            by (rewrite Nat2Z.inj_succ, Z.pow_succ_r by lia; lia).
          unfold int_, in_int. rewrite <- E.
          assert (2 ^ Z.of_nat (Datatypes.S s) <= 2 ^ 29) by (apply Z.pow_le_mono_r; lia).
          pose proof (p2 (Z.of_nat (Datatypes.S s)) ltac:(lia)).
          destruct (Z.leb_spec (- 2 ^ 31) (2 ^ Z.of_nat (Datatypes.S s))); [|lia].
          destruct (Z.ltb_spec (2 ^ Z.of_nat (Datatypes.S s)) (2 ^ 31)); [|lia]. cbn [andb bind]. f_equal. f_equal. f_equal.
          destruct (Nat.eq_dec (Datatypes.S s) L) as [El|Hne].
          -- replace (Z.of_nat L - 1 - Z.of_nat s) with 0 by lia.
             replace (Z.of_nat L - 1 - Z.of_nat (Datatypes.S s)) with (-1) by lia. reflexivity.
          -- replace (Z.of_nat L - 1 - Z.of_nat s) with (Z.succ (Z.of_nat L - 1 - Z.of_nat (Datatypes.S s))) by lia.
             rewrite Z.pow_succ_r, Z.mul_comm, Z.quot_mul by lia. reflexivity.
        * apply p2; lia.
        * apply p2; lia.
        * apply pow2_div. lia.
        * intros. apply fwn_word; auto.
    - f_equal. apply Z.ltb_irrefl.
  Qed.

  Lemma ntt_inv_run T f : ntt_q T = q -> inv_psi_rev T = wtab N S' -> is_word (inv_N T) ->
    (forall k, 0 <= k < N -> is_word (f k)) ->
    ntt_inv T N (wtab N f) = Ok (wtab N (fun k => (ivn L f k * inv_N T) mod q)).
  Proof.
    intros HTq HTp Hi Hf. unfold ntt_inv.
    rewrite (while_closed _ _ (fun s => (2 ^ Z.of_nat s, 2 ^ (Z.of_nat L - Z.of_nat s), wtab N (ivn s f))) L 40);
      [cbn [bind]|lia| | |].
    - rewrite HTq. rewrite (for_closed _ (fun j => wtab N (fun k => if k <? j then (ivn L f k * inv_N T) mod q else ivn L f k))
        _ _ _ (wtab N (fun k => (ivn L f k * inv_N T) mod q))).
      + reflexivity.
      + unfold N. pose proof (p2 (Z.of_nat L)). lia.
      + apply wtab_ext. intros. zc; auto.
      + apply wtab_ext. intros. zc; auto.
      + intros j Hj. rewrite rd_wtab by lia. cbn [bind]. zc. pose proof (ivn_word L f j Hf Hj).
        rewrite mul_mod_ok by (auto; lia). cbn [bind]. rewrite wr_wtab by lia. f_equal. apply wtab_ext.
        intros k Hk. zc; auto. subst. reflexivity.
    - cbn [ivn Z.of_nat]. rewrite Z.sub_0_r. reflexivity.
    - intros s Hs. split.
      + f_equal. apply Z.gtb_lt. change 1 with (2 ^ 0). apply Z.pow_lt_mono_r; lia.
      + assert (Eh : Z.quot (2 ^ (Z.of_nat L - Z.of_nat s)) 2 = 2 ^ (Z.of_nat L - 1 - Z.of_nat s)).
        { replace (Z.of_nat L - Z.of_nat s) with (Z.succ (Z.of_nat L - 1 - Z.of_nat s)) by lia.
          rewrite Z.pow_succ_r, Z.mul_comm, Z.quot_mul by lia. reflexivity. }
        rewrite Eh. cbv zeta.
        pose proof (inv_stage q N Hq T S' (2 ^ (Z.of_nat L - 1 - Z.of_nat s)) (2 ^ Z.of_nat s) (ivn s f)) as Est.
        cbv zeta in Est. rewrite Est; auto; clear Est.
        * cbn [bind]. assert (E : 2 ^ Z.of_nat (Datatypes.S s) = 2 ^ Z.of_nat s * 2)
            by (rewrite Nat2Z.inj_succ, Z.pow_succ_r by lia; lia).
          unfold int_, in_int. rewrite <- E.
          assert (2 ^ Z.of_nat (Datatypes.S s) <= 2 ^ 29) by (apply Z.pow_le_mono_r; lia).
          pose proof (p2 (Z.of_nat (Datatypes.S s)) ltac:(lia)).
          destruct (Z.leb_spec (- 2 ^ 31) (2 ^ Z.of_nat (Datatypes.S s))); [|lia].
          destruct (Z.ltb_spec (2 ^ Z.of_nat (Datatypes.S s)) (2 ^ 31)); [|lia]. cbn [andb bind]. f_equal. f_equal. f_equal.
          f_equal. lia.
        * apply p2; lia.
        * apply p2; lia.
        * unfold N. rewrite (pow2_div _ (Z.of_nat s)) by lia. lia.
        * intros. apply ivn_word; auto.
    - rewrite Z.sub_diag. reflexivity.
  Qed.

  (** *** Congruences *)

  Definition eqf (f g : Z -> Z) : Prop := forall k, 0 <= k < N -> f k =[q]= g k.

  Lemma fstg_eqf t m f g : 0 < t -> N = m * (2 * t) -> eqf f g -> eqf (fstg t m S f) (fstg t m S g).
  Proof.
    intros Ht HN H k Hk. rewrite HN in Hk. destruct (block_case t m k Ht Hk) as (i & r & Hi & Hr & [(-> & _)|(-> & _)]).
    - rewrite !fstg_lo by auto. rewrite (H (2 * t * i + r)), (H (2 * t * i + r + t)) by nia. reflexivity.
    - rewrite !fstg_hi by auto. rewrite (H (2 * t * i + r)), (H (2 * t * i + r + t)) by nia. reflexivity.
  Qed.

  Lemma istg_eqf t m f g : 0 < t -> N = m * (2 * t) -> eqf f g -> eqf (istg t m S' f) (istg t m S' g).
  Proof.
    intros Ht HN H k Hk. rewrite HN in Hk. destruct (block_case t m k Ht Hk) as (i & r & Hi & Hr & [(-> & _)|(-> & _)]).
    - rewrite !istg_lo by auto. rewrite (H (2 * t * i + r)), (H (2 * t * i + r + t)) by nia. reflexivity.
    - rewrite !istg_hi by auto. rewrite (H (2 * t * i + r)), (H (2 * t * i + r + t)) by nia. reflexivity.
  Qed.

  Hypothesis HSS : forall k, 1 <= k < N -> S k * S' k =[q]= 1.

  Lemma istg_fstg t m f : 0 < t -> 0 < m -> N = m * (2 * t) -> eqf (istg t m S' (fstg t m S f)) (fun k => 2 * f k).
  Proof.
    intros Ht Hm HN k Hk. rewrite HN in Hk. destruct (block_case t m k Ht Hk) as (i & r & Hi & Hr & [(-> & _)|(-> & _)]).
    - rewrite istg_lo, fstg_lo, fstg_hi by auto.
      match goal with |- ?a =[_]= ?b => replace a with b by ring end. reflexivity.
    - rewrite istg_hi, fstg_lo, fstg_hi by auto.
      match goal with |- ?a =[_]= _ =>
        replace a with (2 * f (2 * t * i + r + t) * (S (m + i) * S' (m + i))) by ring end.
      rewrite HSS by nia. rewrite Z.mul_1_r. reflexivity.
  Qed.

  Lemma fstg_istg t m f : 0 < t -> 0 < m -> N = m * (2 * t) -> eqf (fstg t m S (istg t m S' f)) (fun k => 2 * f k).
  Proof.
    intros Ht Hm HN k Hk. rewrite HN in Hk. destruct (block_case t m k Ht Hk) as (i & r & Hi & Hr & [(-> & _)|(-> & _)]).
    - rewrite fstg_lo, istg_lo, istg_hi by auto.
      match goal with |- ?a =[_]= _ =>
        replace a with (f (2 * t * i + r) + f (2 * t * i + r + t) + (f (2 * t * i + r) - f (2 * t * i + r + t)) * (S (m + i) * S' (m + i))) by ring end.
      rewrite HSS by nia. match goal with |- ?a =[_]= ?b => replace a with b by ring end. reflexivity.
    - rewrite fstg_hi, istg_lo, istg_hi by auto.
      match goal with |- ?a =[_]= _ =>
        replace a with (f (2 * t * i + r) + f (2 * t * i + r + t) - (f (2 * t * i + r) - f (2 * t * i + r + t)) * (S (m + i) * S' (m + i))) by ring end.
      rewrite HSS by nia. match goal with |- ?a =[_]= ?b => replace a with b by ring end. reflexivity.
  Qed.

  Lemma fstg_scal t m c f k : fstg t m S (fun k => c * f k) k = c * fstg t m S f k.
  Proof. unfold fstg. destruct (_ <? _); ring. Qed.
  Lemma istg_scal t m c f k : istg t m S' (fun k => c * f k) k = c * istg t m S' f k.
  Proof. unfold istg. destruct (_ <? _); ring. Qed.

  Lemma ivn_fwn f u : (u <= L)%nat -> eqf (ivn u (fwn L f)) (fun k => 2 ^ Z.of_nat u * fwn (L - u) f k).
  Proof.
    induction u as [|u IH]; intros Hu.
    - intros k Hk. cbn [ivn]. rewrite Nat.sub_0_r. change (2 ^ Z.of_nat 0) with 1. rewrite Z.mul_1_l. reflexivity.
    - intros k Hk. cbn [ivn]. rewrite (eqq_mod q).
      assert (Ht : 0 < 2 ^ Z.of_nat u) by (apply p2; lia).
      assert (Hm : 0 < 2 ^ (Z.of_nat L - 1 - Z.of_nat u)) by (apply p2; lia).
      assert (HN : N = 2 ^ (Z.of_nat L - 1 - Z.of_nat u) * (2 * 2 ^ Z.of_nat u))
        by (unfold N; rewrite (pow2_div _ (Z.of_nat u)) by lia; lia).
      rewrite (istg_eqf _ _ _ _ Ht HN (IH ltac:(lia)) k Hk). rewrite istg_scal.
      replace (L - u)%nat with (Datatypes.S (L - Datatypes.S u)) by lia. cbn [fwn].
      replace (Z.of_nat L - 1 - Z.of_nat (L - Datatypes.S u)) with (Z.of_nat u) by lia.
      replace (Z.of_nat (L - Datatypes.S u)) with (Z.of_nat L - 1 - Z.of_nat u) by lia.
      rewrite (istg_eqf _ _ _ (fstg (2 ^ Z.of_nat u) (2 ^ (Z.of_nat L - 1 - Z.of_nat u)) S (fwn (L - Datatypes.S u) f))
                 Ht HN ltac:(intros x Hx; apply eqq_mod) k Hk).
      rewrite (istg_fstg _ _ _ Ht Hm HN k Hk). rewrite Nat2Z.inj_succ, Z.pow_succ_r by lia.
      match goal with |- ?a =[_]= ?b => replace a with b by ring end. reflexivity.
  Qed.

  Lemma fwn_ivn f u : (u <= L)%nat -> eqf (fwn u (ivn L f)) (fun k => 2 ^ Z.of_nat u * ivn (L - u) f k).
  Proof.
    induction u as [|u IH]; intros Hu.
    - intros k Hk. cbn [fwn]. rewrite Nat.sub_0_r. change (2 ^ Z.of_nat 0) with 1. rewrite Z.mul_1_l. reflexivity.
    - intros k Hk. cbn [fwn]. rewrite (eqq_mod q).
      assert (Ht : 0 < 2 ^ (Z.of_nat L - 1 - Z.of_nat u)) by (apply p2; lia).
      assert (Hm : 0 < 2 ^ Z.of_nat u) by (apply p2; lia).
      assert (HN : N = 2 ^ Z.of_nat u * (2 * 2 ^ (Z.of_nat L - 1 - Z.of_nat u)))
        by (unfold N; rewrite (pow2_div _ (Z.of_nat u)) by lia; lia).
      rewrite (fstg_eqf _ _ _ _ Ht HN (IH ltac:(lia)) k Hk). rewrite fstg_scal.
      replace (L - u)%nat with (Datatypes.S (L - Datatypes.S u)) by lia. cbn [ivn].
      replace (Z.of_nat L - 1 - Z.of_nat (L - Datatypes.S u)) with (Z.of_nat u) by lia.
      replace (Z.of_nat (L - Datatypes.S u)) with (Z.of_nat L - 1 - Z.of_nat u) by lia.
      rewrite (fstg_eqf _ _ _ (istg (2 ^ (Z.of_nat L - 1 - Z.of_nat u)) (2 ^ Z.of_nat u) S' (ivn (L - Datatypes.S u) f))
                 Ht HN ltac:(intros x Hx; apply eqq_mod) k Hk).
      rewrite (fstg_istg _ _ _ Ht Hm HN k Hk). rewrite Nat2Z.inj_succ, Z.pow_succ_r by lia.
      match goal with |- ?a =[_]= ?b => replace a with b by ring end. reflexivity.
  Qed.

  Lemma fwn_eqf s f g : (s <= L)%nat -> eqf f g -> eqf (fwn s f) (fwn s g).
  Proof.
    induction s as [|s IH]; intros Hs H k Hk; [apply H; auto|]. cbn [fwn]. rewrite !(eqq_mod q).
    apply fstg_eqf; auto.
    - apply p2; lia.
    - unfold N. apply pow2_div. lia.
    - apply IH; auto. lia.
  Qed.
  Lemma ivn_eqf s f g : (s <= L)%nat -> eqf f g -> eqf (ivn s f) (ivn s g).
  Proof.
    induction s as [|s IH]; intros Hs H k Hk; [apply H; auto|]. cbn [ivn]. rewrite !(eqq_mod q).
    apply istg_eqf; auto.
    - apply p2; lia.
    - unfold N. rewrite (pow2_div _ (Z.of_nat s)) by lia. lia.
    - apply IH; auto. lia.
  Qed.

  Lemma fwn_scal s c f k : (s <= L)%nat -> 0 <= k < N -> fwn s (fun k => c * f k) k =[q]= c * fwn s f k.
  Proof.
    intros Hs. revert k. induction s as [|s IH]; intros k Hk; [reflexivity|]. cbn [fwn]. rewrite !(eqq_mod q).
    rewrite <- fstg_scal. apply fstg_eqf; auto.
    - apply p2; lia.
    - unfold N. apply pow2_div. lia.
    - intros x Hx. apply IH; auto. lia.
  Qed.

  (** *** Evaluation *)
  Variable psi : Z.
  Hypothesis Hpsi : psi ^ N =[q]= -1.
  Hypothesis HSpsi : forall k, 0 <= k < N -> S k =[q]= psi ^ (brv L k).

  Lemma fwn_eval f s : (s <= L)%nat -> forall i r, 0 <= i < 2 ^ Z.of_nat s -> 0 <= r < 2 ^ (Z.of_nat L - Z.of_nat s) ->
    fwn s f (2 ^ (Z.of_nat L - Z.of_nat s) * i + r) =[q]=
      zsum (2 ^ Z.of_nat s) (fun c => f (r + 2 ^ (Z.of_nat L - Z.of_nat s) * c) *
         psi ^ ((2 * brv s i + 1) * 2 ^ (Z.of_nat L - Z.of_nat s) * c)).
  Proof.
    induction s as [|s IH]; intros Hs i r Hi Hr.
    - cbn [fwn]. change (2 ^ Z.of_nat 0) with 1 in *. assert (i = 0) by lia. subst i.
      change 1 with (0 + 1) at 1. rewrite zsum_S, zsum_nil by lia. rewrite !Z.mul_0_r, Z.pow_0_r, Z.add_0_r.
      rewrite Z.mul_1_r. reflexivity.
    - set (t := 2 ^ (Z.of_nat L - Z.of_nat (Datatypes.S s))) in *.
      assert (Et : 2 ^ (Z.of_nat L - Z.of_nat s) = 2 * t).
      { unfold t. rewrite <- Z.pow_succ_r by lia. f_equal. lia. }
      rewrite Et in IH. assert (Ht : 0 < t) by (apply p2; lia).
      assert (Em : 2 ^ Z.of_nat (Datatypes.S s) = 2 * 2 ^ Z.of_nat s) by (rewrite Nat2Z.inj_succ, Z.pow_succ_r; lia).
      set (m := 2 ^ Z.of_nat s) in *. assert (Hm : 0 < m) by (apply p2; lia). rewrite Em in *.
      assert (HN : N = m * (2 * t)).
      { unfold N, m. rewrite <- Et, <- Z.pow_add_r by lia. f_equal. lia. }
      pose proof (Z.div_mod i 2 ltac:(lia)) as Ei. pose proof (Z.mod_pos_bound i 2 ltac:(lia)) as Hi2.
      set (i' := i / 2) in *. assert (Hi' : 0 <= i' < m) by lia.
      cbn [fwn]. rewrite (eqq_mod q).
      replace (Z.of_nat L - 1 - Z.of_nat s) with (Z.of_nat L - Z.of_nat (Datatypes.S s)) by lia. fold t m.
      assert (ES : S (m + i') =[q]= psi ^ ((2 * brv s i' + 1) * t)).
      { rewrite HSpsi by nia. replace L with (Datatypes.S s + (L - Datatypes.S s))%nat by lia.
        rewrite brv_pad; [|fold m; rewrite Em; lia].
        replace (m + i') with (1 * m + i') by lia. unfold m. rewrite brv_high by (fold m; lia).
        assert (E : 2 ^ Z.of_nat (L - Datatypes.S s) = t) by (unfold t; f_equal; lia). rewrite E.
        replace (t * (1 + 2 * brv s i')) with ((2 * brv s i' + 1) * t) by lia. reflexivity. }
      pose proof (brv_range s i') as Hbr.
      set (w := psi ^ ((2 * brv s i' + 1) * t)) in *.
      assert (IH0 := IH ltac:(lia) i' r Hi' ltac:(lia)).
      assert (IH1 := IH ltac:(lia) i' (r + t) Hi' ltac:(lia)).
      assert (Ew : forall c, 0 <= c -> psi ^ ((2 * brv s i' + 1) * (2 * t) * c) = w ^ (2 * c)).
      { intros c Hc. unfold w. rewrite <- Z.pow_mul_r by nia. f_equal. lia. }
      assert (Ebr : brv (Datatypes.S s) i = m * (i mod 2) + brv s i') by reflexivity.
      rewrite zsum_even_odd by lia.
      assert (Hcase : i mod 2 = 0 \/ i mod 2 = 1) by lia. destruct Hcase as [E0|E1].
      + replace (t * i + r) with (2 * t * i' + r) by lia. rewrite fstg_lo by lia.
        rewrite <- Z.add_assoc. rewrite IH0, IH1, ES. rewrite <- zsum_scal_r, <- zsum_add. apply eqq_zsum.
        intros c Hc. rewrite !Ew by lia. rewrite Ebr, E0, Z.mul_0_r, Z.add_0_l.
        assert (Ew1 : forall c, 0 <= c -> psi ^ ((2 * brv s i' + 1) * t * c) = w ^ c).
        { intros c' Hc'. unfold w. rewrite <- Z.pow_mul_r by nia. reflexivity. }
        rewrite !Ew1 by lia. rewrite Z.pow_add_r, Z.pow_1_r by lia.
        replace (r + t * (2 * c)) with (r + 2 * t * c) by lia.
        replace (r + t * (2 * c + 1)) with (r + t + 2 * t * c) by lia.
        match goal with |- ?a =[_]= ?b => replace a with b by ring end. reflexivity.
      + replace (t * i + r) with (2 * t * i' + r + t) by lia. rewrite fstg_hi by lia.
        rewrite <- Z.add_assoc. rewrite IH0, IH1, ES. rewrite <- zsum_scal_r, <- zsum_sub. apply eqq_zsum.
        intros c Hc. rewrite !Ew by lia. rewrite Ebr, E1, Z.mul_1_r.
        assert (Ew1 : forall c, 0 <= c -> psi ^ ((2 * (m + brv s i') + 1) * t * c) =[q]= (- w) ^ c).
        { intros c' Hc'. rewrite Z.pow_mul_r by nia. apply eqq_pow; auto.
          replace ((2 * (m + brv s i') + 1) * t) with (N + (2 * brv s i' + 1) * t) by (rewrite HN; lia).
          rewrite Z.pow_add_r by nia. fold w. rewrite Hpsi. replace (-1 * w) with (- w) by lia. reflexivity. }
        rewrite !Ew1 by lia. rewrite Z.pow_add_r, Z.pow_1_r by lia.
        assert (Eo : (- w) ^ (2 * c) = w ^ (2 * c)).
        { rewrite !Z.pow_mul_r by lia. f_equal. ring. }
        rewrite Eo.
        replace (r + t * (2 * c)) with (r + 2 * t * c) by lia.
        replace (r + t * (2 * c + 1)) with (r + t + 2 * t * c) by lia.
        match goal with |- ?a =[_]= ?b => replace a with b by ring end. reflexivity.
  Qed.

  Lemma fwn_final f k : 0 <= k < N ->
    fwn L f k =[q]= zsum N (fun c => f c * psi ^ ((2 * brv L k + 1) * c)).
  Proof.
    intros Hk. pose proof (fwn_eval f L ltac:(lia) k 0) as H. rewrite Z.sub_diag, Z.pow_0_r in H.
    replace (1 * k + 0) with k in H by lia. rewrite H by (fold N; lia). fold N. apply eqq_zsum.
    intros c Hc. rewrite Z.add_0_l, !Z.mul_1_l, Z.mul_1_r. reflexivity.
  Qed.
End Whole.

(** *** The tables *)

Lemma table_loop q N (psi : Z) : 1 < q < W -> is_word psi -> 1 <= N ->
  (a <- wr (fresh N) 0 1 ;;
   for_ 1 N (fun i a => x <- rd a (i - 1) ;; y <- mul_mod psi x q ;; wr a i y) a)
  = Ok (wtab N (fun k => psi ^ k mod q)).
Proof.
  intros Hq Hpsi HN. rewrite fresh_tab, wr_tab by lia. cbn [bind].
  rewrite (for_closed _ (fun i => tab N (fun k => if k <? i then Some (psi ^ k mod q) else None))
     _ _ _ (wtab N (fun k => psi ^ k mod q))).
  - reflexivity.
  - lia.
  - apply tab_ext. intros k Hk. zc; auto. subst. rewrite Z.pow_0_r, Z.mod_small by lia. reflexivity.
  - apply tab_ext. intros k Hk. zc; auto.
  - intros i Hi. rewrite rd_tab by lia. zc. cbn [bind].
    rewrite mul_mod_ok by (auto using q_word; lia). cbn [bind]. rewrite wr_tab by lia. f_equal.
    apply tab_ext. intros k Hk. zc; auto. subst. rewrite Z.mul_mod_idemp_r by lia.
    rewrite <- Z.pow_succ_r by lia. do 3 f_equal. lia.
Qed.

Lemma rev_loop (L : nat) f : (1 <= L <= 29)%nat ->
  for_ 0 (2 ^ Z.of_nat L) (fun i a => b <- bitReverse i (Z.of_nat L) ;; x <- rd (wtab (2 ^ Z.of_nat L) f) b ;; wr a i x)
    (fresh (2 ^ Z.of_nat L))
  = Ok (wtab (2 ^ Z.of_nat L) (fun k => f (brv L k))).
Proof.
  intros HL. set (N := 2 ^ Z.of_nat L). assert (HN : 0 < N <= 2 ^ 29).
  { split; [apply p2; lia|apply Z.pow_le_mono_r; lia]. }
  rewrite fresh_tab.
  rewrite (for_closed _ (fun i => tab N (fun k => if k <? i then Some (f (brv L k)) else None))
     _ _ _ (wtab N (fun k => f (brv L k)))).
  - reflexivity.
  - lia.
  - apply tab_ext. intros k Hk. zc; auto.
  - apply tab_ext. intros k Hk. zc; auto.
  - intros i Hi. rewrite bitReverse_brv by lia. cbn [bind]. rewrite Nat2Z.id.
    pose proof (brv_range L i) as Hb. fold N in Hb. rewrite rd_wtab by lia. cbn [bind]. rewrite wr_tab by lia. f_equal.
    apply tab_ext. intros k Hk. zc; auto. subst. reflexivity.
Qed.

(** What the constructor establishes. *)
Definition ntt_tables (q : Z) (L : nat) (psi ipsi : Z) (T : ntt_t) : Prop :=
  ntt_q T = q /\
  psi_rev T = wtab (2 ^ Z.of_nat L) (fun k => psi ^ brv L k mod q) /\
  inv_psi_rev T = wtab (2 ^ Z.of_nat L) (fun k => ipsi ^ brv L k mod q) /\
  is_word (inv_N T) /\ 2 ^ Z.of_nat L * inv_N T =[q]= 1 /\
  0 < psi < q /\ 0 < ipsi < q /\ psi * ipsi =[q]= 1 /\ psi ^ (2 ^ Z.of_nat L) =[q]= -1.

Definition qmax : Z := (2 ^ 32 - 1) * (2 ^ 32 - 1).

Lemma ntt_new_ok q (L : nat) : prime q -> 2 < q <= qmax -> (1 <= L <= 29)%nat ->
  q mod (2 * 2 ^ Z.of_nat L) = 1 ->
  exists T psi ipsi, ntt_new (2 ^ Z.of_nat L) q = Ok T /\ ntt_tables q L psi ipsi T.
Proof.
  intros Hp Hq HL Hm. set (N := 2 ^ Z.of_nat L) in *. unfold qmax in Hq.
  assert (HW : 1 < q < W) by (unfold W; lia).
  assert (HN : 2 <= N <= 2 ^ 29).
  { split; [change 2 with (2 ^ 1) at 1|]; apply Z.pow_le_mono_r; lia. }
  unfold ntt_new.
  assert (Hlog : log_ N = Ok (Z.of_nat L)).
  { apply log_pow; [lia|]. split; [apply Z.pow_lt_mono_r; lia|unfold N; lia]. }
  rewrite Hlog. cbn [bind].
  destruct (findPrimitiveRoot_ok q Hp Hq) as (g & -> & Hg & Hgen & _). cbn [bind].
  assert (Eint : int_ (2 * N) = Ok (2 * N)).
  { unfold int_, in_int. destruct (Z.leb_spec (- 2 ^ 31) (2 * N)); [|lia].
    destruct (Z.ltb_spec (2 * N) (2 ^ 31)); [reflexivity|lia]. }
  rewrite Eint. cbn [bind].
  assert (Es1 : wsub q 1 = q - 1) by (unfold wsub, wrap; apply Z.mod_small; lia). rewrite Es1.
  unfold wdiv at 1. destruct (Z.eqb_spec (2 * N) 0); [lia|]. cbn [bind].
  pose proof (Z.div_mod q (2 * N) ltac:(lia)) as Eq. rewrite Hm in Eq.
  set (e := q / (2 * N)) in *. assert (Ee : (q - 1) / (2 * N) = e).
  { replace (q - 1) with (e * (2 * N)) by lia. apply Z.div_mul. lia. }
  rewrite Ee. assert (He : 0 < e) by nia. assert (Heq : e <= q) by nia.
  rewrite pow_mod_ok by (unfold is_word in *; lia). cbn [bind].
  set (psi := g ^ e mod q).
  assert (Hnd : ~ (q | g)) by (intros Hd; apply dvd_pos_le in Hd; lia).
  assert (Hpsi : 0 < psi < q).
  { unfold psi. pose proof (Z.mod_pos_bound (g ^ e) q ltac:(lia)).
    destruct (Z.eq_dec (g ^ e mod q) 0) as [E|]; [|lia]. apply Z.mod_divide in E; [|lia].
    exfalso. revert E. apply pow_not_dvd; auto. lia. }
  assert (Hpsiw : is_word psi) by (unfold is_word; lia).
  assert (HpN : psi ^ N =[q]= -1).
  { assert (E1 : psi ^ N =[q]= g ^ ((q - 1) / 2)).
    { rewrite (eqq_pow q psi (g ^ e)); [|lia|apply eqq_mod]. rewrite <- Z.pow_mul_r by lia.
      replace ((q - 1) / 2) with (e * N); [reflexivity|].
      replace (q - 1) with (e * N * 2) by lia. rewrite Z.div_mul; lia. }
    assert (E2 : psi ^ N * psi ^ N =[q]= 1).
    { rewrite E1. constructor. rewrite <- Z.pow_add_r by (apply Z.div_pos; lia).
      replace ((q - 1) / 2 + (q - 1) / 2) with (q - 1).
      - rewrite fermatZ by auto. rewrite Z.mod_small; lia.
      - replace (q - 1) with (e * N * 2) by lia. rewrite Z.div_mul; lia. }
    assert (E3 : (q | (psi ^ N - 1) * (psi ^ N + 1))).
    { apply Z.mod_divide; [lia|]. replace ((psi ^ N - 1) * (psi ^ N + 1)) with (psi ^ N * psi ^ N - 1) by ring.
      apply eqq_eq in E2. rewrite Zminus_mod, E2, <- Zminus_mod. apply Z.mod_0_l. lia. }
    apply prime_mult in E3; auto. destruct E3 as [[c Hc]|[c Hc]].
    - exfalso. assert (Hone : g ^ ((q - 1) / 2) mod q = 1).
      { apply eqq_eq in E1. rewrite <- E1. replace (psi ^ N) with (1 + c * q) by lia. rewrite Z.mod_add by lia.
        apply Z.mod_small. lia. }
      pose proof (generates_pr_good q Hq g Hgen 2 prime_2) as Hgood. apply Hgood; auto.
      exists (e * N). lia.
    - constructor. replace (psi ^ N) with (-1 + c * q) by lia. rewrite Z.mod_add by lia. reflexivity. }
  pose proof (table_loop q N psi HW Hpsiw ltac:(lia)) as Et.
  destruct (wr (fresh N) 0 1) as [a0| | |] eqn:Ea0; cbn [bind] in Et; try discriminate. cbn [bind].
  rewrite Et. cbn [bind]. clear Et.
  pose proof (rev_loop L (fun k => psi ^ k mod q) HL) as Er. fold N in Er. rewrite Er. cbn [bind]. clear Er.
  assert (Hndp : ~ (q | psi)) by (intros Hd; apply dvd_pos_le in Hd; lia).
  destruct (inv_mod_ok psi q Hp ltac:(lia) Hpsiw Hndp) as (ipsi & -> & Hip & Einv). cbn [bind].
  pose proof (table_loop q N ipsi HW ltac:(unfold is_word; lia) ltac:(lia)) as Et.
  rewrite Ea0 in Et. cbn [bind] in Et. rewrite Et. cbn [bind]. clear Et.
  pose proof (rev_loop L (fun k => ipsi ^ k mod q) HL) as Er. fold N in Er. rewrite Er. cbn [bind]. clear Er.
  assert (HndN : ~ (q | N)) by (intros Hd; apply dvd_pos_le in Hd; nia).
  destruct (inv_mod_ok N q Hp ltac:(lia) ltac:(unfold is_word, W; lia) HndN) as (iN & -> & HiN & EiN). cbn [bind].
  do 3 eexists. split; [reflexivity|]. unfold ntt_tables. cbn [ntt_q psi_rev inv_psi_rev inv_N].
  repeat split; try reflexivity; try (unfold is_word; lia).
  - rewrite (Z.mod_small 1) by lia. exact EiN.
  - rewrite (Z.mod_small 1) by lia. exact Einv.
  - apply eqq_eq. exact HpN.
Qed.

(** *** Consequences for a table set *)
Section Tables.
  Variables (q : Z) (L : nat) (psi ipsi : Z) (T : ntt_t).
  Hypothesis Hq : 1 < q < W.
  Hypothesis HL : (1 <= L <= 29)%nat.
  Hypothesis HT : ntt_tables q L psi ipsi T.
  Let N := 2 ^ Z.of_nat L.

  Lemma tab_S_word p k : is_word (p ^ k mod q).
  Proof. apply q_word. auto. Qed.

  Lemma tables_inv : forall k, 1 <= k < N -> (psi ^ brv L k mod q) * (ipsi ^ brv L k mod q) =[q]= 1.
  Proof.
    intros k Hk. rewrite !eqq_mod. rewrite <- Z.pow_mul_l. pose proof (brv_range L k).
    destruct HT as (_ & _ & _ & _ & _ & _ & _ & E & _).
    rewrite (eqq_pow q _ 1); [|lia|exact E]. rewrite Z.pow_1_l by lia. reflexivity.
  Qed.

  Definition ntt_f (f : Z -> Z) := fwn q L (fun k => psi ^ brv L k mod q) L f.
  Definition intt_f (f : Z -> Z) := fun k => (ivn q L (fun k => ipsi ^ brv L k mod q) L f k * inv_N T) mod q.

  Lemma ntt_fwd_ok f : (forall k, 0 <= k < N -> is_word (f k)) ->
    ntt_fwd T N (wtab N f) = Ok (wtab N (ntt_f f)).
  Proof.
    intros Hf. destruct HT as (E1 & E2 & _). apply ntt_fwd_run; auto. intros. apply tab_S_word.
  Qed.
  Lemma ntt_inv_ok f : (forall k, 0 <= k < N -> is_word (f k)) ->
    ntt_inv T N (wtab N f) = Ok (wtab N (intt_f f)).
  Proof.
    intros Hf. destruct HT as (E1 & _ & E2 & E3 & _). apply ntt_inv_run; auto. intros. apply tab_S_word.
  Qed.

  Lemma ntt_f_range f k : 0 <= ntt_f f k < q.
  Proof. unfold ntt_f. destruct L as [|l]; [lia|]. cbn [fwn]. apply Z.mod_pos_bound. lia. Qed.
  Lemma intt_f_range f k : 0 <= intt_f f k < q.
  Proof. unfold intt_f. apply Z.mod_pos_bound. lia. Qed.

  Lemma ntt_f_eval f k : 0 <= k < N -> ntt_f f k =[q]= zsum N (fun c => f c * psi ^ ((2 * brv L k + 1) * c)).
  Proof.
    intros Hk. destruct HT as (_ & _ & _ & _ & _ & _ & _ & _ & E).
    apply fwn_final; auto. intros. apply eqq_mod.
  Qed.

  Lemma intt_ntt f k : 0 <= k < N -> intt_f (ntt_f f) k =[q]= f k.
  Proof.
    intros Hk. unfold intt_f, ntt_f. rewrite eqq_mod.
    rewrite (ivn_fwn q L HL _ _ tables_inv f L ltac:(lia) k Hk). rewrite Nat.sub_diag. cbn [fwn].
    destruct HT as (_ & _ & _ & _ & E & _). fold N in E.
    match goal with |- ?a =[_]= _ => replace a with (f k * (N * inv_N T)) by (unfold N; ring) end.
    rewrite E. rewrite Z.mul_1_r. reflexivity.
  Qed.

  Lemma ntt_intt f k : 0 <= k < N -> ntt_f (intt_f f) k =[q]= f k.
  Proof.
    intros Hk. unfold intt_f, ntt_f.
    transitivity (fwn q L (fun k => psi ^ brv L k mod q) L
      (fun k => inv_N T * ivn q L (fun k => ipsi ^ brv L k mod q) L f k) k).
    - apply (fwn_eqf q L HL); auto. intros x Hx. rewrite eqq_mod. rewrite Z.mul_comm. reflexivity.
    - rewrite fwn_scal; auto. rewrite (fwn_ivn q L HL _ _ tables_inv f L ltac:(lia) k Hk).
      rewrite Nat.sub_diag. cbn [ivn].
      destruct HT as (_ & _ & _ & _ & E & _). fold N in E.
      match goal with |- ?a =[_]= _ => replace a with (f k * (N * inv_N T)) by (unfold N; ring) end.
      rewrite E. rewrite Z.mul_1_r. reflexivity.
  Qed.

  Lemma intt_f_eqf f g : (forall k, 0 <= k < N -> f k =[q]= g k) -> forall k, 0 <= k < N -> intt_f f k =[q]= intt_f g k.
  Proof.
    intros H k Hk. unfold intt_f. rewrite !eqq_mod. apply eqq_mul; [|reflexivity].
    apply (ivn_eqf q L HL); auto.
  Qed.
End Tables.

(** *** Negacyclic product *)

Lemma negconv_eval q N a b z : 0 < N -> z ^ N =[q]= -1 ->
  zsum N (fun i => negconv N a b i * z ^ i) =[q]= zsum N (fun i => a i * z ^ i) * zsum N (fun i => b i * z ^ i).
Proof.
  intros HN Hz. unfold negconv.
  rewrite (zsum_ext N _ (fun i => zsum N (fun k => a k * (if k <=? i then b (i - k) else - b (N + i - k)) * z ^ i)))
    by (intros; rewrite zsum_scal_r; reflexivity).
  rewrite zsum_swap. rewrite <- zsum_scal_r. apply eqq_zsum. intros k Hk.
  rewrite (zsum_ext N _ (fun i => a k * ((if k <=? i then b (i - k) else - b (N + i - k)) * z ^ i)))
    by (intros; ring).
  rewrite zsum_scal. rewrite <- Z.mul_assoc. apply eqq_mul; [reflexivity|].
  rewrite (zsum_cut k) by lia. rewrite (zsum_cut (N - k) N (fun i => b i * z ^ i)) by lia.
  replace (N - (N - k)) with k by lia. rewrite Z.mul_add_distr_l, Z.add_comm. apply eqq_add.
  - rewrite <- zsum_scal. apply eqq_zsum. intros i Hi. zc.
    replace (k + i - k) with i by lia. rewrite Z.pow_add_r by lia.
    match goal with |- ?a =[_]= ?b => replace a with b by ring end. reflexivity.
  - rewrite <- zsum_scal. apply eqq_zsum. intros i Hi. zc.
    replace (N + i - k) with (N - k + i) by lia. set (x := b (N - k + i)).
    replace (z ^ k * (x * z ^ (N - k + i))) with (x * (z ^ k * z ^ (N - k + i))) by ring.
    rewrite <- Z.pow_add_r by lia. replace (k + (N - k + i)) with (N + i) by lia.
    rewrite Z.pow_add_r by lia. rewrite Hz.
    match goal with |- ?a =[_]= ?b => replace a with b by ring end. reflexivity.
Qed.

Lemma negconv_eqq q N a a' b b' : (forall i, 0 <= i < N -> a i =[q]= a' i) -> (forall i, 0 <= i < N -> b i =[q]= b' i) ->
  forall i, 0 <= i < N -> negconv N a b i =[q]= negconv N a' b' i.
Proof.
  intros Ha Hb i Hi. unfold negconv. apply eqq_zsum. intros k Hk. rewrite (Ha k) by auto. zc.
  - rewrite Hb by lia. reflexivity.
  - rewrite Hb by lia. reflexivity.
Qed.

Section Product.
  Variables (q : Z) (L : nat) (psi ipsi : Z) (T : ntt_t).
  Hypothesis Hq : 1 < q < W.
  Hypothesis HL : (1 <= L <= 29)%nat.
  Hypothesis HT : ntt_tables q L psi ipsi T.
  Let N := 2 ^ Z.of_nat L.

  Lemma ntt_product a b k : 0 <= k < N ->
    intt_f q L ipsi T (fun j => (ntt_f q L psi a j * ntt_f q L psi b j) mod q) k =[q]= negconv N a b k.
  Proof.
    intros Hk. rewrite <- (intt_ntt q L psi ipsi T HL HT (negconv N a b) k Hk).
    apply intt_f_eqf; auto. intros j Hj. rewrite eqq_mod.
    rewrite !(ntt_f_eval q L psi ipsi T HL HT) by auto. fold N.
    pose proof (brv_range L j) as Hb.
    assert (Hz : (psi ^ (2 * brv L j + 1)) ^ N =[q]= -1).
    { destruct HT as (_ & _ & _ & _ & _ & _ & _ & _ & E). fold N in E.
      rewrite <- Z.pow_mul_r by (unfold N; pose proof (p2 (Z.of_nat L)); lia).
      rewrite (Z.mul_comm _ N), Z.pow_mul_r by (unfold N; pose proof (p2 (Z.of_nat L)); lia).
      rewrite (eqq_pow q _ (-1)); [|lia|exact E].
      rewrite Z.pow_add_r, Z.pow_mul_r by lia. change ((-1) ^ 2) with 1. rewrite Z.pow_1_l by lia. reflexivity. }
    assert (Epow : forall f, zsum N (fun c => f c * psi ^ ((2 * brv L j + 1) * c)) =
                             zsum N (fun c => f c * (psi ^ (2 * brv L j + 1)) ^ c)).
    { intros f. apply zsum_ext. intros c Hc. rewrite Z.pow_mul_r by lia. reflexivity. }
    rewrite !Epow. symmetry. apply negconv_eval; auto. apply p2. lia.
  Qed.
End Product.
