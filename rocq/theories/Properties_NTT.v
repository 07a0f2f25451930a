(** Properties of the number-theoretic transform: C21, C22, C23. *)
From Coq Require Import ZArith List Bool Lia Znumtheory.
From Verif Require Import Base BaseFacts Util UtilFacts Mod ModFacts NTT NumZ Sums SpecPoly NTTFacts.
Import ListNotations.
Open Scope Z_scope.

Lemma words_tab a N : length a = Z.to_nat N -> map (@Some Z) a = wtab N (coef a).
Proof.
  intros H. unfold wtab, tab, coef. rewrite <- H. clear H.
  apply list_ext. intros k. rewrite !nth_error_map'. destruct (Nat.ltb_spec k (length a)) as [Hk|Hk].
  - rewrite nth_error_seq by auto. rewrite Nat.add_0_l, Nat2Z.id. rewrite (nth_error_nth' a 0 Hk). reflexivity.
  - rewrite (proj2 (nth_error_None a k)) by auto.
    rewrite (proj2 (nth_error_None (seq 0 (length a)) k)) by (rewrite seq_length; auto). reflexivity.
Qed.
Lemma wtab_words N f : wtab N f = map (@Some Z) (tab N f).
Proof. unfold wtab, tab. rewrite map_map. reflexivity. Qed.
Lemma coef_tab N f i : 0 <= i < N -> coef (tab N f) i = f i.
Proof. intros Hi. unfold coef. apply nth_error_nth. apply nth_error_tab. auto. Qed.
Lemma Forall_coef a N : length a = Z.to_nat N -> Forall is_word a -> forall i, 0 <= i < N -> is_word (coef a i).
Proof. intros Hl Hf i Hi. rewrite Forall_forall in Hf. apply Hf. apply nth_In. lia. Qed.

Lemma reversed_brv k j r : 0 <= k -> reversed k j r -> r = brv (Z.to_nat k) j.
Proof.
  intros Hk [Hr Hb]. pose proof (brv_range (Z.to_nat k) j) as Hv. rewrite Z2Nat.id in Hv by auto.
  apply Z.bits_inj'. intros i Hi. destruct (Z_lt_le_dec i k).
  - rewrite Hb, brv_bit by lia. f_equal. lia.
  - rewrite !(pow2_bits_lt _ k i) by lia. reflexivity.
Qed.

(** The transform object for N = 2^k and a prime modulus q = 1 mod 2N. *)
Definition good_modulus (k q : Z) : Prop :=
  prime q /\ q <= (2 ^ 32 - 1) * (2 ^ 32 - 1) /\ q mod 2 ^ (k + 1) = 1.

Lemma good_new (L : nat) q : (1 <= L <= 29)%nat -> good_modulus (Z.of_nat L) q ->
  1 < q < W /\ exists T psi ipsi, ntt_new (2 ^ Z.of_nat L) q = Ok T /\ ntt_tables q L psi ipsi T.
Proof.
  intros Hk (Hp & Hq & Hm). pose proof (prime_pos _ Hp).
  assert (2 < q).
  { destruct (Z.eq_dec q 2) as [->|]; [|lia].
    assert (Hz : 2 mod 2 ^ (Z.of_nat L + 1) = 2).
    { apply Z.mod_small. assert (2 ^ 2 <= 2 ^ (Z.of_nat L + 1)) by (apply Z.pow_le_mono_r; lia). lia. }
    lia. }
  split; [unfold W; lia|].
  apply ntt_new_ok; auto; try (unfold qmax; lia).
  rewrite <- Hm. f_equal. rewrite Z.pow_add_r by lia. lia.
Qed.

Theorem C21_ntt_evaluates : forall k q, 1 <= k <= 29 -> good_modulus k q ->
  exists T psi, ntt_new (2 ^ k) q = Ok T /\ 0 < psi < q /\ (psi ^ (2 ^ k) + 1) mod q = 0 /\
    forall a, length a = Z.to_nat (2 ^ k) -> Forall is_word a ->
      exists b, ntt_fwd T (2 ^ k) (map Some a) = Ok (map Some b) /\ length b = length a /\
        forall j r, 0 <= j < 2 ^ k -> reversed k j r ->
          coef b j = zsum (2 ^ k) (fun i => coef a i * psi ^ ((2 * r + 1) * i)) mod q.
Proof.
  intros k q Hk. rewrite <- (Z2Nat.id k) by lia. set (L := Z.to_nat k).
  assert (HL : (1 <= L <= 29)%nat) by lia. clearbody L. clear k Hk. intros Hg.
  destruct (good_new L q HL Hg) as (Hq & T & psi & ipsi & E & HT).
  exists T, psi. split; auto. pose proof HT as (_ & _ & _ & _ & _ & Hpsi & _ & _ & HN).
  split; auto. split.
  { apply eqq_eq in HN. rewrite Zplus_mod, HN, <- Zplus_mod. reflexivity. }
  intros a Ha Hw. exists (tab (2 ^ Z.of_nat L) (ntt_f q L psi (coef a))).
  rewrite (words_tab a (2 ^ Z.of_nat L)) by auto. rewrite <- wtab_words. split.
  { apply (ntt_fwd_ok q L psi ipsi T Hq HL HT). apply Forall_coef; auto. }
  split; [rewrite tab_length; auto|]. intros j r Hj Hr. rewrite coef_tab by auto.
  apply reversed_brv in Hr; [|lia]. rewrite Nat2Z.id in Hr. subst r.
  rewrite <- (eqq_eq _ _ _ (ntt_f_eval q L psi ipsi T HL HT (coef a) j Hj)).
  rewrite Z.mod_small; auto. apply (ntt_f_range q L psi ipsi T Hq HL HT).
Qed.

Theorem C22_intt_inverts : forall k q, 1 <= k <= 29 -> good_modulus k q ->
  exists T, ntt_new (2 ^ k) q = Ok T /\
    forall a, length a = Z.to_nat (2 ^ k) -> Forall is_word a ->
      (exists b, ntt_fwd T (2 ^ k) (map Some a) = Ok b /\
                 ntt_inv T (2 ^ k) b = Ok (map (fun x => Some (x mod q)) a)) /\
      (exists b, ntt_inv T (2 ^ k) (map Some a) = Ok b /\
                 ntt_fwd T (2 ^ k) b = Ok (map (fun x => Some (x mod q)) a)).
Proof.
  intros k q Hk. rewrite <- (Z2Nat.id k) by lia. set (L := Z.to_nat k).
  assert (HL : (1 <= L <= 29)%nat) by lia. clearbody L. clear k Hk. intros Hg.
  destruct (good_new L q HL Hg) as (Hq & T & psi & ipsi & E & HT).
  exists T. split; auto. intros a Ha Hw.
  assert (Hmap : map (fun x => Some (x mod q)) a = wtab (2 ^ Z.of_nat L) (fun i => coef a i mod q)).
  { rewrite <- (map_map (fun x => x mod q) Some), (words_tab _ (2 ^ Z.of_nat L)) by (rewrite map_length; auto).
    apply wtab_ext. intros i Hi. unfold coef.
    rewrite (nth_indep _ 0 (0 mod q)) by (rewrite map_length; lia).
    rewrite (map_nth (fun x => x mod q)). reflexivity. }
  rewrite (words_tab a (2 ^ Z.of_nat L)) by auto. rewrite Hmap.
  pose proof (Forall_coef a _ Ha Hw) as Hc.
  assert (Hw1 : forall f i, is_word (ntt_f q L psi f i)).
  { intros f i. pose proof (ntt_f_range q L psi ipsi T Hq HL HT f i). unfold is_word. lia. }
  assert (Hw2 : forall f i, is_word (intt_f q L ipsi T f i)).
  { intros f i. pose proof (intt_f_range q L ipsi T Hq HL f i). unfold is_word. lia. }
  split.
  - rewrite (ntt_fwd_ok q L psi ipsi T Hq HL HT) by auto. eexists. split; [reflexivity|].
    rewrite (ntt_inv_ok q L psi ipsi T Hq HL HT) by auto.
    f_equal. apply wtab_ext. intros i Hi.
    rewrite <- (eqq_eq _ _ _ (intt_ntt q L psi ipsi T HL HT (coef a) i Hi)).
    rewrite Z.mod_small; auto. apply (intt_f_range q L ipsi T Hq HL).
  - rewrite (ntt_inv_ok q L psi ipsi T Hq HL HT) by auto. eexists. split; [reflexivity|].
    rewrite (ntt_fwd_ok q L psi ipsi T Hq HL HT) by auto.
    f_equal. apply wtab_ext. intros i Hi.
    rewrite <- (eqq_eq _ _ _ (ntt_intt q L psi ipsi T HL HT (coef a) i Hi)).
    rewrite Z.mod_small; auto. apply (ntt_f_range q L psi ipsi T Hq HL HT).
Qed.

Theorem C23_ntt_product : forall k q, 1 <= k <= 29 -> good_modulus k q ->
  exists T, ntt_new (2 ^ k) q = Ok T /\
    forall a b, length a = Z.to_nat (2 ^ k) -> length b = Z.to_nat (2 ^ k) ->
      Forall is_word a -> Forall is_word b ->
      exists ahat bhat c,
        ntt_fwd T (2 ^ k) (map Some a) = Ok (map Some ahat) /\
        ntt_fwd T (2 ^ k) (map Some b) = Ok (map Some bhat) /\
        ntt_inv T (2 ^ k) (map (fun '(x, y) => Some ((x * y) mod q)) (combine ahat bhat)) = Ok (map Some c) /\
        length c = Z.to_nat (2 ^ k) /\
        forall i, 0 <= i < 2 ^ k -> coef c i = negconv (2 ^ k) (coef a) (coef b) i mod q.
Proof.
  intros k q Hk. rewrite <- (Z2Nat.id k) by lia. set (L := Z.to_nat k).
  assert (HL : (1 <= L <= 29)%nat) by lia. clearbody L. clear k Hk. intros Hg.
  destruct (good_new L q HL Hg) as (Hq & T & psi & ipsi & E & HT).
  exists T. split; auto. intros a b Ha Hb Hwa Hwb.
  set (N := 2 ^ Z.of_nat L) in *.
  exists (tab N (ntt_f q L psi (coef a))), (tab N (ntt_f q L psi (coef b))),
    (tab N (intt_f q L ipsi T (fun j => (ntt_f q L psi (coef a) j * ntt_f q L psi (coef b) j) mod q))).
  rewrite (words_tab a N), (words_tab b N) by auto. rewrite <- !wtab_words.
  assert (Hcomb : map (fun '(x, y) => Some ((x * y) mod q))
            (combine (tab N (ntt_f q L psi (coef a))) (tab N (ntt_f q L psi (coef b))))
          = wtab N (fun j => (ntt_f q L psi (coef a) j * ntt_f q L psi (coef b) j) mod q)).
  { unfold wtab, tab. induction (seq 0 (Z.to_nat N)) as [|x s IH]; cbn; auto. rewrite IH. reflexivity. }
  rewrite Hcomb.
  split; [apply (ntt_fwd_ok q L psi ipsi T Hq HL HT); apply Forall_coef; auto|].
  split; [apply (ntt_fwd_ok q L psi ipsi T Hq HL HT); apply Forall_coef; auto|].
  split; [apply (ntt_inv_ok q L psi ipsi T Hq HL HT); intros; apply q_word; auto|].
  split; [apply tab_length|]. intros i Hi. rewrite coef_tab by auto.
  pose proof (eqq_eq _ _ _ (ntt_product q L psi ipsi T HL HT (coef a) (coef b) i Hi)) as Ep.
  fold N in Ep. rewrite <- Ep. symmetry. apply Z.mod_small. apply (intt_f_range q L ipsi T Hq HL).
Qed.

(** A case: N = 8, q = 97. *)
Example C21_case : good_modulus 3 97.
Proof.
  split; [|split; [discriminate|reflexivity]].
  apply prime_alt. split; [lia|]. intros n Hn Hd. apply Z.mod_divide in Hd; [|lia].
  assert (Hc : exists m, n = Z.of_nat m /\ (m < 97)%nat) by (exists (Z.to_nat n); lia).
  destruct Hc as (m & -> & Hm). do 97 (destruct m as [|m]; [cbn in Hd; lia|]). lia.
Qed.
Definition ex_run (a : list Z) : res (arr * arr) :=
  T <- ntt_new 8 97 ;; b <- ntt_fwd T 8 (map Some a) ;; c <- ntt_inv T 8 b ;; Ok (b, c).
Example C22_case : exists b, ex_run [1; 2; 3; 4; 5; 6; 2 ^ 64 - 1; 96] =
  Ok (b, map Some [1; 2; 3; 4; 5; 6; (2 ^ 64 - 1) mod 97; 96]).
Proof. eexists. vm_compute. reflexivity. Qed.

Print Assumptions C21_ntt_evaluates.
Print Assumptions C22_intt_inverts.
Print Assumptions C23_ntt_product.
