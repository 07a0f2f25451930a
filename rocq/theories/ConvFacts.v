(** Lemmas about CONV and the three conv functions. *)
From Coq Require Import ZArith List Bool Lia Znumtheory.
From Verif Require Import Base BaseFacts ZQ ZQFacts ZQFacts2 Mod ModFacts NumZ Sums SpecPoly NTT NTTFacts CRT CRTFacts RQ RQFacts
  Conv PrimeTable.
Import ListNotations.
Open Scope Z_scope.

(** What the constructor of CONV establishes, for N = 2^Ln. *)
Definition conv_tables (L : Z) (Ln : nat) (q : Z -> Z) (M : conv_t) : Prop :=
  crt_tables L q (cv_crt M) /\
  exists T, cv_ntt M = tab L T /\ forall i, 0 <= i < L -> exists psi ipsi, ntt_tables (q i) Ln psi ipsi (T i).

Lemma tab_snoc {A} n (f : Z -> A) : 0 <= n -> tab (n + 1) f = tab n f ++ [f n].
Proof.
  intros Hn. unfold tab. replace (Z.to_nat (n + 1)) with (Z.to_nat n + 1)%nat by lia.
  rewrite seq_app, map_app. cbn. rewrite Z2Nat.id by lia. reflexivity.
Qed.

Lemma conv_new_ok L (Ln : nat) q (g : Z -> cell) n : moduli L q -> L <= n -> (forall i, 0 <= i < L -> g i = Some (q i)) ->
  (1 <= Ln <= 29)%nat ->
  (forall i, 0 <= i < L -> 2 < q i <= qmax /\ q i mod (2 * 2 ^ Z.of_nat Ln) = 1) ->
  exists M, conv_new L (2 ^ Z.of_nat Ln) (tab n g) = Ok M /\ conv_tables L Ln q M.
Proof.
  intros HM Hn Hg HLn Hq. pose proof (L_nonneg L q HM) as HL.
  destruct (crt_new_ok L q g n HM Hn Hg) as (C & EC & HC). unfold conv_new. rewrite EC. cbn [bind].
  assert (HT : exists T, forall i, 0 <= i < L -> ntt_new (2 ^ Z.of_nat Ln) (q i) = Ok (T i) /\
     exists psi ipsi, ntt_tables (q i) Ln psi ipsi (T i)).
  { apply (fin_choice {| ntt_q := 0; psi_rev := []; inv_psi_rev := []; inv_N := 0 |} L
      (fun i t => ntt_new (2 ^ Z.of_nat Ln) (q i) = Ok t /\ exists psi ipsi, ntt_tables (q i) Ln psi ipsi t)).
    intros i Hi. destruct (Hq i Hi). destruct (ntt_new_ok (q i) Ln) as (T & psi & ipsi & E & HT); auto.
    - apply (mod_prime L q HM i Hi).
    - exists T. split; auto. exists psi, ipsi. auto. }
  destruct HT as [T HT].
  rewrite (for_closed _ (fun i => tab i T) _ _ _ (tab L T)).
  - cbn [bind]. eexists. split; [reflexivity|]. split; cbn; auto. exists T. split; auto. intros i Hi. apply HT; auto.
  - lia.
  - reflexivity.
  - reflexivity.
  - intros i Hi. rewrite rd_tab by lia. rewrite Hg by auto. cbn [bind]. destruct (HT i Hi) as [-> _]. cbn [bind].
    rewrite tab_snoc by lia. reflexivity.
Qed.

Section Conv.
  Variables (L : Z) (Ln : nat) (q : Z -> Z) (M : conv_t) (LOGQ : Z).
  Hypothesis HM : moduli L q.
  Hypothesis HT : conv_tables L Ln q M.
  Hypothesis HQ : 1 <= LOGQ.
  Hypothesis HLn : (1 <= Ln <= 29)%nat.
  Local Notation N := (2 ^ Z.of_nat Ln).

  Let HL : 0 <= L := L_nonneg L q HM.
  Lemma N_pos : 0 < N.
  Proof. apply p2. lia. Qed.

  Lemma icrt_polynomial_ok a :
    icrt_polynomial M L LOGQ N (repP LOGQ N a) (rows_new L N)
    = Ok (tab L (fun j => wtab N (fun i => icrt_word LOGQ (a i) (q j)))).
  Proof.
    pose proof N_pos as HN. destruct HT as ((E1 & _) & _).
    unfold icrt_polynomial, rows_new. rewrite repeat_tab.
    rewrite (for_closed _ (fun i => tab L (fun j => tab N (fun k => if k <? i then Some (icrt_word LOGQ (a k) (q j)) else None)))
       _ _ _ (tab L (fun j => wtab N (fun i => icrt_word LOGQ (a i) (q j))))).
    - reflexivity.
    - lia.
    - apply tab_ext. intros j Hj. rewrite fresh_tab. apply tab_ext. intros k Hk. zc; auto.
    - apply tab_ext. intros j Hj. apply tab_ext. intros k Hk. zc; auto.
    - intros i Hi. unfold repP. rewrite lget_tab by auto. cbn [bind].
      rewrite (crt_icrt_ok L q) by (auto using fresh_length). cbn [bind].
      rewrite (for_closed _ (fun m => tab L (fun j => tab N (fun k => if k <? (if j <? m then i + 1 else i) then Some (icrt_word LOGQ (a k) (q j)) else None)))
       _ _ _ (tab L (fun j => tab N (fun k => if k <? i + 1 then Some (icrt_word LOGQ (a k) (q j)) else None)))).
      + reflexivity.
      + lia.
      + apply tab_ext. intros j Hj. destruct (Z.ltb_spec j 0); [lia|]. reflexivity.
      + apply tab_ext. intros j Hj. destruct (Z.ltb_spec j L); [|lia]. reflexivity.
      + intros m Hm. rewrite rd_wtab by auto. cbn [bind]. rewrite lget_tab by auto. cbn [bind].
        rewrite wr_tab by auto. cbn [bind]. rewrite lset_tab by auto. f_equal. apply tab_ext. intros j Hj.
        destruct (Z.eqb_spec j m) as [->|Hne].
        * destruct (Z.ltb_spec m m); [lia|]. destruct (Z.ltb_spec m (m + 1)); [|lia]. apply tab_ext. intros k Hk.
          zc; auto; subst; auto.
        * apply tab_ext. intros k Hk. destruct (Z.ltb_spec j m), (Z.ltb_spec j (m + 1)); try lia; reflexivity.
  Qed.

  Lemma crt_polynomial_ok (r : Z -> Z -> Z) C : objP LOGQ N C ->
    (forall j i, 0 <= j < L -> 0 <= i < N -> is_word (r j i)) ->
    exists c, crt_polynomial M L LOGQ N (tab L (fun j => wtab N (r j))) C = Ok (repP LOGQ N c) /\
      forall i, 0 <= i < N -> - Pq L q <= 2 * c i < Pq L q /\ forall j, 0 <= j < L -> c i =[q j]= r j i.
  Proof.
    intros (d & -> & Hd) Hr. pose proof N_pos as HN. destruct HT as (HC & _).
    assert (Hc : exists c, forall i, 0 <= i < N ->
      crt_crt (cv_crt M) L LOGQ (wtab L (fun j => r j i)) (d i) = Ok (rep LOGQ (c i)) /\
      - Pq L q <= 2 * c i < Pq L q /\ forall j, 0 <= j < L -> c i =[q j]= r j i).
    { apply (fin_choice 0 N (fun i c => crt_crt (cv_crt M) L LOGQ (wtab L (fun j => r j i)) (d i) = Ok (rep LOGQ c) /\
      - Pq L q <= 2 * c < Pq L q /\ forall j, 0 <= j < L -> c =[q j]= r j i)).
      intros i Hi. apply crt_crt_ok; auto. }
    destruct Hc as [c Hc]. exists c. split.
    - unfold crt_polynomial. apply (pupd_loop N _ (fun i x => crt_crt (cv_crt M) L LOGQ (wtab L (fun j => r j i)) x)).
      + lia.
      + intros i D Hi.
        rewrite (for_closed _ (fun m => tab L (fun j => if j <? m then Some (r j i) else None)) _ _ _ (wtab L (fun j => r j i))).
        * reflexivity.
        * lia.
        * rewrite fresh_tab. apply tab_ext. intros j Hj. zc; auto.
        * apply tab_ext. intros j Hj. zc; auto.
        * intros m Hm. rewrite lget_tab by auto. cbn [bind]. rewrite rd_wtab by auto. cbn [bind].
          rewrite wr_tab by auto. f_equal. apply tab_ext. intros j Hj. zc; auto; subst; auto.
      + intros i Hi. apply Hc. auto.
    - intros i Hi. apply Hc. auto.
  Qed.

  Lemma conv_row_ok i T psi ipsi x y (D : list cell) : 0 <= i < L -> ntt_tables (q i) Ln psi ipsi T ->
    (forall k, 0 <= k < N -> is_word (x k)) -> (forall k, 0 <= k < N -> is_word (y k)) -> length D = Z.to_nat N ->
    exists c, conv_row T N (wtab N x) (wtab N y) D =
       Ok (wtab N (ntt_f (q i) Ln psi x), wtab N (ntt_f (q i) Ln psi y), wtab N c) /\
      forall k, 0 <= k < N -> is_word (c k) /\ c k =[q i]= negconv N x y k.
  Proof.
    intros Hi HTi Hx Hy HD. pose proof (mod_pos L q HM i Hi) as Hqi. assert (Hq1 : 1 < q i < W) by lia.
    pose proof N_pos as HN.
    destruct (arr_tab None D N HD) as [g ->].
    unfold conv_row. rewrite (ntt_fwd_ok (q i) Ln psi ipsi T Hq1 HLn HTi) by auto. cbn [bind].
    rewrite (ntt_fwd_ok (q i) Ln psi ipsi T Hq1 HLn HTi) by auto. cbn [bind].
    assert (Hw : forall f k, is_word (ntt_f (q i) Ln psi f k)).
    { intros f k. pose proof (ntt_f_range (q i) Ln psi ipsi T Hq1 HLn HTi f k). unfold is_word. lia. }
    set (p := fun j => (ntt_f (q i) Ln psi x j * ntt_f (q i) Ln psi y j) mod q i).
    rewrite (for_closed _ (fun m => tab N (fun j => if j <? m then Some (p j) else g j)) _ _ _ (wtab N p)).
    - cbn [bind]. rewrite (ntt_inv_ok (q i) Ln psi ipsi T Hq1 HLn HTi).
      + cbn [bind]. eexists. split; [reflexivity|]. intros k Hk.
        split; [|apply (ntt_product (q i) Ln psi ipsi T HLn HTi); auto].
        pose proof (intt_f_range (q i) Ln ipsi T Hq1 HLn p k). unfold is_word. lia.
      + intros. apply q_word. auto.
    - lia.
    - apply tab_ext. intros j Hj. zc; auto.
    - apply tab_ext. intros j Hj. zc; auto.
    - intros m Hm. rewrite !rd_wtab by auto. cbn [bind]. destruct HTi as (-> & _).
      rewrite mul_mod_ok by (auto; lia). cbn [bind]. rewrite wr_tab by auto. f_equal. apply tab_ext.
      intros j Hj. zc; auto; subst; auto.
  Qed.

  Lemma conv_rows_ok (x y : Z -> Z -> Z) :
    (forall j k, 0 <= j < L -> 0 <= k < N -> is_word (x j k)) ->
    (forall j k, 0 <= j < L -> 0 <= k < N -> is_word (y j k)) ->
    exists A' B' c,
      conv_rows M L N (tab L (fun j => wtab N (x j)), tab L (fun j => wtab N (y j)), rows_new L N)
      = Ok (A', B', tab L (fun j => wtab N (c j))) /\
      forall j k, 0 <= j < L -> 0 <= k < N -> is_word (c j k) /\ c j k =[q j]= negconv N (x j) (y j) k.
  Proof.
    intros Hx Hy. pose proof N_pos as HN. destruct HT as (_ & T & ET & HTT).
    assert (Hr : exists R : Z -> (Z -> Z) * (Z -> Z) * (Z -> Z), forall i, 0 <= i < L ->
      conv_row (T i) N (wtab N (x i)) (wtab N (y i)) (fresh N) =
        Ok (wtab N (fst (fst (R i))), wtab N (snd (fst (R i))), wtab N (snd (R i))) /\
      forall k, 0 <= k < N -> is_word (snd (R i) k) /\ snd (R i) k =[q i]= negconv N (x i) (y i) k).
    { apply (fin_choice (fun _ => 0, fun _ => 0, fun _ => 0) L (fun i R => conv_row (T i) N (wtab N (x i)) (wtab N (y i)) (fresh N) =
        Ok (wtab N (fst (fst R)), wtab N (snd (fst R)), wtab N (snd R)) /\
      forall k, 0 <= k < N -> is_word (snd R k) /\ snd R k =[q i]= negconv N (x i) (y i) k)).
      intros i Hi. destruct (HTT i Hi) as (psi & ipsi & HTi).
      destruct (conv_row_ok i (T i) psi ipsi (x i) (y i) (fresh N)) as (c & E & Hc); auto using fresh_length.
      exists (ntt_f (q i) Ln psi (x i), ntt_f (q i) Ln psi (y i), c). cbn. auto. }
    destruct Hr as [R HR].
    exists (tab L (fun j => wtab N (fst (fst (R j))))), (tab L (fun j => wtab N (snd (fst (R j))))), (fun j => snd (R j)).
    split; [|intros j k Hj Hk; apply HR; auto].
    unfold conv_rows, rows_new. rewrite repeat_tab.
    rewrite (for_closed _ (fun m => (tab L (fun j => if j <? m then wtab N (fst (fst (R j))) else wtab N (x j)),
                                     tab L (fun j => if j <? m then wtab N (snd (fst (R j))) else wtab N (y j)),
                                     tab L (fun j => if j <? m then wtab N (snd (R j)) else fresh N))) _ _ _
       (tab L (fun j => wtab N (fst (fst (R j)))), tab L (fun j => wtab N (snd (fst (R j)))), tab L (fun j => wtab N (snd (R j))))).
    - reflexivity.
    - lia.
    - apply f_equal2; [apply f_equal2|]; apply tab_ext; intros j Hj; zc; auto.
    - apply f_equal2; [apply f_equal2|]; apply tab_ext; intros j Hj; zc; auto.
    - intros i Hi. rewrite ET. rewrite !lget_tab by auto. cbn [bind]. destruct (Z.ltb_spec i i); [lia|].
      destruct (HR i Hi) as [-> _]. cbn [bind]. rewrite !lset_tab by auto. cbn [bind]. f_equal.
      apply f_equal2; [apply f_equal2|]; apply tab_ext; intros j Hj; zc; auto; subst; auto.
  Qed.

  Theorem CONV_gen a b C : objP LOGQ N C ->
    exists c, CONV_conv M L LOGQ N (repP LOGQ N a) (repP LOGQ N b) C = Ok (repP LOGQ N c) /\
      forall i, 0 <= i < N -> - Pq L q <= 2 * c i < Pq L q /\
        forall j, 0 <= j < L ->
          c i =[q j]= negconv N (fun k => icrt_word LOGQ (a k) (q j)) (fun k => icrt_word LOGQ (b k) (q j)) i.
  Proof.
    intros HC. unfold CONV_conv. rewrite !icrt_polynomial_ok. cbn [bind].
    assert (Hw : forall v j, 0 <= j < L -> is_word (icrt_word LOGQ v (q j))).
    { intros v j Hj. pose proof (mod_pos L q HM j Hj). apply icrt_word_range; auto. lia. }
    destruct (conv_rows_ok (fun j i => icrt_word LOGQ (a i) (q j)) (fun j i => icrt_word LOGQ (b i) (q j)))
      as (A' & B' & r & E & Hr); auto.
    unfold rows in *. rewrite E. cbn [bind]. destruct (crt_polynomial_ok r C HC) as (c & Ec & Hc).
    { intros j i Hj Hi. apply Hr; auto. }
    exists c. split; auto. intros i Hi. destruct (Hc i Hi) as [H1 H2]. split; auto. intros j Hj.
    rewrite (H2 j Hj). apply Hr; auto.
  Qed.

  (** With right residues and enough primes the result is the exact product. *)
  Theorem CONV_exact a b C : objP LOGQ N C ->
    (forall i j, 0 <= i < N -> 0 <= j < L -> icrt_word LOGQ (a i) (q j) =[q j]= cent LOGQ (a i)) ->
    (forall i j, 0 <= i < N -> 0 <= j < L -> icrt_word LOGQ (b i) (q j) =[q j]= cent LOGQ (b i)) ->
    N * 2 ^ (2 * LOGQ - 1) < Pq L q ->
    CONV_conv M L LOGQ N (repP LOGQ N a) (repP LOGQ N b) C = Ok (repP LOGQ N (negconv N a b)).
  Proof.
    intros HC Ha Hb HP. destruct (CONV_gen a b C HC) as (c & E & Hc). rewrite E. f_equal. apply repP_ext.
    intros i Hi. destruct (Hc i Hi) as [H1 H2]. pose proof N_pos as HN.
    assert (Ec : c i = negconv N (fun k => cent LOGQ (a k)) (fun k => cent LOGQ (b k)) i).
    { apply (crt_unique L q HM); auto.
      - intros j Hj. rewrite (H2 j Hj). apply negconv_eqq; auto.
      - assert (Hbd : Z.abs (negconv N (fun k => cent LOGQ (a k)) (fun k => cent LOGQ (b k)) i)
                     <= N * (2 ^ (LOGQ - 1) * 2 ^ (LOGQ - 1))).
        { unfold negconv. apply zsum_bound; [lia|]. intros k Hk.
          pose proof (cent_bounds LOGQ (a k) HQ). rewrite Z.abs_mul.
          apply Z.mul_le_mono_nonneg; try apply Z.abs_nonneg; [lia|].
          pose proof (cent_bounds LOGQ (b (i - k)) HQ). pose proof (cent_bounds LOGQ (b (N + i - k)) HQ). zc; lia. }
        rewrite <- Z.pow_add_r in Hbd by lia. replace (2 * LOGQ - 1) with (1 + (LOGQ - 1 + (LOGQ - 1))) in HP by lia.
        rewrite Z.pow_add_r, Z.pow_1_r in HP by lia. lia. }
    rewrite Ec. apply (eqq_eq (2 ^ LOGQ)). apply negconv_eqq; auto; intros; constructor; apply cent_congr; auto.
  Qed.
End Conv.

(** ** The built-in table *)
Definition qtab (i : Z) : Z := nth (Z.to_nat i) Q_primes 0.

Fixpoint check_prods (l : list Z) (acc e : Z) : bool :=
  match l with
  | [] => true
  | p :: t => (2 ^ (e + 59) <? acc * p) && check_prods t (acc * p) (e + 60)
  end.

Lemma check_prods_ok l : forall acc e, check_prods l acc e = true ->
  forall n, (n < length l)%nat -> 2 ^ (e + 60 * Z.of_nat n + 59) < acc * prodn (S n) (fun i => nth (Z.to_nat i) l 0).
Proof.
  induction l as [|p l IH]; intros acc e H n Hn; [cbn in Hn; lia|].
  cbn [check_prods] in H. apply andb_true_iff in H. destruct H as [H1 H2]. apply Z.ltb_lt in H1.
  assert (G : forall m, prodn (S m) (fun i => nth (Z.to_nat i) (p :: l) 0) = p * prodn m (fun i => nth (Z.to_nat i) l 0)).
  { induction m; [cbn [prodn]; change (nth (Z.to_nat (Z.of_nat 0)) (p :: l) 0) with p; ring|]. cbn [prodn] in *. rewrite IHm.
    replace (Z.to_nat (Z.of_nat (S m))) with (S m) by lia. cbn [nth].
    replace (Z.to_nat (Z.of_nat m)) with m by lia. ring. }
  rewrite G. destruct n as [|n].
  - cbn [prodn Z.of_nat]. replace (e + 60 * 0 + 59) with (e + 59) by lia. lia.
  - specialize (IH (acc * p) (e + 60) H2 n ltac:(cbn in Hn; lia)).
    replace (e + 60 * Z.of_nat (S n) + 59) with (e + 60 + 60 * Z.of_nat n + 59) by lia. rewrite Z.mul_assoc. exact IH.
Qed.

Lemma Q_primes_length : length Q_primes = 102%nat.
Proof. reflexivity. Qed.

Lemma qtab_prod L : 1 <= L <= 102 -> 2 ^ (60 * L - 1) < zprod L qtab.
Proof.
  intros HL. assert (H : check_prods Q_primes 1 0 = true) by (vm_compute; reflexivity).
  pose proof (check_prods_ok Q_primes 1 0 H (Z.to_nat (L - 1)) ltac:(rewrite Q_primes_length; lia)) as G.
  replace (S (Z.to_nat (L - 1))) with (Z.to_nat L) in G by lia. rewrite Z.mul_1_l in G.
  unfold zprod, qtab. replace (60 * L - 1) with (0 + 60 * Z.of_nat (Z.to_nat (L - 1)) + 59) by lia. exact G.
Qed.

Lemma qtab_in i : 0 <= i < 102 -> In (qtab i) Q_primes.
Proof. intros Hi. apply nth_In. rewrite Q_primes_length. lia. Qed.

Definition table_entry_ok (p : Z) : bool := (p mod 2 ^ 18 =? 1) && (2 ^ 59 <? p) && (p <? 2 ^ 61).
Lemma qtab_entry i : 0 <= i < 102 -> qtab i mod 2 ^ 18 = 1 /\ 2 ^ 59 < qtab i < 2 ^ 61.
Proof.
  intros Hi. assert (H : forallb table_entry_ok Q_primes = true) by (vm_compute; reflexivity).
  rewrite forallb_forall in H. specialize (H _ (qtab_in i Hi)). unfold table_entry_ok in H.
  rewrite !andb_true_iff, Z.eqb_eq, !Z.ltb_lt in H. lia.
Qed.

Fixpoint nodupb (l : list Z) : bool :=
  match l with [] => true | x :: t => negb (existsb (Z.eqb x) t) && nodupb t end.
Lemma nodupb_ok l : nodupb l = true -> NoDup l.
Proof.
  induction l as [|x l IH]; intros H; constructor; cbn in H; apply andb_true_iff in H; destruct H as [H1 H2]; auto.
  intros Hin. apply negb_true_iff in H1. assert (existsb (Z.eqb x) l = true); [|congruence].
  apply existsb_exists. exists x. split; auto. apply Z.eqb_refl.
Qed.
Lemma Q_primes_nodup : NoDup Q_primes.
Proof. apply nodupb_ok. vm_compute. reflexivity. Qed.

Lemma qtab_moduli L : 0 <= L <= 102 -> moduli L qtab.
Proof.
  intros HL. split; [lia|]. split.
  - intros i Hi. pose proof (qtab_entry i ltac:(lia)). split; [|unfold W; lia].
    pose proof Q_primes_prime as Hpr. rewrite Forall_forall in Hpr. apply Hpr. apply qtab_in. lia.
  - intros i j Hi Hj E. pose proof (proj1 (NoDup_nth Q_primes 0) Q_primes_nodup (Z.to_nat i) (Z.to_nat j)) as G.
    rewrite Q_primes_length in G. specialize (G ltac:(lia) ltac:(lia) E). lia.
Qed.

Lemma conv_L_bounds LOGQ : 1 <= LOGQ -> 1 <= conv_L LOGQ /\ 2 * LOGQ + 17 <= 60 * conv_L LOGQ <= 2 * LOGQ + 76.
Proof.
  intros H. unfold conv_L. rewrite Z.quot_div_nonneg by lia.
  pose proof (Z.div_mod (2 * LOGQ + 17 + 59) 60 ltac:(lia)). pose proof (Z.mod_pos_bound (2 * LOGQ + 17 + 59) 60 ltac:(lia)). lia.
Qed.

Lemma mod_le_pow x a b : 0 <= a <= b -> x mod 2 ^ b = 1 -> 1 <= a -> x mod 2 ^ a = 1.
Proof.
  intros H E Ha. rewrite <- (mod_mod_pow x a b) by lia. rewrite E. apply Z.mod_small.
  pose proof (Z.pow_gt_1 2 a). lia.
Qed.

Lemma conv_new_table LOGQ (Ln : nat) : 1 <= LOGQ <= 3051 -> (1 <= Ln <= 17)%nat ->
  exists M, conv_new (conv_L LOGQ) (2 ^ Z.of_nat Ln) (map Some Q_primes) = Ok M /\ conv_tables (conv_L LOGQ) Ln qtab M.
Proof.
  intros HQ HLn. pose proof (conv_L_bounds LOGQ ltac:(lia)) as HL.
  assert (E : map Some Q_primes = tab 102 (fun i => Some (qtab i))) by (vm_compute; reflexivity).
  rewrite E. apply conv_new_ok; auto; try lia.
  - apply qtab_moduli. lia.
  - intros i Hi. pose proof (qtab_entry i ltac:(lia)) as [H1 H2]. split; [unfold qmax; lia|].
    replace (2 * 2 ^ Z.of_nat Ln) with (2 ^ (Z.of_nat Ln + 1)) by (rewrite Z.pow_add_r by lia; lia).
    apply (mod_le_pow _ _ 18); auto; lia.
Qed.

Lemma table_enough LOGQ (Ln : nat) : 1 <= LOGQ <= 3051 -> (1 <= Ln <= 17)%nat ->
  2 ^ Z.of_nat Ln * 2 ^ (2 * LOGQ - 1) < Pq (conv_L LOGQ) qtab.
Proof.
  intros HQ HLn. pose proof (conv_L_bounds LOGQ ltac:(lia)) as HL. pose proof (qtab_prod (conv_L LOGQ) ltac:(lia)).
  unfold Pq. rewrite <- Z.pow_add_r by lia.
  assert (2 ^ (Z.of_nat Ln + (2 * LOGQ - 1)) <= 2 ^ (60 * conv_L LOGQ - 1)) by (apply Z.pow_le_mono_r; lia). lia.
Qed.

Definition conv_width (LOGQ : Z) : Prop := 1 <= LOGQ <= 60 \/ 65 <= LOGQ <= 3051.

Lemma icrt_width LOGQ v j : conv_width LOGQ -> 0 <= j < 102 -> icrt_word LOGQ v (qtab j) =[qtab j]= cent LOGQ v.
Proof.
  intros HQ Hj. pose proof (qtab_entry j Hj) as [_ Hq]. apply icrt_word_ok; [unfold conv_width in HQ; lia|unfold W; lia|].
  destruct HQ as [HQ|HQ]; [right|left; lia]. pose proof (cent_bounds LOGQ v ltac:(lia)).
  assert (2 ^ (LOGQ - 1) <= 2 ^ 59) by (apply Z.pow_le_mono_r; lia). lia.
Qed.

(** A cache is good if it is empty or was filled by the constructor. *)
Definition good_cache (LOGQ N : Z) (cache : option conv_t) : Prop :=
  match cache with None => True | Some M => conv_new (conv_L LOGQ) N (map Some Q_primes) = Ok M end.

Theorem conv_call_ok LOGQ (Ln : nat) cache a b C : conv_width LOGQ -> (1 <= Ln <= 17)%nat ->
  let N := 2 ^ Z.of_nat Ln in
  good_cache LOGQ N cache -> objP LOGQ N C ->
  exists M, conv_call LOGQ N cache (repP LOGQ N a) (repP LOGQ N b) C = Ok (Some M, repP LOGQ N (negconv N a b)) /\
    good_cache LOGQ N (Some M).
Proof.
  intros HW HLn N Hcache HC. assert (HQ : 1 <= LOGQ <= 3051) by (unfold conv_width in HW; lia).
  pose proof (conv_L_bounds LOGQ ltac:(lia)) as HL.
  destruct (conv_new_table LOGQ Ln HQ HLn) as (M & E & HM). fold N in E. unfold conv_call.
  assert (EM : (match cache with None => conv_new (conv_L LOGQ) N (map Some Q_primes) | Some M => Ok M end) = Ok M).
  { destruct cache as [M'|]; auto. unfold good_cache in Hcache. rewrite E in Hcache. congruence. }
  rewrite EM. cbn [bind].
  unfold N. rewrite (CONV_exact (conv_L LOGQ) Ln qtab M LOGQ); auto; try lia.
  - cbn [bind]. exists M. split; auto.
  - apply qtab_moduli. lia.
  - intros i j Hi Hj. apply icrt_width; auto. lia.
  - intros i j Hi Hj. apply icrt_width; auto. lia.
  - apply table_enough; auto.
Qed.

Theorem conv_poly_ok LOGQ (Ln : nat) a b C : conv_width LOGQ -> (1 <= Ln <= 17)%nat ->
  let N := 2 ^ Z.of_nat Ln in objP LOGQ N C ->
  conv_poly LOGQ N (repP LOGQ N a) (repP LOGQ N b) C = Ok (repP LOGQ N (negconv N a b)).
Proof.
  intros HW HLn N HC. unfold conv_poly. destruct (conv_call_ok LOGQ Ln None a b C HW HLn I HC) as (M & E & _).
  fold N in E. rewrite E. reflexivity.
Qed.

(** ** conv with a ternary polynomial *)
Definition tern (x : Z) : Z := if x =? 0 then 0 else if x =? 1 then 1 else -1.

Lemma conv_s_coef_ok LOGQ N s a i (c : arr) : 1 <= LOGQ -> 0 <= i < N -> length c = Z.to_nat (len LOGQ) ->
  conv_s_coef LOGQ N (wtab N s) (repP LOGQ N a) i c = Ok (rep LOGQ (negconv N (fun k => tern (s k)) a i)).
Proof.
  intros HQ Hi Hc. unfold conv_s_coef. rewrite zq_setzero_ok by auto. cbn [bind].
  rewrite (for_closed _ (fun k => rep LOGQ (zsum k (fun k => tern (s k) * (if k <=? i then a (i - k) else - a (N + i - k))))) _ _ _
     (rep LOGQ (negconv N (fun k => tern (s k)) a i))).
  - reflexivity.
  - lia.
  - rewrite zsum_nil by lia. reflexivity.
  - reflexivity.
  - intros k Hk. rewrite rd_wtab by auto. cbn [bind]. rewrite zsum_S by lia. unfold tern.
    destruct (Z.eqb_spec (s k) 0) as [E0|E0]; cbn [negb].
    + do 2 apply f_equal; ring.
    + unfold repP. destruct (Z.leb_spec k i).
      * rewrite lget_tab by lia. cbn [bind]. destruct (Z.eqb_spec (s k) 1).
        -- rewrite zq_add_rep by auto. do 2 apply f_equal; ring.
        -- rewrite zq_sub_rep by auto. do 2 apply f_equal; ring.
      * rewrite lget_tab by lia. cbn [bind]. destruct (Z.eqb_spec (s k) 1); cbn [negb].
        -- rewrite zq_sub_rep by auto. do 2 apply f_equal; ring.
        -- rewrite zq_add_rep by auto. do 2 apply f_equal; ring.
Qed.

Lemma conv_s_ok LOGQ N s a C : 1 <= LOGQ -> 0 <= N -> objP LOGQ N C ->
  conv_s LOGQ N (wtab N s) (repP LOGQ N a) C = Ok (repP LOGQ N (negconv N (fun k => tern (s k)) a)).
Proof.
  intros HQ HN (d & -> & Hd). unfold conv_s.
  apply (pupd_loop N _ (fun i c => conv_s_coef LOGQ N (wtab N s) (repP LOGQ N a) i c)); auto.
  intros i Hi. apply conv_s_coef_ok; auto.
Qed.

(** ** conv on int arrays *)
Lemma int_ok x : Z.abs x < 2 ^ 31 -> int_ x = Ok x.
Proof.
  intros H. unfold int_, in_int. destruct (Z.leb_spec (- 2 ^ 31) x), (Z.ltb_spec x (2 ^ 31)); try lia. reflexivity.
Qed.

Lemma conv_int_ok N s1 s2 (D : list cell) B1 B2 : 1 <= N -> 0 <= B1 -> 0 <= B2 -> N * (B1 * B2) < 2 ^ 31 ->
  (forall i, 0 <= i < N -> Z.abs (s1 i) <= B1) -> (forall i, 0 <= i < N -> Z.abs (s2 i) <= B2) ->
  length D = Z.to_nat N ->
  conv_int N (wtab N s1) (wtab N s2) D = Ok (wtab N (negconv N s1 s2)).
Proof.
  intros HN HB1 HB2 HB H1 H2 HD. destruct (arr_tab None D N HD) as [g ->]. unfold conv_int.
  set (t := fun i k => s1 k * (if k <=? i then s2 (i - k) else - s2 (N + i - k))).
  assert (Ht : forall i k, 0 <= i < N -> 0 <= k < N -> Z.abs (t i k) <= B1 * B2).
  { intros i k Hi Hk. unfold t. rewrite Z.abs_mul. apply Z.mul_le_mono_nonneg; try apply Z.abs_nonneg; auto.
    destruct (Z.leb_spec k i); [apply H2; lia|]. rewrite Z.abs_opp. apply H2. lia. }
  assert (Hp : forall i m, 0 <= i < N -> 0 <= m <= N -> Z.abs (zsum m (t i)) <= m * (B1 * B2)).
  { intros i m Hi Hm. apply zsum_bound; [lia|]. intros k Hk. apply Ht; lia. }
  rewrite (for_closed _ (fun i => tab N (fun k => if k <? i then Some (negconv N s1 s2 k) else g k)) _ _ _
     (wtab N (negconv N s1 s2))).
  - reflexivity.
  - lia.
  - apply tab_ext. intros j Hj. zc; auto.
  - apply tab_ext. intros j Hj. zc; auto.
  - intros i Hi. rewrite wr_tab by lia. cbn [bind].
    set (st := fun m => tab N (fun k => if k =? i then Some (zsum m (t i)) else if k <? i then Some (negconv N s1 s2 k) else g k)).
    assert (Hrd : forall m, rd (st m) i = Ok (zsum m (t i))).
    { intros m. unfold st. rewrite rd_tab by auto. rewrite Z.eqb_refl. reflexivity. }
    assert (Hwr : forall m x, x = zsum (m + 1) (t i) -> wr (st m) i x = Ok (st (m + 1))).
    { intros m x ->. unfold st. rewrite wr_tab by auto. f_equal. apply tab_ext. intros k Hk. zc; auto. }
    rewrite (for_closed _ st _ _ _ (st (i + 1))).
    + cbn [bind]. rewrite (for_closed _ st _ _ _ (st N)).
      * f_equal. unfold st. apply tab_ext. intros k Hk. zc; auto; subst; auto.
      * lia.
      * reflexivity.
      * reflexivity.
      * intros m Hm. rewrite !rd_wtab by lia. cbn [bind].
        pose proof (Ht i m Hi ltac:(lia)) as Htm. pose proof (Hp i m Hi ltac:(lia)). pose proof (Hp i (m + 1) Hi ltac:(lia)) as Hp1.
        rewrite zsum_S in Hp1 by lia. unfold t at 2 in Hp1. unfold t in Htm. destruct (Z.leb_spec m i); [lia|].
        replace (i + N - m) with (N + i - m) by lia.
        rewrite int_ok by nia. cbn [bind]. rewrite Hrd. cbn [bind]. rewrite int_ok by nia. cbn [bind].
        apply Hwr. rewrite zsum_S by lia. unfold t at 3. destruct (Z.leb_spec m i); lia.
    + lia.
    + unfold st. apply tab_ext. intros k Hk. rewrite zsum_nil by lia. reflexivity.
    + reflexivity.
    + intros m Hm. rewrite !rd_wtab by lia. cbn [bind].
      pose proof (Ht i m Hi ltac:(lia)) as Htm. pose proof (Hp i m Hi ltac:(lia)). pose proof (Hp i (m + 1) Hi ltac:(lia)) as Hp1.
      rewrite zsum_S in Hp1 by lia. unfold t at 2 in Hp1. unfold t in Htm. destruct (Z.leb_spec m i); [|lia].
      rewrite int_ok by nia. cbn [bind]. rewrite Hrd. cbn [bind]. rewrite int_ok by nia. cbn [bind].
      apply Hwr. rewrite zsum_S by lia. unfold t at 3. destruct (Z.leb_spec m i); lia.
Qed.

(** ** conv on memory *)
Lemma lset_nth {A} (l : list A) i x : 0 <= i < Z.of_nat (length l) -> lset l i x = Ok (upd (Z.to_nat i) x l).
Proof. intros H. unfold lset. destruct (Z.leb_spec 0 i), (Z.ltb_spec i (Z.of_nat (length l))); try lia. reflexivity. Qed.

Theorem conv_mem_ok LOGQ (Ln : nat) cache h ia ib ic a b C : conv_width LOGQ -> (1 <= Ln <= 17)%nat ->
  let N := 2 ^ Z.of_nat Ln in
  good_cache LOGQ N cache -> lget h ia = Ok (repP LOGQ N a) -> lget h ib = Ok (repP LOGQ N b) ->
  lget h ic = Ok C -> objP LOGQ N C ->
  exists M, conv_mem LOGQ N cache h ia ib ic = Ok (Some M, upd (Z.to_nat ic) (repP LOGQ N (negconv N a b)) h) /\
    good_cache LOGQ N (Some M).
Proof.
  intros HW HLn N Hcache Ha Hb Hc HC.
  destruct (conv_call_ok LOGQ Ln cache a b C HW HLn Hcache HC) as (M & E & HM). fold N in E, HM.
  exists M. split; auto. unfold conv_call in E. unfold conv_mem.
  destruct (match cache with None => _ | Some M => Ok M end) as [M'| | |]; cbn [bind] in E |- *; try discriminate.
  unfold CONV_conv in E. rewrite Ha. cbn [bind].
  destruct (icrt_polynomial M' _ _ _ (repP LOGQ N a) _) as [A_rns| | |]; cbn [bind] in E |- *; try discriminate.
  rewrite Hb. cbn [bind].
  destruct (icrt_polynomial M' _ _ _ (repP LOGQ N b) _) as [B_rns| | |]; cbn [bind] in E |- *; try discriminate.
  destruct (conv_rows _ _ _ _) as [[[? ?] C_rns]| | |]; cbn [bind] in E |- *; try discriminate.
  rewrite Hc. cbn [bind].
  destruct (crt_polynomial _ _ _ _ _ _) as [C'| | |]; cbn [bind] in E |- *; try discriminate.
  injection E as -> ->. rewrite lset_nth; auto.
  unfold lget in Hc. destruct (Z.leb_spec 0 ic); [|discriminate]. split; auto.
  destruct (nth_error h (Z.to_nat ic)) eqn:En; [|discriminate].
  assert (Z.to_nat ic < length h)%nat by (apply nth_error_Some; congruence). lia.
Qed.
