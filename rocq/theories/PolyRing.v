(** The ring Z[X]/(X^N+1): coefficient vectors are functions on [0,N); [ext] continues them to all
    integers by a(k+N) = -a(k). *)
From Coq Require Import ZArith List Bool Lia Znumtheory.
From Verif Require Import Base Sums SpecZQ SpecPoly NTTFacts.
Open Scope Z_scope.

Definition ext (N : Z) (a : Z -> Z) (k : Z) : Z := if Z.even (k / N) then a (k mod N) else - a (k mod N).

Section Ring.
  Variable N : Z.
  Hypothesis HN : 1 <= N.

  Lemma ext_in a k : 0 <= k < N -> ext N a k = a k.
  Proof. intros Hk. unfold ext. rewrite Z.div_small, Z.mod_small by auto. reflexivity. Qed.
  Lemma ext_shift a k : ext N a (k + N) = - ext N a k.
  Proof.
    unfold ext. replace (k + N) with (k + 1 * N) by lia. rewrite Z.div_add, Z_mod_plus_full by lia.
    rewrite Z.add_1_r, Z.even_succ, <- Z.negb_even. destruct (Z.even (k / N)); cbn; lia.
  Qed.
  Lemma ext_shift' a k : ext N a (k - N) = - ext N a k.
  Proof. replace k with (k - N + N) at 2 by lia. rewrite ext_shift. lia. Qed.
  Lemma ext_2N a k m : ext N a (k + m * (2 * N)) = ext N a k.
  Proof.
    unfold ext. replace (k + m * (2 * N)) with (k + (2 * m) * N) by lia. rewrite Z.div_add, Z_mod_plus_full by lia.
    rewrite Z.even_add. rewrite Z.even_mul. cbn. destruct (Z.even (k / N)); reflexivity.
  Qed.
  Lemma ext_mod2N a k : ext N a (k mod (2 * N)) = ext N a k.
  Proof. rewrite <- (ext_2N a (k mod (2 * N)) (k / (2 * N))). f_equal. pose proof (Z.div_mod k (2 * N)). lia. Qed.
  Lemma ext_ext a b : (forall i, 0 <= i < N -> a i = b i) -> forall k, ext N a k = ext N b k.
  Proof.
    intros H k. unfold ext. pose proof (Z.mod_pos_bound k N ltac:(lia)). rewrite H by auto. reflexivity.
  Qed.
  (** [ext a] is the only antiperiodic continuation. *)
  Lemma ext_unique a (f : Z -> Z) : (forall i, 0 <= i < N -> f i = a i) -> (forall k, f (k + N) = - f k) ->
    forall k, f k = ext N a k.
  Proof.
    intros H0 H1.
    assert (Hn : forall k (n : nat), f (k + Z.of_nat n * N) = (if Nat.even n then f k else - f k)).
    { intros k n. induction n as [|n IH]; [cbn [Nat.even]; f_equal; lia|].
      replace (k + Z.of_nat (S n) * N) with (k + Z.of_nat n * N + N) by lia. rewrite H1, IH, Nat.even_succ, <- Nat.negb_even.
      destruct (Nat.even n); cbn; lia. }
    assert (Hz : forall k n, f (k + n * N) = (if Z.even n then f k else - f k)).
    { intros k n. destruct (Z_le_gt_dec 0 n).
      - rewrite <- (Z2Nat.id n) by lia. rewrite Hn. rewrite <- (Nat2Z.id (Z.to_nat n)) at 1.
        assert (E : forall m, Z.even (Z.of_nat m) = Nat.even m).
        { intros m. induction m; [reflexivity|]. rewrite Nat2Z.inj_succ, Z.even_succ, <- Z.negb_even, IHm, Nat.even_succ, <- Nat.negb_even. reflexivity. }
        rewrite E, Nat2Z.id. reflexivity.
      - specialize (Hn (k + n * N) (Z.to_nat (- n))). rewrite Z2Nat.id in Hn by lia.
        replace (k + n * N + - n * N) with k in Hn by lia.
        assert (E : forall m, Z.even (Z.of_nat m) = Nat.even m).
        { intros m. induction m; [reflexivity|]. rewrite Nat2Z.inj_succ, Z.even_succ, <- Z.negb_even, IHm, Nat.even_succ, <- Nat.negb_even. reflexivity. }
        rewrite <- E, Z2Nat.id, Z.even_opp in Hn by lia. destruct (Z.even n); lia. }
    intros k. pose proof (Z.div_mod k N ltac:(lia)) as Ek. pose proof (Z.mod_pos_bound k N ltac:(lia)).
    replace k with (k mod N + k / N * N) at 1 by lia. rewrite Hz. unfold ext. rewrite H0 by auto. reflexivity.
  Qed.

  (** Sums over a window of a periodic function. *)
  Lemma window_step f m : (forall k, f (k + N) = f k) -> zsum N (fun k => f (k + (m + 1))) = zsum N (fun k => f (k + m)).
  Proof.
    intros Hp. replace N with (N - 1 + 1) by lia. rewrite (zsum_S (N - 1)) by lia. rewrite (zsum_head (N - 1)) by lia.
    rewrite Z.add_comm. f_equal.
    - replace (N - 1 + (m + 1)) with (0 + m + N) by lia. apply Hp.
    - apply zsum_ext. intros i Hi. f_equal. lia.
  Qed.
  Lemma window f m : (forall k, f (k + N) = f k) -> zsum N (fun k => f (k + m)) = zsum N f.
  Proof.
    intros Hp.
    assert (Hpos : forall (n : nat) m, zsum N (fun k => f (k + (m + Z.of_nat n))) = zsum N (fun k => f (k + m))).
    { induction n as [|n IH]; intros m'.
      - apply zsum_ext. intros. f_equal. lia.
      - rewrite <- (IH m'). rewrite <- (window_step f (m' + Z.of_nat n) Hp). apply zsum_ext. intros. f_equal. lia. }
    transitivity (zsum N (fun k => f (k + 0))); [|apply zsum_ext; intros; f_equal; lia].
    destruct (Z_le_gt_dec 0 m).
    - rewrite <- (Hpos (Z.to_nat m) 0). apply zsum_ext. intros. f_equal. lia.
    - rewrite <- (Hpos (Z.to_nat (- m)) m). apply zsum_ext. intros. f_equal. lia.
  Qed.

  Definition A (a : Z -> Z) := ext N a.

  Lemma negconv_ext a b i : 0 <= i < N -> negconv N a b i = zsum N (fun k => ext N a k * ext N b (i - k)).
  Proof.
    intros Hi. unfold negconv. apply zsum_ext. intros k Hk. rewrite (ext_in a k Hk). f_equal.
    destruct (Z.leb_spec k i).
    - rewrite ext_in by lia. reflexivity.
    - replace (i - k) with (N + i - k - N) by lia. rewrite ext_shift', ext_in by lia. reflexivity.
  Qed.
  Lemma prod_periodic a b i k : ext N a (k + N) * ext N b (i - (k + N)) = ext N a k * ext N b (i - k).
  Proof. replace (i - (k + N)) with (i - k - N) by lia. rewrite ext_shift, ext_shift'. lia. Qed.
  Lemma ext_negconv a b i : ext N (negconv N a b) i = zsum N (fun k => ext N a k * ext N b (i - k)).
  Proof.
    symmetry. apply (ext_unique (negconv N a b) (fun i => zsum N (fun k => ext N a k * ext N b (i - k)))).
    - intros j Hj. symmetry. apply negconv_ext. auto.
    - intros k. rewrite <- zsum_opp. apply zsum_ext. intros j Hj. replace (k + N - j) with (k - j + N) by lia.
      rewrite ext_shift. lia.
  Qed.
  Lemma negconv_window a b i m : ext N (negconv N a b) i = zsum N (fun k => ext N a (k + m) * ext N b (i - (k + m))).
  Proof.
    rewrite ext_negconv. symmetry. apply (window (fun k => ext N a k * ext N b (i - k)) m). intros k. apply prod_periodic.
  Qed.

  Definition peq (a b : Z -> Z) : Prop := forall i, 0 <= i < N -> a i = b i.

  Lemma peq_ext a b : peq a b -> forall k, ext N a k = ext N b k.
  Proof. apply ext_ext. Qed.
  Lemma ext_peq a b : (forall k, ext N a k = ext N b k) -> peq a b.
  Proof. intros H i Hi. rewrite <- (ext_in a i Hi), <- (ext_in b i Hi). auto. Qed.
  Lemma negconv_peq a a' b b' : peq a a' -> peq b b' -> peq (negconv N a b) (negconv N a' b').
  Proof.
    intros Ha Hb i Hi. rewrite !negconv_ext by auto. apply zsum_ext. intros k Hk. rewrite (peq_ext a a' Ha), (peq_ext b b' Hb). reflexivity.
  Qed.

  Lemma negconv_comm a b : peq (negconv N a b) (negconv N b a).
  Proof.
    apply ext_peq. intros i. rewrite (negconv_window a b i (i - (N - 1))). rewrite ext_negconv. rewrite zsum_rev.
    apply zsum_ext. intros k Hk. replace (N - 1 - k + (i - (N - 1))) with (i - k) by lia.
    replace (i - (i - k)) with k by lia. lia.
  Qed.
  Lemma negconv_assoc a b c : peq (negconv N (negconv N a b) c) (negconv N a (negconv N b c)).
  Proof.
    apply ext_peq. intros i. rewrite !ext_negconv.
    transitivity (zsum N (fun k => zsum N (fun j => ext N a j * (ext N b (k - j) * ext N c (i - k))))).
    - apply zsum_ext. intros k Hk. rewrite ext_negconv, Z.mul_comm, <- zsum_scal. apply zsum_ext. intros j Hj. lia.
    - rewrite zsum_swap. apply zsum_ext. intros j Hj. rewrite zsum_scal. f_equal.
      rewrite (negconv_window b c (i - j) (- j)). apply zsum_ext. intros k Hk.
      replace (k + - j) with (k - j) by lia. replace (i - j - (k - j)) with (i - k) by lia. reflexivity.
  Qed.
  Lemma negconv_add_l a b c i : negconv N (fun k => a k + b k) c i = negconv N a c i + negconv N b c i.
  Proof. unfold negconv. rewrite <- zsum_add. apply zsum_ext. intros. lia. Qed.
  Lemma negconv_add_r a b c i : negconv N a (fun k => b k + c k) i = negconv N a b i + negconv N a c i.
  Proof. unfold negconv. rewrite <- zsum_add. apply zsum_ext. intros. destruct (_ <=? _); lia. Qed.
  Lemma negconv_sub_l a b c i : negconv N (fun k => a k - b k) c i = negconv N a c i - negconv N b c i.
  Proof. unfold negconv. rewrite <- zsum_sub. apply zsum_ext. intros. lia. Qed.
  Lemma negconv_sub_r a b c i : negconv N a (fun k => b k - c k) i = negconv N a b i - negconv N a c i.
  Proof. unfold negconv. rewrite <- zsum_sub. apply zsum_ext. intros. destruct (_ <=? _); lia. Qed.
  Lemma negconv_scal_l x a b i : negconv N (fun k => x * a k) b i = x * negconv N a b i.
  Proof. unfold negconv. rewrite <- zsum_scal. apply zsum_ext. intros. lia. Qed.
  Lemma negconv_scal_r x a b i : negconv N a (fun k => x * b k) i = x * negconv N a b i.
  Proof. unfold negconv. rewrite <- zsum_scal. apply zsum_ext. intros. destruct (_ <=? _); lia. Qed.
  Lemma negconv_opp_l a b i : negconv N (fun k => - a k) b i = - negconv N a b i.
  Proof. unfold negconv. rewrite <- zsum_opp. apply zsum_ext. intros. lia. Qed.
  Lemma negconv_opp_r a b i : negconv N a (fun k => - b k) i = - negconv N a b i.
  Proof. unfold negconv. rewrite <- zsum_opp. apply zsum_ext. intros. destruct (_ <=? _); lia. Qed.
  Lemma negconv_zero_r a i : negconv N a (fun _ => 0) i = 0.
  Proof. unfold negconv. apply zsum_zero. intros. destruct (_ <=? _); lia. Qed.
  Lemma negconv_one_l a : peq (negconv N (fun k => if k =? 0 then 1 else 0) a) a.
  Proof.
    intros i Hi. unfold negconv. rewrite (zsum_single N 0); [|lia|].
    - cbn [Z.eqb]. destruct (Z.leb_spec 0 i); [|lia]. rewrite Z.sub_0_r. lia.
    - intros k Hk Hne. destruct (Z.eqb_spec k 0); [lia|]. lia.
  Qed.
  (** Size of a product. *)
  Lemma negconv_bound a b i x y : 0 <= x -> 0 <= y -> 0 <= i < N ->
    (forall k, 0 <= k < N -> Z.abs (a k) <= x) -> (forall k, 0 <= k < N -> Z.abs (b k) <= y) ->
    Z.abs (negconv N a b i) <= N * (x * y).
  Proof.
    intros Hx Hy Hi Ha Hb. unfold negconv. apply zsum_bound; [lia|]. intros k Hk. rewrite Z.abs_mul.
    apply Z.mul_le_mono_nonneg; try apply Z.abs_nonneg; auto.
    destruct (Z.leb_spec k i); [apply Hb; lia|]. rewrite Z.abs_opp. apply Hb. lia.
  Qed.
  (** ... with the 1-norm of one factor. *)
  Lemma negconv_bound1 a b i y : 0 <= y -> 0 <= i < N -> (forall k, 0 <= k < N -> Z.abs (b k) <= y) ->
    Z.abs (negconv N a b i) <= zsum N (fun k => Z.abs (a k)) * y.
  Proof.
    intros Hy Hi Hb. unfold negconv. eapply Z.le_trans; [apply zsum_abs|].
    rewrite Z.mul_comm, <- zsum_scal. apply zsum_le. intros k Hk. rewrite Z.abs_mul, Z.mul_comm.
    apply Z.mul_le_mono_nonneg_r; [apply Z.abs_nonneg|].
    destruct (Z.leb_spec k i); [apply Hb; lia|]. rewrite Z.abs_opp. apply Hb. lia.
  Qed.

  (** ** The automorphism X -> X^g, g prime to 2N: coefficient [g i] of the image is coefficient [i]. *)
  Definition is_auto (g : Z) (a b : Z -> Z) : Prop := forall i, 0 <= i < N -> ext N b (g * i) = a i.

  Lemma auto_ext g a b : Z.odd g = true -> is_auto g a b -> forall i, ext N b (g * i) = ext N a i.
  Proof.
    intros Hg H. apply (ext_unique a (fun i => ext N b (g * i)) H). intros k.
    destruct (Z.odd_spec g) as [Ho _]. destruct (Ho Hg) as [m Hm].
    replace (g * (k + N)) with (g * k + N + m * (2 * N)) by nia. rewrite ext_2N, ext_shift. reflexivity.
  Qed.

  Definition gcd1 (g : Z) : Prop := rel_prime g (2 * N).

  Lemma gcd1_odd g : gcd1 g -> Z.odd g = true.
  Proof.
    intros H. destruct (Z.odd g) eqn:E; auto. exfalso. assert (He : Z.even g = true) by (rewrite <- Z.negb_odd, E; auto).
    apply Z.even_spec in He. destruct He as [m ->]. destruct H as [_ _ H]. specialize (H 2). 
    assert (H1 : (2 | 1)) by (apply H; [exists m|exists N]; lia). apply Z.divide_1_r_nonneg in H1; lia.
  Qed.
  Lemma gcd1_N g : gcd1 g -> rel_prime g N.
  Proof. intros H. apply rel_prime_sym. apply rel_prime_div with (2 * N); [apply rel_prime_sym; auto|exists 2; lia]. Qed.

  (** Reindexing a periodic sum by a unit. *)
  Lemma unit_sum g f : gcd1 g -> (forall k, f (k + N) = f k) -> zsum N (fun k => f (g * k)) = zsum N f.
  Proof.
    intros Hg Hp.
    assert (Hpm : forall k, f (k mod N) = f k).
    { assert (Hn : forall (n : nat) k, f (k + Z.of_nat n * N) = f k).
      { induction n as [|n IH]; intros k; [f_equal; lia|]. rewrite <- (IH k), <- (Hp (k + Z.of_nat n * N)). f_equal. lia. }
      intros k. pose proof (Z.div_mod k N ltac:(lia)) as Ek. destruct (Z_le_gt_dec 0 (k / N)).
      - rewrite <- (Hn (Z.to_nat (k / N)) (k mod N)). f_equal. lia.
      - rewrite <- (Hn (Z.to_nat (- (k / N))) k). f_equal. lia. }
    rewrite (zsum_reindex N (fun k => (g * k) mod N) f).
    - apply zsum_ext. intros. symmetry. apply Hpm.
    - intros i Hi. apply Z.mod_pos_bound. lia.
    - intros i j Hi Hj E. apply gcd1_N in Hg.
      assert (Hd : (N | g * (i - j))).
      { apply Z.mod_divide; [lia|]. rewrite Z.mul_sub_distr_l, Zminus_mod, E, Z.sub_diag. apply Zmod_0_l. }
      apply Gauss in Hd; [|apply rel_prime_sym; auto]. destruct Hd as [z Hz].
      assert (z = 0) by nia. lia.
  Qed.

  Lemma auto_inv_exists g : gcd1 g -> exists h, gcd1 h /\ forall a i, ext N a (h * (g * i)) = ext N a i /\ ext N a (g * (h * i)) = ext N a i.
  Proof.
    intros Hg. destruct (rel_prime_bezout _ _ Hg) as [u v Huv]. exists u.
    assert (Hu : gcd1 u). { apply bezout_rel_prime. apply Bezout_intro with g v. lia. }
    split; auto. intros a i. assert (E : u * g * i + v * (2 * N) * i = i) by (rewrite <- Z.mul_add_distr_r, Huv; lia). split.
    - rewrite <- (ext_2N a i (- (v * i))). f_equal. lia.
    - rewrite <- (ext_2N a i (- (v * i))). f_equal. lia.
  Qed.
  (** The image is determined, and is given by the inverse exponent. *)
  Lemma auto_values g a b : gcd1 g -> is_auto g a b ->
    exists h, gcd1 h /\ (forall i, ext N b i = ext N a (h * i)) /\
      forall c i, ext N c (h * (g * i)) = ext N c i /\ ext N c (g * (h * i)) = ext N c i.
  Proof.
    intros Hg H. destruct (auto_inv_exists g Hg) as (h & Hh & Hc). exists h. split; auto. split; auto.
    intros i. rewrite <- (auto_ext g a b (gcd1_odd g Hg) H). symmetry. apply Hc.
  Qed.
  Lemma auto_unique g a b b' : gcd1 g -> is_auto g a b -> is_auto g a b' -> peq b b'.
  Proof.
    intros Hg H H'. apply ext_peq. intros k. destruct (auto_inv_exists g Hg) as (h & _ & Hc).
    rewrite <- (proj2 (Hc b k)), <- (proj2 (Hc b' k)).
    rewrite (auto_ext g a b (gcd1_odd g Hg) H), (auto_ext g a b' (gcd1_odd g Hg) H'). reflexivity.
  Qed.
  Lemma auto_negconv g a a' b b' : gcd1 g -> is_auto g a a' -> is_auto g b b' ->
    is_auto g (negconv N a b) (negconv N a' b').
  Proof.
    intros Hg Ha Hb i Hi. rewrite <- (ext_in (negconv N a b) i Hi). rewrite !ext_negconv.
    rewrite <- (unit_sum g (fun k => ext N a' k * ext N b' (g * i - k)) Hg) by (intros; apply prod_periodic).
    apply zsum_ext. intros k Hk. rewrite (auto_ext g a a' (gcd1_odd g Hg) Ha). f_equal.
    rewrite <- (auto_ext g b b' (gcd1_odd g Hg) Hb). f_equal. lia.
  Qed.
  Lemma auto_add g a a' b b' : is_auto g a a' -> is_auto g b b' -> is_auto g (fun k => a k + b k) (fun k => a' k + b' k).
  Proof.
    intros Ha Hb i Hi. rewrite <- Ha, <- Hb by auto. unfold ext. destruct (Z.even _); lia.
  Qed.
  Lemma auto_comp g h a b c : Z.odd h = true -> is_auto g a b -> is_auto h b c -> is_auto (h * g) a c.
  Proof. intros Hh Ha Hb i Hi. rewrite <- Z.mul_assoc. rewrite (auto_ext h b c Hh Hb). apply Ha. auto. Qed.
  Lemma auto_cong g h a b : (g - h) mod (2 * N) = 0 -> is_auto g a b -> is_auto h a b.
  Proof.
    intros Hd Ha i Hi. rewrite <- Ha by auto. apply Z.mod_divide in Hd; [|lia]. destruct Hd as [z Hz].
    rewrite <- (ext_2N b (h * i) (z * i)). f_equal. nia.
  Qed.
  (** Coefficients keep their size. *)
  Lemma auto_bound g a b y : gcd1 g -> is_auto g a b -> (forall i, 0 <= i < N -> Z.abs (a i) <= y) ->
    forall i, 0 <= i < N -> Z.abs (b i) <= y.
  Proof.
    intros Hg H Ha i Hi. destruct (auto_values g a b Hg H) as (h & _ & Hv & _).
    rewrite <- (ext_in b i Hi), Hv. unfold ext. pose proof (Z.mod_pos_bound (h * i) N ltac:(lia)).
    destruct (Z.even _); rewrite ?Z.abs_opp; apply Ha; auto.
  Qed.
End Ring.
