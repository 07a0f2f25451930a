(** Lemmas about the CRT model: comparison, residues, Chinese remaindering. *)
From Coq Require Import ZArith List Bool Lia Znumtheory.
From Verif Require Import Base BaseFacts ZQ ZQFacts ZQFacts2 Mod ModFacts NumZ Sums NTTFacts CRT.
Import ListNotations.
Open Scope Z_scope.

Lemma repeat_tab {A} (x : A) n : repeat x (Z.to_nat n) = tab n (fun _ => x).
Proof.
  unfold tab. generalize 0%nat. induction (Z.to_nat n); intros k; cbn; auto. f_equal. auto.
Qed.

(** ** Comparison *)
Lemma div_Wp_split u i : 0 <= i -> u / Wp i = W * (u / Wp (i + 1)) + dg u i.
Proof.
  intros Hi. pose proof (Wp_pos i Hi). pose proof W_pos. rewrite Wp_S by auto. unfold dg.
  rewrite <- Z.div_div by lia. pose proof (Z.div_mod (u / Wp i) W ltac:(lia)). lia.
Qed.

Lemma cmpge_raw LOGQ u v : 1 <= LOGQ -> 0 <= u < Wp (len LOGQ) -> 0 <= v < Wp (len LOGQ) ->
  cmpge LOGQ (raw (len LOGQ) u) (raw (len LOGQ) v) = Ok (v <=? u).
Proof.
  intros H Hu Hv. pose proof (len_bounds LOGQ H) as Hl. unfold cmpge.
  replace (Z.quot (63 + LOGQ) 64) with (len LOGQ) by (unfold len; f_equal; lia).
  rewrite (for_down_closed _ (fun i => let a := u / Wp (i + 1) in let b := v / Wp (i + 1) in
                                if a =? b then None else Some (b <? a)) _ _ _
             (if u =? v then None else Some (v <? u))).
  - cbn [bind]. f_equal. destruct (Z.eqb_spec u v).
    + subst. symmetry. apply Z.leb_le. lia.
    + zc; auto.
  - lia.
  - replace (len LOGQ - 1 + 1) with (len LOGQ) by lia. cbv zeta.
    rewrite !Z.div_small by lia. reflexivity.
  - replace (0 - 1 + 1) with 0 by lia. rewrite Wp_0, !Z.div_1_r. reflexivity.
  - intros i Hi. replace (i - 1 + 1) with i by lia. cbv zeta.
    rewrite (div_Wp_split u i), (div_Wp_split v i) by lia.
    pose proof (dg_word u i) as Hdu. pose proof (dg_word v i) as Hdv. unfold is_word in *.
    generalize dependent (u / Wp (i + 1)). generalize dependent (v / Wp (i + 1)). intros b a.
    assert (HW : W > 0) by reflexivity.
    destruct (Z.eqb_spec a b) as [->|Hab].
    + rewrite !rd_raw by lia. cbn [bind]. rewrite Z.gtb_ltb. f_equal. zc; auto; f_equal; auto.
    + f_equal. replace (W * a + dg u i =? W * b + dg v i) with false by (symmetry; apply Z.eqb_neq; nia).
      f_equal. destruct (Z.ltb_spec b a); symmetry; [apply Z.ltb_lt|apply Z.ltb_ge]; nia.
Qed.

(** Residues of words. *)
Lemma icrt_residue_ok n u q : 1 <= n -> 0 < q < W -> 0 <= u < Wp n ->
  icrt_residue (raw n u) n q = Ok (if n =? 1 then u else u mod q).
Proof.
  intros Hn Hq Hu. unfold icrt_residue. rewrite rd_raw by lia. cbn [bind].
  destruct (Z.eqb_spec n 1) as [->|Hn1].
  - rewrite for_down_nil by lia. f_equal. unfold dg. cbn [Z.sub]. rewrite Wp_1 in Hu.
    replace (1 - 1) with 0 by lia. rewrite Wp_0, Z.div_1_r. apply Z.mod_small. auto.
  - rewrite (for_down_closed _ (fun i => if i =? n - 2 then dg u (n - 1) else (u / Wp (i + 1)) mod q) _ _ _ (u mod q)).
    + reflexivity.
    + lia.
    + rewrite Z.eqb_refl. reflexivity.
    + replace (0 - 1) with (-1) by lia. destruct (Z.eqb_spec (-1) (n - 2)) as [E|E]; [lia|].
      change (-1 + 1) with 0. rewrite Wp_0, Z.div_1_r. reflexivity.
    + intros i Hi. rewrite rd_raw by lia. cbn [bind].
      destruct (Z.eqb_spec (i - 1) (n - 2)) as [E|_]; [lia|]. replace (i - 1 + 1) with i by lia.
      destruct (Z.eqb_spec i (n - 2)) as [->|E].
      * rewrite mod_ok; auto using dg_word. f_equal. f_equal. rewrite (div_Wp_split u (n - 2)) by lia.
        replace (n - 2 + 1) with (n - 1) by lia.
        assert (Ed : dg u (n - 1) = u / Wp (n - 1)).
        { unfold dg. apply Z.mod_small. pose proof (Wp_pos (n - 1) ltac:(lia)). split; [apply Z.div_pos; lia|].
          apply Z.div_lt_upper_bound; [lia|]. rewrite <- Wp_S by lia. replace (n - 1 + 1) with n by lia. lia. }
        rewrite Ed. lia.
      * rewrite mod_ok; auto using dg_word.
        -- f_equal. rewrite (div_Wp_split u i) by lia.
           rewrite <- (Zplus_mod_idemp_l (_ * W)), Zmult_mod_idemp_l, Zplus_mod_idemp_l. f_equal. lia.
        -- unfold is_word. pose proof (Z.mod_pos_bound (u / Wp (i + 1)) q). lia.
Qed.

(** ** Products *)
Fixpoint prodn (n : nat) (f : Z -> Z) : Z :=
  match n with O => 1 | S m => prodn m f * f (Z.of_nat m) end.
Definition zprod (n : Z) (f : Z -> Z) : Z := prodn (Z.to_nat n) f.

Lemma zprod_0 f : zprod 0 f = 1. Proof. reflexivity. Qed.
Lemma zprod_S n f : 0 <= n -> zprod (n + 1) f = zprod n f * f n.
Proof.
  intros. unfold zprod. replace (Z.to_nat (n + 1)) with (S (Z.to_nat n)) by lia. cbn [prodn].
  rewrite Z2Nat.id by lia. reflexivity.
Qed.
Lemma zprod_ext n f g : (forall i, 0 <= i < n -> f i = g i) -> zprod n f = zprod n g.
Proof.
  unfold zprod. intros H. assert (G : forall m, (m <= Z.to_nat n)%nat -> prodn m f = prodn m g); [|apply G; lia].
  induction m; intros Hm; auto. cbn [prodn]. rewrite IHm, H by lia. reflexivity.
Qed.
Lemma zprod_one n : zprod n (fun _ => 1) = 1.
Proof. unfold zprod. induction (Z.to_nat n) as [|m IH]; cbn [prodn]; auto. rewrite IH. reflexivity. Qed.
Lemma zprod_ind (P : Z -> Prop) n : 0 <= n -> P 0 -> (forall m, 0 <= m < n -> P m -> P (m + 1)) -> P n.
Proof.
  intros Hn H0 HS. cut (forall m, 0 <= m -> m <= n -> P m). { intros G. apply G; lia. }
  intros m Hm. pattern m. apply natlike_ind; [| |exact Hm].
  - intros _. exact H0.
  - intros x Hx IH Hxn. unfold Z.succ in *. apply HS; [lia|]. apply IH. lia.
Qed.

Lemma zprod_bounds n f B : 0 <= n -> (forall i, 0 <= i < n -> 0 < f i <= B) -> 0 < zprod n f <= B ^ n.
Proof.
  intros Hn H. revert H. apply (zprod_ind (fun n => (forall i, 0 <= i < n -> 0 < f i <= B) -> 0 < zprod n f <= B ^ n)); auto.
  - intros _. rewrite zprod_0. cbn. lia.
  - intros m Hm IH H. rewrite zprod_S, Z.pow_add_r, Z.pow_1_r by lia.
    specialize (H m ltac:(lia)) as H1. specialize (IH ltac:(intros; apply H; lia)). nia.
Qed.

Lemma zprod_skip_lt n f i : 0 <= n <= i -> zprod n (fun j => if i =? j then 1 else f j) = zprod n f.
Proof. intros H. apply zprod_ext. intros j Hj. zc; auto. Qed.
Lemma zprod_skip n f i : 0 <= i < n -> zprod n f = f i * zprod n (fun j => if i =? j then 1 else f j).
Proof.
  intros Hi. revert Hi. destruct (Z_le_gt_dec n 0) as [Hn|Hn]; [lia|].
  apply (zprod_ind (fun n => 0 <= i < n -> zprod n f = f i * zprod n (fun j => if i =? j then 1 else f j))); try lia.
  intros m Hm IH Him. rewrite !zprod_S by lia. destruct (Z.eqb_spec i m) as [->|Hne].
  - rewrite zprod_skip_lt by lia. lia.
  - rewrite IH by lia. lia.
Qed.
Lemma zprod_dvd n f i : 0 <= i < n -> (f i | zprod n f).
Proof. intros Hi. rewrite (zprod_skip n f i Hi). apply Z.divide_factor_l. Qed.

Lemma prime_dvd_zprod p n f : prime p -> 0 <= n -> (p | zprod n f) -> exists i, 0 <= i < n /\ (p | f i).
Proof.
  intros Hp Hn. apply (zprod_ind (fun n => (p | zprod n f) -> exists i, 0 <= i < n /\ (p | f i))); auto.
  - rewrite zprod_0. intros Hd. pose proof (prime_pos _ Hp). apply dvd_pos_le in Hd; lia.
  - intros m Hm IH Hd. rewrite zprod_S in Hd by lia. apply prime_mult in Hd; auto. destruct Hd as [Hd|Hd].
    + destruct (IH Hd) as (i & Hi & E). exists i. split; [lia|auto].
    + exists m. split; [lia|auto].
Qed.

(** ** Chinese remaindering for distinct primes *)
Definition moduli (L : Z) (q : Z -> Z) : Prop :=
  0 <= L < 2 ^ 31 /\ (forall i, 0 <= i < L -> prime (q i) /\ q i < W) /\
  (forall i j, 0 <= i < L -> 0 <= j < L -> q i = q j -> i = j).

Section Moduli.
  Variables (L : Z) (q : Z -> Z).
  Hypothesis HM : moduli L q.

  Definition Pq : Z := zprod L q.
  Definition Qi (i : Z) : Z := zprod L (fun j => if i =? j then 1 else q j).

  Lemma mod_pos i : 0 <= i < L -> 2 <= q i < W.
  Proof. intros Hi. destruct HM as (_ & H & _). destruct (H i Hi) as [H1 H2]. pose proof (prime_pos _ H1). lia. Qed.
  Lemma mod_prime i : 0 <= i < L -> prime (q i).
  Proof. intros Hi. destruct HM as (_ & H & _). destruct (H i Hi) as [H1 H2]. auto. Qed.
  Lemma mod_dist i j : 0 <= i < L -> 0 <= j < L -> (q i | q j) -> i = j.
  Proof.
    intros Hi Hj Hd. destruct HM as (_ & _ & H). apply H; auto.
    apply prime_dvd_eq; auto using mod_prime.
  Qed.
  Lemma L_nonneg : 0 <= L. Proof. destruct HM. lia. Qed.

  Lemma Pq_bounds : 0 < Pq <= Wp L.
  Proof.
    unfold Pq, Wp. rewrite Z.pow_mul_r by (pose proof L_nonneg; lia). apply zprod_bounds; [apply L_nonneg|].
    intros i Hi. pose proof (mod_pos i Hi). unfold W in *. lia.
  Qed.
  Lemma Qi_Pq i : 0 <= i < L -> Pq = q i * Qi i.
  Proof. apply zprod_skip. Qed.
  Lemma Qi_pos i : 0 <= i < L -> 0 < Qi i <= Pq.
  Proof. intros Hi. pose proof (Qi_Pq i Hi). pose proof (mod_pos i Hi). pose proof Pq_bounds. nia. Qed.
  Lemma Qi_not i : 0 <= i < L -> ~ (q i | Qi i).
  Proof.
    intros Hi Hd. apply prime_dvd_zprod in Hd; auto using mod_prime, L_nonneg.
    destruct Hd as (j & Hj & Hd). destruct (Z.eqb_spec i j) as [E|E].
    - pose proof (mod_pos i Hi). apply dvd_pos_le in Hd; lia.
    - apply E. apply mod_dist; auto.
  Qed.
  Lemma Qi_dvd i j : 0 <= i < L -> 0 <= j < L -> i <> j -> (q j | Qi i).
  Proof.
    intros Hi Hj Hne. pose proof (zprod_dvd L (fun j => if i =? j then 1 else q j) j Hj) as H. cbv beta in H.
    destruct (Z.eqb_spec i j); [lia|auto].
  Qed.

  (** Uniqueness *)
  Lemma crt_dvd n c : 0 <= n <= L -> (forall i, 0 <= i < n -> (q i | c)) -> (zprod n q | c).
  Proof.
    intros Hn. revert Hn. intros [Hn HnL]. revert HnL.
    apply (zprod_ind (fun n => n <= L -> (forall i, 0 <= i < n -> (q i | c)) -> (zprod n q | c))); auto.
    - intros _ _. rewrite zprod_0. apply Z.divide_1_l.
    - intros m Hm IH HmL H. rewrite zprod_S by lia.
      specialize (IH ltac:(lia) ltac:(intros; apply H; lia)).
      destruct IH as [k ->]. rewrite (Z.mul_comm k). apply Z.mul_divide_mono_l.
      specialize (H m ltac:(lia)). apply prime_mult in H; [|apply mod_prime; lia].
      destruct H as [H|H]; auto. apply prime_dvd_zprod in H; [|apply mod_prime; lia|lia].
      destruct H as (j & Hj & Hd). apply mod_dist in Hd; lia.
  Qed.
  Lemma crt_eqq c d : (forall i, 0 <= i < L -> c =[q i]= d) -> c =[Pq]= d.
  Proof.
    intros H. pose proof Pq_bounds.
    assert (Hd : (Pq | c - d)).
    { apply crt_dvd; [pose proof L_nonneg; lia|]. intros i Hi. pose proof (mod_pos i Hi).
      apply Z.mod_divide; [lia|]. rewrite Zminus_mod. rewrite (eqq_eq _ _ _ (H i Hi)), Z.sub_diag. apply Z.mod_0_l. lia. }
    constructor. destruct Hd as [k E]. replace c with (d + k * Pq) by lia. apply Z.mod_add. lia.
  Qed.
  Lemma crt_unique c d : (forall i, 0 <= i < L -> c =[q i]= d) -> - Pq <= 2 * c < Pq -> - Pq <= 2 * d < Pq -> c = d.
  Proof.
    intros H Hc Hd. apply crt_eqq in H. destruct H as [H]. pose proof Pq_bounds.
    pose proof (Z.div_mod c Pq ltac:(lia)) as Ec. pose proof (Z.div_mod d Pq ltac:(lia)) as Ed. rewrite H in *.
    assert (E : c - d = Pq * (c / Pq - d / Pq)) by lia.
    assert (c / Pq - d / Pq = 0) by nia. lia.
  Qed.
End Moduli.

(** ** The constructor *)
Lemma len_wide L : 0 <= L -> len (wide L) = L + 1.
Proof. intros. apply len_unique; unfold wide; lia. Qed.
Lemma wide_pos L : 0 <= L -> 1 <= wide L.
Proof. unfold wide. lia. Qed.
Lemma rep_wide L v : 0 <= L -> rep (wide L) v = raw (L + 1) v.
Proof.
  intros H. unfold rep. rewrite len_wide by auto. rewrite <- (raw_mod (L + 1) v). reflexivity.
Qed.
Lemma wr_raw_0 n x : 1 <= n -> is_word x -> wr (raw n 0) 0 x = Ok (raw n x).
Proof.
  intros Hn Hx. unfold raw. rewrite wr_wtab by lia. f_equal. apply wtab_ext. intros k Hk.
  unfold dg. pose proof (Wp_pos k ltac:(lia)). destruct (Z.eqb_spec k 0) as [->|Hk0].
  - rewrite Wp_0, Z.div_1_r. symmetry. apply Z.mod_small. auto.
  - rewrite Z.div_0_l, (Z.div_small x); auto; [|lia].
    assert (Wp 1 <= Wp k) by (apply Z.pow_le_mono_r; lia). rewrite Wp_1 in *. unfold is_word in Hx. lia.
Qed.

Lemma setzero_one L D : 0 <= L -> length D = Z.to_nat (L + 1) ->
  (D <- zq_setzero (wide L) D ;; wr D 0 1) = Ok (rep (wide L) 1).
Proof.
  intros HL HD. rewrite zq_setzero_ok by (try rewrite len_wide by auto; auto using wide_pos). cbn [bind].
  rewrite len_wide by auto. rewrite wr_raw_0 by (unfold is_word, W; lia).
  rewrite rep_wide by auto. reflexivity.
Qed.

(** What the constructor establishes. *)
Definition crt_tables (L : Z) (q : Z -> Z) (M : crt_t) : Prop :=
  crt_q M = wtab L q /\
  crt_Q M = rep (wide L) (Pq L q) /\
  Q_over_q M = tab L (fun i => rep (wide L) (Qi L q i)) /\
  exists v, inv_mod_Q_over_q M = wtab L v /\
    forall i, 0 <= i < L -> 0 <= v i < q i /\ Qi L q i * v i =[q i]= 1.

Lemma rep_eqW L u v : u mod 2 ^ L = v mod 2 ^ L -> rep L u = rep L v.
Proof. apply rep_congr. Qed.

Lemma crt_new_ok L q (g : Z -> cell) n : moduli L q -> L <= n -> (forall i, 0 <= i < L -> g i = Some (q i)) ->
  exists M, crt_new L (tab n g) = Ok M /\ crt_tables L q M.
Proof.
  intros HM Hn Hg. pose proof (L_nonneg L q HM) as HL. pose proof (wide_pos L HL) as Hw.
  assert (Hrd : forall i, 0 <= i < L -> rd (tab n g) i = Ok (q i)).
  { intros i Hi. rewrite rd_tab by lia. rewrite Hg by auto. reflexivity. }
  assert (Hword : forall i, 0 <= i < L -> is_word (q i)).
  { intros i Hi. pose proof (mod_pos L q HM i Hi). unfold is_word. lia. }
  unfold crt_new.
  rewrite (for_closed _ (fun i => tab L (fun j => if j <? i then Some (q j) else None)) _ _ _ (wtab L q)).
  2: lia.
  2: { rewrite fresh_tab. apply tab_ext. intros j Hj. zc; auto. }
  2: { apply tab_ext. intros j Hj. zc; auto. }
  2: { intros i Hi. rewrite Hrd by auto. cbn [bind]. rewrite wr_tab by lia. f_equal. apply tab_ext.
       intros j Hj. zc; auto; subst; auto. }
  cbn [bind].
  pose proof (setzero_one L (zq_new (wide L)) HL) as E1.
  rewrite zq_new_length, len_wide in E1 by auto. specialize (E1 eq_refl).
  destruct (zq_setzero (wide L) (zq_new (wide L))) as [D| | |] eqn:ED; try discriminate. cbn [bind] in E1 |- *.
  rewrite E1. cbn [bind]. clear D ED E1.
  rewrite (for_closed _ (fun i => rep (wide L) (zprod i q)) _ _ _ (rep (wide L) (Pq L q))).
  2: lia. 2: reflexivity. 2: reflexivity.
  2: { intros i Hi. rewrite Hrd by auto. cbn [bind]. rewrite zq_mul_word_rep by auto. rewrite zprod_S by lia. reflexivity. }
  cbn [bind].
  rewrite (for_closed _ (fun i => tab L (fun k => if k <? i then rep (wide L) (Qi L q k) else zq_new (wide L))) _ _ _
             (tab L (fun i => rep (wide L) (Qi L q i)))).
  2: lia.
  2: { rewrite repeat_tab. apply tab_ext. intros j Hj. zc; auto. }
  2: { apply tab_ext. intros j Hj. zc; auto. }
  2: { intros i Hi. rewrite lget_tab by lia. cbn [bind]. destruct (Z.ltb_spec i i); [lia|].
       pose proof (setzero_one L (zq_new (wide L)) HL) as E1.
       rewrite zq_new_length, len_wide in E1 by auto. specialize (E1 eq_refl).
       destruct (zq_setzero (wide L) (zq_new (wide L))) as [D| | |] eqn:ED; try discriminate. cbn [bind] in E1 |- *.
       rewrite E1. cbn [bind].
       rewrite (for_closed _ (fun j => rep (wide L) (zprod j (fun j => if i =? j then 1 else q j))) _ _ _
                  (rep (wide L) (Qi L q i))).
       - cbn [bind]. rewrite lset_tab by lia. f_equal. apply tab_ext. intros k Hk. zc; auto; subst; auto.
       - lia.
       - reflexivity.
       - reflexivity.
       - intros j Hj. rewrite zprod_S by lia. destruct (Z.eqb_spec i j); cbn [negb].
         + f_equal. f_equal. lia.
         + rewrite Hrd by auto. cbn [bind]. rewrite zq_mul_word_rep by auto. reflexivity. }
  cbn [bind].
  assert (Hinv : forall i, 0 <= i < L -> exists r,
     (temp <- for_ 0 L (fun j temp =>
                     if negb (i =? j) then x <- rd (tab n g) j ;; y <- rd (tab n g) i ;; mul_mod temp x y else Ok temp) 1 ;;
      y <- rd (tab n g) i ;; inv_mod temp y) = Ok r /\ 0 <= r < q i /\ Qi L q i * r =[q i]= 1).
  { intros i Hi. pose proof (mod_pos L q HM i Hi) as Hqi.
    rewrite (for_closed _ (fun j => zprod j (fun j => if i =? j then 1 else q j) mod q i) _ _ _ (Qi L q i mod q i)).
    - cbn [bind]. rewrite Hrd by auto. cbn [bind].
      destruct (inv_mod_ok (Qi L q i mod q i) (q i)) as (r & E & Hr & Er).
      + apply (mod_prime L q HM i Hi).
      + lia.
      + unfold is_word. pose proof (Z.mod_pos_bound (Qi L q i) (q i)). lia.
      + intros Hd. apply (Qi_not L q HM i Hi). apply Z.mod_divide in Hd; [|lia].
        rewrite Z.mod_mod in Hd by lia. apply Z.mod_divide in Hd; [auto|lia].
      + exists r. split; auto. split; [lia|]. constructor. rewrite Z.mul_mod_idemp_l in Er by lia. rewrite Er.
        symmetry. apply Z.mod_small. lia.
    - lia.
    - rewrite zprod_0. symmetry. apply Z.mod_small. lia.
    - reflexivity.
    - intros j Hj. rewrite zprod_S by lia. destruct (Z.eqb_spec i j); cbn [negb].
      + f_equal. f_equal. lia.
      + rewrite !Hrd by auto. cbn [bind]. rewrite mul_mod_ok; auto; [|apply q_word; lia|lia].
        rewrite Z.mul_mod_idemp_l by lia. reflexivity. }
  assert (Hv : exists v, forall i, 0 <= i < L ->
     (temp <- for_ 0 L (fun j temp =>
                     if negb (i =? j) then x <- rd (tab n g) j ;; y <- rd (tab n g) i ;; mul_mod temp x y else Ok temp) 1 ;;
      y <- rd (tab n g) i ;; inv_mod temp y) = Ok (v i) /\ 0 <= v i < q i /\ Qi L q i * v i =[q i]= 1).
  { exists (fun i => match (temp <- for_ 0 L (fun j temp =>
                     if negb (i =? j) then x <- rd (tab n g) j ;; y <- rd (tab n g) i ;; mul_mod temp x y else Ok temp) 1 ;;
      y <- rd (tab n g) i ;; inv_mod temp y) with Ok r => r | _ => 0 end).
    intros i Hi. destruct (Hinv i Hi) as (r & E & Hr). rewrite E. auto. }
  destruct Hv as [v Hv]. clear Hinv.
  rewrite (for_closed _ (fun i => tab L (fun j => if j <? i then Some (v j) else None)) _ _ _ (wtab L v)).
  - cbn [bind]. eexists. split; [reflexivity|]. unfold crt_tables. cbn.
    split; [reflexivity|]. split; [reflexivity|]. split; [reflexivity|]. exists v. split; [reflexivity|].
    intros i Hi. apply Hv. auto.
  - lia.
  - rewrite fresh_tab. apply tab_ext. intros j Hj. zc; auto.
  - apply tab_ext. intros j Hj. zc; auto.
  - intros i Hi. destruct (Hv i Hi) as (E & _).
    match goal with |- (bind ?e _) = _ => destruct e as [t| | |]; cbn [bind] in E |- *; try discriminate end.
    rewrite Hrd in E |- * by auto. cbn [bind] in E |- *. rewrite E. cbn [bind].
    rewrite wr_tab by lia. f_equal. apply tab_ext. intros j Hj. zc; auto; subst; auto.
Qed.

(** ** Reconstruction *)
Lemma sum_bound L q (c : Z -> Z) : moduli L q -> (forall i, 0 <= i < L -> 0 <= c i < q i) ->
  forall n, 0 <= n <= L -> 0 <= zsum n (fun i => Qi L q i * c i) <= n * Pq L q.
Proof.
  intros HM Hc n Hn. destruct Hn as [Hn HnL]. revert HnL.
  apply (zprod_ind (fun n => n <= L -> 0 <= zsum n (fun i => Qi L q i * c i) <= n * Pq L q)); auto.
  - intros _. rewrite zsum_nil by lia. lia.
  - intros m Hm IH HmL. rewrite zsum_S by lia. specialize (IH ltac:(lia)).
    pose proof (Qi_Pq L q m ltac:(lia)). pose proof (Qi_pos L q HM m ltac:(lia)). pose proof (Hc m ltac:(lia)). nia.
Qed.

Lemma sum_residue L q (c : Z -> Z) i : moduli L q -> 0 <= i < L ->
  zsum L (fun k => Qi L q k * c k) =[q i]= Qi L q i * c i.
Proof.
  intros HM Hi. pose proof (L_nonneg L q HM). pose proof (mod_pos L q HM i Hi).
  transitivity (zsum L (fun k => if k =? i then Qi L q i * c i else 0)).
  - apply eqq_zsum. intros k Hk. destruct (Z.eqb_spec k i) as [->|Hne]; [reflexivity|].
    pose proof (Qi_dvd L q k i Hk Hi ltac:(auto)) as [m E]. constructor.
    rewrite E. rewrite Z.mod_0_l by lia. replace (m * q i * c k) with (m * c k * q i) by ring. apply Z.mod_mul. lia.
  - rewrite (zsum_single L i) by (auto; intros; zc; auto). rewrite Z.eqb_refl. reflexivity.
Qed.

Theorem crt_crt_ok L q M LOGQ a A : moduli L q -> crt_tables L q M -> 1 <= LOGQ ->
  length A = Z.to_nat (len LOGQ) -> (forall i, 0 <= i < L -> is_word (a i)) ->
  exists c, crt_crt M L LOGQ (wtab L a) A = Ok (rep LOGQ c) /\ - Pq L q <= 2 * c < Pq L q /\
    forall i, 0 <= i < L -> c =[q i]= a i.
Proof.
  intros HM (E1 & E2 & E3 & v & E4 & Hv) HQ HA Ha.
  pose proof (L_nonneg L q HM) as HL. pose proof (wide_pos L HL) as Hw.
  assert (HL31 : L < 2 ^ 31) by (destruct HM; lia).
  pose proof (Pq_bounds L q HM) as HP.
  assert (HWp : Wp (L + 1) = Wp L * W) by (apply Wp_S; auto).
  assert (HWL : 0 < Wp L) by (apply Wp_pos; auto).
  assert (Hvw : forall i, 0 <= i < L -> is_word (v i)).
  { intros i Hi. pose proof (Hv i Hi). pose proof (mod_pos L q HM i Hi). unfold is_word. lia. }
  set (c := fun i => (a i * v i) mod q i).
  assert (Hc : forall i, 0 <= i < L -> 0 <= c i < q i).
  { intros i Hi. apply Z.mod_pos_bound. pose proof (mod_pos L q HM i Hi). lia. }
  assert (Hcw : forall i, 0 <= i < L -> is_word (c i)).
  { intros i Hi. pose proof (Hc i Hi). pose proof (mod_pos L q HM i Hi). unfold is_word. lia. }
  set (S := zsum L (fun i => Qi L q i * c i)).
  assert (HS : 0 <= S <= L * Pq L q) by (apply sum_bound; auto; lia).
  assert (HSr : forall i, 0 <= i < L -> S =[q i]= a i).
  { intros i Hi. unfold S. rewrite (sum_residue L q c i HM Hi). unfold c. rewrite eqq_mod.
    destruct (Hv i Hi) as [_ E]. replace (Qi L q i * (a i * v i)) with ((Qi L q i * v i) * a i) by ring.
    rewrite E. rewrite Z.mul_1_l. reflexivity. }
  unfold crt_crt.
  rewrite zq_setzero_ok by (auto using zq_new_length). cbn [bind]. rewrite len_wide by auto. rewrite <- rep_wide by auto.
  rewrite (for_closed _ (fun n => rep (wide L) (zsum n (fun i => Qi L q i * c i))) _ _ _ (rep (wide L) S)).
  2: lia. 2: { rewrite zsum_nil by lia. reflexivity. } 2: reflexivity.
  2: { intros i Hi. rewrite E1, E3, E4. rewrite !rd_wtab by auto. cbn [bind].
       pose proof (mod_pos L q HM i Hi).
       rewrite mul_mod_ok by (auto; lia). cbn [bind]. rewrite lget_tab by auto. cbn [bind].
       rewrite zq_copy_rep by (auto using zq_new_length). cbn [bind].
       fold (c i). rewrite zq_mul_word_rep by auto. cbn [bind]. rewrite zq_add_rep by auto.
       rewrite zsum_S by lia. reflexivity. }
  cbn [bind]. rewrite E2.
  assert (Hcmp : forall x y, 0 <= x < Wp (L + 1) -> 0 <= y < Wp (L + 1) ->
            cmpge (wide L) (rep (wide L) x) (rep (wide L) y) = Ok (y <=? x)).
  { intros x y Hx Hy. rewrite !rep_wide by auto. rewrite <- (len_wide L) by auto. apply cmpge_raw; auto; rewrite len_wide by auto; auto. }
  assert (HSW : S < Wp (L + 1)) by (rewrite HWp; unfold W; nia).
  assert (HPW : Pq L q < Wp (L + 1)) by (rewrite HWp; unfold W; nia).
  pose proof (Z.div_mod S (Pq L q) ltac:(lia)) as Ediv.
  pose proof (Z.mod_pos_bound S (Pq L q) ltac:(lia)) as Hmod.
  assert (Hdp : 0 <= S / Pq L q <= L).
  { split; [apply Z.div_pos; lia|]. apply Z.div_le_upper_bound; lia. }
  rewrite (while_big_closed (fun k => rep (wide L) (S - Z.of_nat k * Pq L q)) (Z.to_nat (S / Pq L q))).
  2: { f_equal. lia. }
  2: { intros k Hk. split.
       - rewrite Hcmp by nia. f_equal. apply Z.leb_le. nia.
       - rewrite zq_sub_rep by auto. f_equal. f_equal. lia. }
  2: { rewrite Hcmp by nia. f_equal. apply Z.leb_gt. nia. }
  2: lia.
  cbn [bind]. rewrite Z2Nat.id by lia.
  replace (S - S / Pq L q * Pq L q) with (S mod Pq L q) by lia. set (s := S mod Pq L q) in *.
  rewrite zq_copy_rep by (auto using zq_new_length). cbn [bind].
  rewrite zq_sub_rep by auto. cbn [bind].
  rewrite Hcmp by lia. cbn [bind].
  assert (HPq : forall i, 0 <= i < L -> Pq L q =[q i]= 0).
  { intros i Hi. pose proof (mod_pos L q HM i Hi). constructor. rewrite Z.mod_0_l by lia.
    rewrite (Qi_Pq L q i Hi), Z.mul_comm. apply Z.mod_mul. lia. }
  assert (Hsr : forall i, 0 <= i < L -> s =[q i]= a i).
  { intros i Hi. rewrite <- (HSr i Hi). replace s with (S - Pq L q * (S / Pq L q)) by (unfold s; lia).
    generalize (S / Pq L q). intros d. rewrite (HPq i Hi). replace (S - 0 * d) with S by lia. reflexivity. }
  assert (Hcent : forall x, 0 <= x <= Pq L q -> cent (wide L) x = x).
  { intros x Hx. apply cent_small; auto. unfold wide. replace (64 * (L + 1) - 1) with (64 * L + 63) by lia.
    rewrite Z.pow_add_r by lia. unfold Wp in *. lia. }
  destruct (Z.leb_spec (Pq L q - s) s).
  - rewrite zq_resize_rep by auto. cbn [bind]. rewrite zq_negate_rep by auto. rewrite Hcent by lia.
    exists (s - Pq L q). split; [f_equal; f_equal; lia|]. split; [lia|].
    intros i Hi. rewrite (HPq i Hi), Z.sub_0_r. auto.
  - rewrite zq_resize_rep by auto. rewrite Hcent by lia. exists s. split; auto. split; [lia|auto].
Qed.

(** ** Residues *)
Definition icrt_word (LOGQ v q : Z) : Z :=
  let x := cent LOGQ v in
  if x <? 0 then wsub q (if len LOGQ =? 1 then - x else (- x) mod q)
  else if len LOGQ =? 1 then x else x mod q.

Lemma crt_icrt_ok L q M LOGQ v (D : list cell) : moduli L q -> crt_q M = wtab L q -> 1 <= LOGQ ->
  length D = Z.to_nat L ->
  crt_icrt M L LOGQ (rep LOGQ v) D = Ok (wtab L (fun i => icrt_word LOGQ v (q i))).
Proof.
  intros HM E1 HQ HD. pose proof (L_nonneg L q HM) as HL. pose proof (len_bounds LOGQ HQ) as Hl.
  destruct (arr_tab None D L HD) as [g ->]. unfold crt_icrt. rewrite zq_is_big_rep by auto. cbn [bind].
  pose proof (pow2_half LOGQ HQ) as Hh. pose proof (pow2_pos (LOGQ - 1) ltac:(lia)) as Hp.
  pose proof (Z.mod_pos_bound v (2 ^ LOGQ) ltac:(lia)) as Hm.
  assert (HWp : 2 ^ LOGQ <= Wp (len LOGQ)) by (apply Z.pow_le_mono_r; lia).
  unfold icrt_word. unfold cent. cbv zeta.
  destruct (Z.leb_spec (2 ^ (LOGQ - 1)) (v mod 2 ^ LOGQ)) as [Hb|Hb].
  - destruct (Z.ltb_spec (v mod 2 ^ LOGQ) (2 ^ (LOGQ - 1))); [lia|].
    destruct (Z.ltb_spec (v mod 2 ^ LOGQ - 2 ^ LOGQ) 0); [|lia].
    rewrite zq_copy_rep by (auto using zq_new_length). cbn [bind]. rewrite zq_negate_rep by auto. cbn [bind].
    set (x := - (v mod 2 ^ LOGQ - 2 ^ LOGQ)).
    assert (Ex : rep LOGQ (- v) = raw (len LOGQ) x).
    { rewrite (rep_congr LOGQ (- v) x).
      - unfold rep. rewrite Z.mod_small by (unfold x; lia). reflexivity.
      - unfold x. replace (- (v mod 2 ^ LOGQ - 2 ^ LOGQ)) with (- (v mod 2 ^ LOGQ) + 1 * 2 ^ LOGQ) by lia.
        rewrite Z.mod_add by lia. symmetry. apply mod_opp_congr. lia. }
    rewrite Ex.
    rewrite (for_closed _ (fun i => tab L (fun j => if j <? i then Some (wsub (q j) (if len LOGQ =? 1 then x else x mod q j)) else g j)) _ _ _
       (wtab L (fun i => wsub (q i) (if len LOGQ =? 1 then x else x mod q i)))).
    + reflexivity.
    + lia.
    + apply tab_ext. intros j Hj. zc; auto.
    + apply tab_ext. intros j Hj. zc; auto.
    + intros i Hi. rewrite E1, rd_wtab by auto. cbn [bind]. pose proof (mod_pos L q HM i Hi).
      rewrite icrt_residue_ok by (unfold x; lia). cbn [bind]. rewrite wr_tab by lia. f_equal. apply tab_ext.
      intros j Hj. zc; auto; subst; auto; lia.
  - destruct (Z.ltb_spec (v mod 2 ^ LOGQ) (2 ^ (LOGQ - 1))); [|lia].
    destruct (Z.ltb_spec (v mod 2 ^ LOGQ) 0); [lia|]. unfold rep. set (x := v mod 2 ^ LOGQ) in *.
    rewrite (for_closed _ (fun i => tab L (fun j => if j <? i then Some (if len LOGQ =? 1 then x else x mod q j) else g j)) _ _ _
       (wtab L (fun i => if len LOGQ =? 1 then x else x mod q i))).
    + reflexivity.
    + lia.
    + apply tab_ext. intros j Hj. zc; auto.
    + apply tab_ext. intros j Hj. zc; auto.
    + intros i Hi. rewrite E1, rd_wtab by auto. cbn [bind]. pose proof (mod_pos L q HM i Hi).
      rewrite icrt_residue_ok by lia. cbn [bind]. rewrite wr_tab by lia. f_equal. apply tab_ext.
      intros j Hj. zc; auto; subst; auto; lia.
Qed.

Lemma icrt_word_range LOGQ v q : 1 <= LOGQ -> 0 < q < W -> is_word (icrt_word LOGQ v q).
Proof.
  intros HQ Hq. unfold icrt_word. cbv zeta. pose proof (cent_bounds LOGQ v HQ). pose proof (len_bounds LOGQ HQ).
  destruct (Z.ltb_spec (cent LOGQ v) 0); [apply wrap_word|]. destruct (Z.eqb_spec (len LOGQ) 1).
  - assert (2 ^ (LOGQ - 1) <= W) by (apply Z.pow_le_mono_r; lia). unfold is_word. lia.
  - pose proof (Z.mod_pos_bound (cent LOGQ v) q). unfold is_word. lia.
Qed.

(** The residue is right unless the object has a single word and its negative value exceeds the prime. *)
Lemma icrt_word_ok LOGQ v q : 1 <= LOGQ -> 0 < q < W -> LOGQ > 64 \/ - q <= cent LOGQ v ->
  icrt_word LOGQ v q =[q]= cent LOGQ v.
Proof.
  intros HQ Hq Hs. unfold icrt_word. cbv zeta. set (x := cent LOGQ v) in *.
  pose proof (len_bounds LOGQ HQ) as Hl.
  destruct (Z.ltb_spec x 0) as [Hx|Hx].
  - destruct (Z.eqb_spec (len LOGQ) 1) as [E|E].
    + rewrite E in *. unfold wsub, wrap. rewrite Z.mod_small by lia. constructor.
      replace (q - - x) with (x + 1 * q) by lia. apply Z.mod_add. lia.
    + pose proof (Z.mod_pos_bound (- x) q ltac:(lia)). unfold wsub, wrap. rewrite Z.mod_small by lia.
      rewrite (eqq_mod q (- x)). constructor. replace (q - - x) with (x + 1 * q) by lia. apply Z.mod_add. lia.
  - destruct (Z.eqb_spec (len LOGQ) 1); [reflexivity|]. apply eqq_mod.
Qed.
