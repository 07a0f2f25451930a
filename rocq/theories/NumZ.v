(** Number theory on Z used for the NTT: prime divisors, orders, generators. *)
From Coq Require Import ZArith List Bool Lia Znumtheory Zpow_facts FinFun.
From Verif Require Import Base BaseFacts Mod ModFacts Util NTT NumFermat.
Import ListNotations.
Open Scope Z_scope.

Lemma prime_div_exists n : 1 < n -> exists p, prime p /\ (p | n).
Proof.
  intros Hn. assert (G : forall m, 0 <= m -> forall k, k <= m -> 1 < k -> exists p, prime p /\ (p | k)).
  { intros m Hm. pattern m. apply natlike_ind; auto; clear m Hm.
    - intros; lia.
    - intros m Hm IH k Hk Hk1. destruct (prime_dec k) as [Hp|Hp].
      + exists k. split; auto. apply Z.divide_refl.
      + destruct (not_prime_divide k Hk1 Hp) as (d & Hd & Hdk).
        destruct (IH d) as (p & Hpp & Hpd); try lia. exists p. split; auto. eapply Z.divide_trans; eauto. }
  apply (G n); lia.
Qed.

Lemma prime_pos p : prime p -> 2 <= p.
Proof. apply prime_ge_2. Qed.

Lemma prime_dvd_eq p r : prime p -> prime r -> (p | r) -> p = r.
Proof.
  intros Hp Hr Hd. pose proof (prime_pos _ Hp). pose proof (prime_pos _ Hr).
  destruct (prime_divisors r Hr p Hd) as [|[|[|]]]; lia.
Qed.

Lemma dvd_pos_le p n : 0 < n -> (p | n) -> p <= n.
Proof. intros. apply Z.divide_pos_le; auto. Qed.

(** *** Modular powers *)

Lemma pow_mod_mul q a m n : 0 < q -> 0 <= m -> 0 <= n -> a ^ m mod q = 1 mod q -> a ^ (m * n) mod q = 1 mod q.
Proof.
  intros Hq Hm Hn H. rewrite Z.pow_mul_r by lia. rewrite Zpower_mod by lia. rewrite H.
  rewrite <- Zpower_mod by lia. rewrite Z.pow_1_l by lia. reflexivity.
Qed.

Lemma pow_mod_cancel q a m n : 0 < q -> 0 <= m -> 0 <= n -> a ^ m mod q = 1 mod q ->
  a ^ (m + n) mod q = a ^ n mod q.
Proof.
  intros Hq Hm Hn H. rewrite Z.pow_add_r by lia. rewrite Z.mul_mod, H by lia.
  rewrite <- Z.mul_mod by lia. rewrite Z.mul_1_l. reflexivity.
Qed.

Lemma pow_mod_gcd q a k n : 0 < q -> 0 < k -> 0 < n ->
  a ^ k mod q = 1 mod q -> a ^ n mod q = 1 mod q -> a ^ (Z.gcd k n) mod q = 1 mod q.
Proof.
  intros Hq Hk Hn H1 H2. destruct (Z.gcd_bezout k n (Z.gcd k n) eq_refl) as (u & v & E).
  set (g := Z.gcd k n) in *. assert (Hg : 0 <= g) by apply Z.gcd_nonneg.
  set (t := Z.abs u + Z.abs v).
  assert (Ht : 0 <= u + t * n) by nia. assert (Ht2 : 0 <= t * k - v) by nia.
  pose proof (pow_mod_mul q a k (u + t * n) Hq ltac:(lia) Ht H1) as E1.
  pose proof (pow_mod_mul q a n (t * k - v) Hq ltac:(lia) Ht2 H2) as E2.
  replace (k * (u + t * n)) with (n * (t * k - v) + g) in E1 by lia.
  rewrite pow_mod_cancel in E1 by (auto; nia). exact E1.
Qed.

(** If no a^(n/p) is 1, the order of a is n. *)
Lemma order_test q a n : 1 < q -> 0 < n -> a ^ n mod q = 1 ->
  (forall p, prime p -> (p | n) -> a ^ (n / p) mod q <> 1) ->
  forall k, 0 <= k -> a ^ k mod q = 1 -> (n | k).
Proof.
  intros Hq Hn H1 Ht k Hk Hk1. assert (E1 : 1 mod q = 1) by (apply Z.mod_small; lia).
  destruct (Z.eq_dec k 0) as [->|Hk0]; [apply Z.divide_0_r|].
  pose proof (pow_mod_gcd q a k n ltac:(lia) ltac:(lia) Hn ltac:(congruence) ltac:(congruence)) as Hg.
  pose proof (Z.gcd_divide_l k n) as Hd1. pose proof (Z.gcd_divide_r k n) as Hd2.
  assert (Hgp : 0 < Z.gcd k n).
  { pose proof (Z.gcd_nonneg k n). destruct (Z.eq_dec (Z.gcd k n) 0) as [E|]; [|lia].
    apply Z.gcd_eq_0_l in E. lia. }
  set (g := Z.gcd k n) in *. destruct Hd2 as [m Hm].
  destruct (Z.eq_dec m 1) as [->|Hm1]; [rewrite Z.mul_1_l in Hm; subst g; rewrite Hm; auto|].
  exfalso. assert (1 < m) by nia. destruct (prime_div_exists m ltac:(lia)) as (p & Hp & [c Hc]).
  pose proof (prime_pos _ Hp).
  apply (Ht p Hp). { exists (c * g). nia. }
  replace (n / p) with (g * c).
  - rewrite pow_mod_mul; auto; nia.
  - rewrite Hm, Hc. replace (c * p * g) with (g * c * p) by lia. rewrite Z.div_mul; lia.
Qed.

(** *** Lists of consecutive integers *)

Definition zrange (lo n : Z) : list Z := map (fun i => lo + Z.of_nat i) (seq 0 (Z.to_nat n)).

Lemma zrange_length lo n : length (zrange lo n) = Z.to_nat n.
Proof. unfold zrange. rewrite map_length, seq_length. reflexivity. Qed.

Lemma zrange_in lo n x : In x (zrange lo n) <-> lo <= x < lo + n.
Proof.
  unfold zrange. rewrite in_map_iff. split.
  - intros (i & <- & Hi). apply in_seq in Hi. lia.
  - intros H. exists (Z.to_nat (x - lo)). split; [lia|]. apply in_seq. lia.
Qed.

Lemma zrange_NoDup lo n : NoDup (zrange lo n).
Proof. apply FinFun.Injective_map_NoDup; [|apply seq_NoDup]. intros i j. lia. Qed.

Lemma NoDup_map_inj {A B} (f : A -> B) l :
  (forall x y, In x l -> In y l -> f x = f y -> x = y) -> NoDup l -> NoDup (map f l).
Proof.
  intros Hf. induction l as [|x l IH]; intros Hd; cbn; [constructor|].
  inversion Hd; subst. constructor.
  - intros Hin. apply in_map_iff in Hin as (y & E & Hy).
    apply Hf in E; [subst; contradiction|right; auto|left; auto].
  - apply IH; auto. intros; apply Hf; auto; right; auto.
Qed.

(** [r] generates the nonzero residues modulo [q]. *)
Definition generates (q r : Z) : Prop := forall x, 1 <= x < q -> exists k, 0 <= k /\ r ^ k mod q = x.

Lemma not_dvd_of_pow q r n : 1 < q -> 0 < n -> r ^ n mod q = 1 -> ~ (q | r).
Proof.
  intros Hq Hn H [c Hc]. subst r. rewrite Z.pow_mul_l in H.
  assert (Hz : (c ^ n * q ^ n) mod q = 0).
  { apply Z.mod_divide; [lia|]. apply Z.divide_mul_r. exists (q ^ (n - 1)).
    rewrite <- (Z.pow_1_r q) at 3. rewrite <- Z.pow_add_r by lia. f_equal. lia. }
  lia.
Qed.

Lemma pow_not_dvd q r k : prime q -> ~ (q | r) -> 0 <= k -> ~ (q | r ^ k).
Proof.
  intros Hq Hr Hk. pose proof (prime_pos _ Hq). pattern k. apply natlike_ind; auto; clear k Hk.
  - rewrite Z.pow_0_r. intros Hd. apply Z.divide_1_r_nonneg in Hd; lia.
  - intros k Hk IH Hd. rewrite Z.pow_succ_r in Hd by auto. apply prime_mult in Hd; tauto.
Qed.

Lemma order_generates q r : prime q -> ~ (q | r) ->
  (forall k, 0 <= k -> r ^ k mod q = 1 -> (q - 1 | k)) -> generates q r.
Proof.
  intros Hq Hr Ho. pose proof (prime_pos _ Hq) as H2.
  set (f := fun i => r ^ i mod q).
  assert (Hinj : forall x y, In x (zrange 0 (q - 1)) -> In y (zrange 0 (q - 1)) -> f x = f y -> x = y).
  { assert (G : forall x y, 0 <= x <= y -> y < q - 1 -> f x = f y -> x = y).
    { intros x y Hx Hy E. unfold f in E. replace y with (x + (y - x)) in E by lia.
      rewrite Z.pow_add_r in E by lia.
      assert (Hd : (q | r ^ x * (r ^ (y - x) - 1))).
      { apply Z.mod_divide; [lia|]. rewrite Z.mul_sub_distr_l, Z.mul_1_r, Zminus_mod, <- E, Z.sub_diag.
        reflexivity. }
      apply prime_mult in Hd; auto. destruct Hd as [Hd|Hd]; [exfalso; revert Hd; apply pow_not_dvd; auto; lia|].
      assert (E1 : r ^ (y - x) mod q = 1).
      { destruct Hd as [c Hc]. replace (r ^ (y - x)) with (1 + c * q) by lia. rewrite Z.mod_add by lia.
        apply Z.mod_small. lia. }
      apply Ho in E1; [|lia]. destruct (Z.eq_dec y x); [lia|]. apply dvd_pos_le in E1; lia. }
    intros x y Hx Hy E. apply zrange_in in Hx, Hy. destruct (Z_le_gt_dec x y).
    - apply G; auto; lia.
    - symmetry. apply G; auto; lia. }
  pose proof (NoDup_map_inj f _ Hinj (zrange_NoDup 0 (q - 1))) as Hnd.
  assert (Hincl : incl (map f (zrange 0 (q - 1))) (zrange 1 (q - 1))).
  { intros y Hy. apply in_map_iff in Hy as (x & <- & Hx). apply zrange_in in Hx. apply zrange_in. unfold f.
    pose proof (Z.mod_pos_bound (r ^ x) q ltac:(lia)).
    destruct (Z.eq_dec (r ^ x mod q) 0) as [E|]; [|lia]. apply Z.mod_divide in E; [|lia].
    exfalso. revert E. apply pow_not_dvd; auto. lia. }
  apply NoDup_length_incl in Hincl; auto; [|rewrite map_length, !zrange_length; lia].
  intros x Hx. assert (Hin : In x (map f (zrange 0 (q - 1)))) by (apply Hincl, zrange_in; lia).
  apply in_map_iff in Hin as (k & E & Hk). apply zrange_in in Hk. exists k. split; [lia|]. exact E.
Qed.

Lemma short_order_not_generates q r d : 1 < q -> 0 < d < q - 1 -> r ^ d mod q = 1 -> ~ generates q r.
Proof.
  intros Hq Hd Hr Hg. set (f := fun i => r ^ i mod q).
  assert (E1 : 1 mod q = 1) by (apply Z.mod_small; lia).
  assert (Hincl : incl (zrange 1 (q - 1)) (map f (zrange 0 d))).
  { intros x Hx. apply zrange_in in Hx. destruct (Hg x ltac:(lia)) as (k & Hk & E).
    apply in_map_iff. exists (k mod d). pose proof (Z.mod_pos_bound k d ltac:(lia)). split.
    - unfold f. rewrite <- E. pose proof (Z.div_mod k d ltac:(lia)) as Ek. rewrite Ek at 2.
      rewrite pow_mod_cancel; auto; try lia.
      + apply Z.mul_nonneg_nonneg; [lia|]. apply Z.div_pos; lia.
      + apply pow_mod_mul; try lia. apply Z.div_pos; lia.
    - apply zrange_in. lia. }
  pose proof (NoDup_incl_length (zrange_NoDup 1 (q - 1)) Hincl) as Hl.
  rewrite map_length, !zrange_length in Hl. lia.
Qed.

(** *** findPrimeFactors *)

Lemma set_insert_in x s y : In y (set_insert x s) <-> y = x \/ In y s.
Proof.
  induction s as [|z s IH]; cbn; [intuition|].
  destruct (Z.ltb_spec x z); cbn; [intuition|]. destruct (Z.eqb_spec x z); cbn.
  - subst. intuition.
  - rewrite IH. intuition.
Qed.

(** Strictly ascending. *)
Fixpoint ascending (s : list Z) : Prop :=
  match s with
  | [] => True
  | x :: t => (forall y, In y t -> x < y) /\ ascending t
  end.

Lemma set_insert_asc x s : ascending s -> ascending (set_insert x s).
Proof.
  induction s as [|z s IH]; cbn; [intuition|]. intros [H1 H2].
  destruct (Z.ltb_spec x z); cbn.
  - split; auto. intros y [<-|Hy]; auto. specialize (H1 y Hy). lia.
  - destruct (Z.eqb_spec x z); cbn; auto. split; auto.
    intros y Hy. apply set_insert_in in Hy as [->|Hy]; auto. lia.
Qed.

Section FPF.
  Variable n0 : Z.
  Hypothesis Hn0 : 1 <= n0 < (2 ^ 32 - 1) * (2 ^ 32 - 1).

  (** what is known of the pair (set, remaining cofactor) when all prime divisors below i are out *)
  Definition fpf_inv (i : Z) (s : list Z) (n : Z) : Prop :=
    ascending s /\ 1 <= n <= n0 /\ (forall p, In p s -> prime p) /\
    (forall p, prime p -> ((p | n0) <-> In p s \/ (p | n))) /\
    (forall p, prime p -> (p | n) -> i <= p).

  Lemma fpf_step i s n : 2 <= i -> fpf_inv i s n -> n mod i = 0 ->
    fpf_inv i (set_insert i s) (n / i) /\ n / i < n.
  Proof.
    intros Hi (Ha & Hn & Hs & Hp & Hl) Hm. apply Z.mod_divide in Hm; [|lia]. destruct Hm as [c Hc].
    assert (Ec : n / i = c) by (rewrite Hc; apply Z.div_mul; lia). rewrite Ec.
    assert (Hpi : prime i).
    { destruct (prime_div_exists i ltac:(lia)) as (r & Hr & Hri).
      assert (r = i); [|subst; auto]. pose proof (dvd_pos_le r i ltac:(lia) Hri).
      assert (i <= r); [|lia]. apply Hl; auto. apply Z.divide_trans with i; auto. exists c. lia. }
    split; [|nia]. unfold fpf_inv. split; [apply set_insert_asc; auto|]. split; [nia|].
    split; [|split].
    - intros p Hin. apply set_insert_in in Hin as [->|]; auto.
    - intros p Hpp. rewrite set_insert_in. split; intros Hd.
      + apply Hp in Hd; auto. destruct Hd as [|Hd]; [auto|].
        subst n. apply prime_mult in Hd; auto. destruct Hd as [|Hd]; auto.
        apply prime_dvd_eq in Hd; auto.
      + apply Hp; auto. destruct Hd as [[->|]|]; auto.
        * right. exists c. auto.
        * right. subst n. apply Z.divide_mul_l. auto.
    - intros p Hpp Hd. apply Hl; auto. subst n. apply Z.divide_mul_l. auto.
  Qed.

  Lemma findPrimeFactors_ok :
    exists s, findPrimeFactors n0 = Ok s /\ ascending s /\ forall p, In p s <-> prime p /\ (p | n0).
  Proof.
    unfold findPrimeFactors.
    (* factors 2 *)
    destruct (while_big_run (fun '(s, n) => fpf_inv 2 s n) (fun '(s, n) => n)
      (fun '(s, n) => Ok (n mod 2 =? 0)) (fun '(s, n) => Ok (set_insert 2 s, n / 2)) (@nil Z, n0)) as ([s1 n1] & E & Hi & Hc).
    { intros [s n] (_ & H & _). lia. }
    { intros [s n] H. destruct (Z.eqb_spec (n mod 2) 0) as [Hm|Hm]; [right|left]; auto. split; auto.
      eexists. split; [reflexivity|]. apply fpf_step; auto; lia. }
    { unfold fpf_inv. cbn. split; [auto|]. split; [lia|]. split; [tauto|]. split; [tauto|].
      intros p Hp _. apply prime_pos; auto. }
    { lia. }
    rewrite E. cbn [bind]. clear E.
    assert (Hodd : n1 mod 2 <> 0) by (destruct (Z.eqb_spec (n1 mod 2) 0); [discriminate|auto]). clear Hc.
    (* odd factors *)
    pose (INV := fun '(s, n, i) => fpf_inv i s n /\ 3 <= i < 2 ^ 32 /\ i mod 2 = 1).
    match goal with |- exists s, bind (while_big ?c ?b ?x) _ = _ /\ _ => 
      destruct (while_big_run INV (fun '(s, n, i) => 2 ^ 32 - i) c b x) as ([[s2 n2] i2] & E & Hi2 & Hc) end.
    { intros [[s n] i] [_ H]. lia. }
    { intros [[s n] i] (Hv & H3 & Ho).
      assert (Hii : wmul i i = i * i) by (unfold wmul, wrap; apply Z.mod_small; unfold W; nia).
      rewrite Hii. destruct (Z.leb_spec (i * i) n) as [Hle|Hgt]; [right|left; auto]. split; auto.
      match goal with |- exists s', bind (while_big ?c ?b ?x) _ = _ /\ _ =>
        destruct (while_big_run (fun '(s, n) => fpf_inv i s n) (fun '(s, n) => n) c b x) as ([s' n'] & E & Hi' & Hc) end.
      { intros [s' n'] (_ & H & _). lia. }
      { intros [s' n'] H. unfold wmod, wdiv. destruct (Z.eqb_spec i 0); [lia|]. cbn [bind].
        destruct (Z.eqb_spec (n' mod i) 0) as [Hm|Hm]; [right|left; auto]. split; auto.
        eexists. split; [reflexivity|]. apply fpf_step; auto; lia. }
      { exact Hv. }
      { destruct Hv as (_ & H & _). lia. }
      rewrite E. cbn [bind]. eexists. split; [reflexivity|].
      assert (Hnm : n' mod i <> 0).
      { cbn beta iota in Hc. unfold wmod in Hc. destruct (Z.eqb_spec i 0); [lia|]. cbn [bind] in Hc.
        destruct (Z.eqb_spec (n' mod i) 0); [discriminate|auto]. }
      destruct Hv as (_ & Hn & _).
      assert (Hi1 : i < 2 ^ 32 - 1).
      { destruct (Z_lt_le_dec i (2 ^ 32 - 1)); auto. exfalso.
        assert ((2 ^ 32 - 1) * (2 ^ 32 - 1) <= i * i) by (apply Z.mul_le_mono_nonneg; lia). lia. }
      assert (Hi232 : i + 2 < 2 ^ 32) by (pose proof (Z.div_mod i 2 ltac:(lia)); lia).
      assert (Hwa : wadd i 2 = i + 2) by (unfold wadd, wrap; apply Z.mod_small; unfold W; lia).
      rewrite Hwa. split; [|lia]. split; [|split; [lia|rewrite Z.add_mod, Ho by lia; reflexivity]].
      destruct Hi' as (Ha & Hn' & Hs & Hp & Hl). split; [auto|split; [lia|split; [auto|split; [auto|]]]].
      intros p Hpp Hd. pose proof (Hl p Hpp Hd). destruct (Z.eq_dec p i) as [->|].
      { exfalso. apply Hnm. apply Z.mod_divide; [lia|auto]. }
      destruct (Z.eq_dec p (i + 1)) as [->|]; [|lia]. exfalso.
      assert (H2 : (2 | i + 1)). { apply Z.mod_divide; [lia|]. rewrite Z.add_mod, Ho by lia. reflexivity. }
      apply prime_dvd_eq in H2; auto; [lia|apply prime_2]. }
    { destruct Hi as (Ha & Hn & Hs & Hp & Hl). split; [|split; [lia|reflexivity]].
      split; [auto|split; [lia|split; [auto|split; [auto|]]]].
      intros p Hpp Hd. pose proof (Hl p Hpp Hd). destruct (Z.eq_dec p 2) as [->|]; [|lia].
      exfalso. apply Hodd. apply Z.mod_divide; [lia|auto]. }
    { reflexivity. }
    rewrite E. cbn [bind]. clear E.
    destruct Hi2 as ((Ha & Hn & Hs & Hp & Hl) & H3 & Ho).
    assert (Hii : wmul i2 i2 = i2 * i2) by (unfold wmul, wrap; apply Z.mod_small; unfold W; nia).
    cbn beta iota in Hc. rewrite Hii in Hc.
    assert (Hlt : n2 < i2 * i2) by (destruct (Z.leb_spec (i2 * i2) n2); [discriminate|auto]).
    assert (Hcase : n2 = 1 \/ (prime n2 /\ 2 < n2)).
    { destruct (Z.eq_dec n2 1); [auto|right]. destruct (prime_div_exists n2 ltac:(lia)) as (p & Hpp & Hd).
      pose proof (Hl p Hpp Hd). destruct Hd as [m Hm]. destruct (Z.eq_dec m 1) as [->|].
      - rewrite Z.mul_1_l in Hm. subst. split; auto. lia.
      - exfalso. pose proof (prime_pos _ Hpp). destruct (prime_div_exists m ltac:(nia)) as (r & Hr & Hrm).
        assert (i2 <= r). { apply Hl; auto. subst n2. apply Z.divide_mul_l; auto. }
        apply dvd_pos_le in Hrm; nia. }
    eexists. split; [reflexivity|]. destruct Hcase as [->|[Hpn Hgt]].
    - replace (1 >? 2) with false by reflexivity. split; auto. intros p. split.
      + intros Hin. split; auto. apply Hp; auto.
      + intros [Hpp Hd]. apply Hp in Hd; auto. destruct Hd as [|Hd]; auto.
        apply Z.divide_1_r_nonneg in Hd; pose proof (prime_pos _ Hpp); lia.
    - replace (n2 >? 2) with true by (symmetry; apply Z.gtb_lt; lia). split; [apply set_insert_asc; auto|].
      intros p. rewrite set_insert_in. split.
      + intros [->|Hin]; split; auto; apply Hp; auto. right. apply Z.divide_refl.
      + intros [Hpp Hd]. apply Hp in Hd; auto. destruct Hd as [|Hd]; auto. left. apply prime_dvd_eq; auto.
  Qed.
End FPF.

Lemma findPrimeFactors_zero : findPrimeFactors 0 = Diverge.
Proof.
  unfold findPrimeFactors. rewrite (while_big_forever (fun '(s, n) => n = 0)); auto.
  intros [s n] ->. split; auto. eexists. split; [reflexivity|]. reflexivity.
Qed.

(** *** inv_mod *)

Lemma inv_mod_ok a q : prime q -> q < W -> is_word a -> ~ (q | a) ->
  exists r, inv_mod a q = Ok r /\ 0 < r < q /\ a * r mod q = 1.
Proof.
  intros Hq HW Ha Hd. pose proof (prime_pos _ Hq) as H2. unfold inv_mod.
  assert (E : wsub q 2 = q - 2) by (unfold wsub, wrap; apply Z.mod_small; lia). rewrite E.
  rewrite pow_mod_ok; auto; [|unfold is_word; lia|lia].
  assert (Hm : a * (a ^ (q - 2) mod q) mod q = 1).
  { rewrite Z.mul_mod_idemp_r by lia. rewrite <- Z.pow_succ_r by lia.
    replace (Z.succ (q - 2)) with (q - 1) by lia. apply fermatZ; auto. }
  eexists. split; [reflexivity|]. split; auto.
  pose proof (Z.mod_pos_bound (a ^ (q - 2)) q ltac:(lia)).
  destruct (Z.eq_dec (a ^ (q - 2) mod q) 0) as [E0|]; [|lia].
  rewrite E0, Z.mul_0_r, Z.mod_0_l in Hm; lia.
Qed.

(** *** findPrimitiveRoot *)

Section PR.
  Variable q : Z.
  Hypothesis Hq : prime q.
  Hypothesis Hq2 : 2 < q <= (2 ^ 32 - 1) * (2 ^ 32 - 1).

  Definition pr_good (r : Z) : Prop := forall p, prime p -> (p | q - 1) -> r ^ ((q - 1) / p) mod q <> 1.

  Lemma proot_passed_ok r s : 0 <= r < W -> (forall p, In p s -> prime p) ->
    exists b, proot_passed r (q - 1) q s = Ok b /\
      (b = true <-> forall p, In p s -> r ^ ((q - 1) / p) mod q <> 1).
  Proof.
    intros Hr. induction s as [|p s IH]; intros Hs.
    - exists true. split; auto. split; [intros _ p []|auto].
    - cbn [proot_passed]. assert (Hp : prime p) by (apply Hs; left; auto). pose proof (prime_pos _ Hp).
      unfold wdiv. destruct (Z.eqb_spec p 0); [lia|]. cbn [bind].
      assert (0 <= (q - 1) / p <= q - 1).
      { split; [apply Z.div_pos; lia|apply Z.div_le_upper_bound; nia]. }
      rewrite pow_mod_ok; try (unfold is_word, W in *; lia). cbn [bind].
      destruct (Z.eqb_spec (r ^ ((q - 1) / p) mod q) 1) as [E|E].
      + exists false. split; auto. split; [discriminate|]. intros Hall. exfalso. apply (Hall p); auto. left; auto.
      + destruct IH as (b & -> & Hb); [intros; apply Hs; right; auto|]. exists b. split; auto. rewrite Hb.
        split; intros Hall p' Hin; [destruct Hin as [<-|Hin]|]; auto. apply Hall. right. auto.
  Qed.

  Lemma pr_good_generates r : 0 < r < q -> pr_good r -> generates q r.
  Proof.
    intros Hr Hg.
    assert (Hnd : ~ (q | r)) by (intros Hd; apply dvd_pos_le in Hd; lia).
    apply order_generates; auto. apply order_test; auto; try lia. apply fermatZ; auto.
  Qed.

  Lemma generates_pr_good r : generates q r -> pr_good r.
  Proof.
    intros Hg p Hp Hd E. pose proof (prime_pos _ Hp). destruct Hd as [c Hc].
    assert (Ec : (q - 1) / p = c) by (rewrite Hc; apply Z.div_mul; lia). rewrite Ec in E.
    revert Hg. apply (short_order_not_generates q r c); auto; nia.
  Qed.

  Lemma pr_exists : exists r, 2 <= r <= q - 1 /\ pr_good r.
  Proof.
    destruct (prootZ Hq) as (g & Hg & Ho).
    assert (Hgood : pr_good g) by exact Ho.
    exists g. split; auto.
    destruct (Z.eq_dec g 1) as [->|].
    { exfalso. apply (Hgood 2); [apply prime_2| |].
      - assert (Ho1 : ~ (2 | q)). { intros Hd. apply prime_dvd_eq in Hd; auto; [lia|apply prime_2]. }
        apply Z.mod_divide; [lia|]. destruct (Z.eq_dec (q mod 2) 0) as [E|E].
        + exfalso. apply Ho1, Z.mod_divide; auto. lia.
        + pose proof (Z.mod_pos_bound q 2 ltac:(lia)). assert (E1 : q mod 2 = 1) by lia.
          rewrite Zminus_mod, E1. reflexivity.
      - rewrite Z.pow_1_l by (apply Z.div_pos; lia). apply Z.mod_small. lia. }
    lia.
  Qed.

  Lemma findPrimitiveRoot_ok :
    exists r, findPrimitiveRoot q = Ok r /\ 2 <= r < q /\ generates q r /\
              (forall r', 2 <= r' < r -> ~ generates q r').
  Proof.
    unfold findPrimitiveRoot.
    assert (E : wsub q 1 = q - 1) by (unfold wsub, wrap; apply Z.mod_small; unfold W; lia). rewrite E.
    destruct (findPrimeFactors_ok (q - 1) ltac:(lia)) as (s & -> & _ & Hs). cbn [bind].
    assert (Hgood : forall r, pr_good r <-> forall p, In p s -> r ^ ((q - 1) / p) mod q <> 1).
    { intros r. unfold pr_good. split.
      - intros H p Hin. apply Hs in Hin as [Hp Hd]. auto.
      - intros H p Hp Hd. apply H. apply Hs. auto. }
    destruct pr_exists as (g & Hg & Hgg).
    pose (INV := fun '(r, ret) => 2 <= r <= g /\ (forall r', 2 <= r' < r -> ~ pr_good r') /\
        match ret with Some x => x = r /\ pr_good r | None => True end).
    match goal with |- exists s, bind (while_big ?c ?b ?x) _ = _ /\ _ => 
      destruct (while_big_run INV (fun '(r, ret) => g - r + match ret with Some _ => 0 | None => 1 end) c b x)
        as ([r ret] & E1 & Hi & Hc) end.
    { intros [r [x|]] [H _]; lia. }
    { intros [r ret] (Hr & Hlow & Hret). destruct ret as [x|]; [left; auto|right].
      split; [f_equal; apply Z.leb_le; lia|].
      destruct (proot_passed_ok r s) as (b & -> & Hb); [unfold W; lia|intros p Hp; apply Hs; auto|].
      cbn [bind]. rewrite <- Hgood in Hb. destruct b.
      - eexists. split; [reflexivity|]. repeat split; auto; try lia. apply Hb. auto.
      - eexists. split; [reflexivity|].
        assert (Hw : wadd r 1 = r + 1) by (unfold wadd, wrap; apply Z.mod_small; unfold W; lia). rewrite Hw.
        assert (~ pr_good r) by (intros H; apply Hb in H; discriminate).
        assert (r <> g) by (intros ->; auto). repeat split; try lia.
        intros r' Hr'. destruct (Z.eq_dec r' r) as [->|]; auto. apply Hlow. lia. }
    { repeat split; auto; try lia. }
    { lia. }
    rewrite E1. cbn [bind]. destruct Hi as (Hr & Hlow & Hret).
    destruct ret as [x|].
    - destruct Hret as [-> Hgr]. exists r. split; auto. split; [lia|]. split; [apply pr_good_generates; auto; lia|].
      intros r' Hr' Hgen. apply (Hlow r' Hr'). apply generates_pr_good. auto.
    - exfalso. cbn in Hc. destruct (Z.leb_spec r (q - 1)); [discriminate|lia].
  Qed.
End PR.
